(** All the ways the mutations of a run can turn out, and what it means that a run finds a solution. *)
From Verif Require Import Model.Base Model.Scalar Model.Counters Model.Heap Model.Pipeline Model.HeapEa Model.Variation
  Spec.Order Spec.Heap Spec.HeapEa Spec.Odds Spec.Chances.

(** [l] lists, each once, the tables of [T] generations with one entry of [alphabet] for each of [size] children. *)
Definition all_tables {X} (alphabet : list X) (size T : nat) (l : list (list (list X))) : Prop :=
  NoDup l /\ forall t, In t l <-> length t = T /\
    Forall (fun gen => length gen = size /\ Forall (fun x => In x alphabet) gen) t.

(** what a mutator leaves in the genome: a new array, or the old one changed in place *)
Definition outcome_of {G} (r : list G * option (list G)) : list G :=
  match snd r with Some h => h | None => fst r end.

(** clone, mutate, evaluate; the k-th child is mutated with the k-th entry of [gen] *)
Definition search_pipeline {G X} (mutator : X -> list G -> result (list G * option (list G))) (x0 : X) (gen : list X)
  : list (op G) :=
  [OpEval; OpMutate (fun k g => mutator (nth k gen x0) g) false; OpClone].

(** A run that ends, and whose last population holds something at least as good as genome [h]. *)
Definition found {G P} (decoder : option (list G -> result P)) (problem : phen_value G P -> result num)
    (maximize : bool) (h : list G)
    (run : option (result (list nat * world G P num * list (list nat)) * gen_counter)) : Prop :=
  exists final w' earlier gc', run = Some (Ok (final, w', earlier), gc') /\
  exists y, In y final /\
    ~ better maximize (outcome NNan (score decoder problem h)) (outcome NNan (score decoder problem (genes w' y))).

(** mutate_bitflip with its draws on a grid of N points *)
Definition grid_flip (expected probability : option Q) (N : nat) (d : list nat) (g : list Z)
  : result (list Z * option (list Z)) :=
  bind (genome_mutate_bitflip expected probability (grid N d) g) (fun g' => Ok (g', None)).

(** mutate_randint with its coins on a grid of N points and its integers drawn from 0 up to L *)
Definition grid_randint (bs : list (Z * Z)) (expected probability : option Q) (N : nat) (d : list nat * list nat) (g : list Z)
  : result (list Z * option (list Z)) :=
  bind (individual_mutate_randint bs expected probability (grid N (fst d)) (map Z.of_nat (snd d)) g) (fun g' => Ok (g', None)).

(** example: one parent, one child per generation, two bits, each flipped with chance 1/2 (two grid points, one below
    1/2); [ex_start]: the genome of the first parent *)
Definition ex_coins : list (list nat) := [[0;0];[0;1];[1;0];[1;1]].
Definition ex_search (k_elites : nat) (ex_start : list Z) (t : list (list (list nat))) :=
  heap_ea no_decoder max_ones_problem true (fun _ _ _ => true) (0 + Z.of_nat (length t)) k_elites 1
    (fun i => search_pipeline (grid_flip None (Some (1 # 2)%Q) 2) [0; 0] (nth i t [])) (fun _ _ _ _ => 0) (fun _ _ _ => false)
    (fun _ => ex_start) 0 0 false 1 0 ex_world.
(** the fitnesses of the last population *)
Definition ex_last (run : option (result (list nat * world Z unit num * list (list nat)) * gen_counter)) : list (option num) :=
  match run with
  | Some (Ok (final, w', _), _) => map (fun i => i_fitness (w_ind w' i)) final
  | _ => []
  end.
Definition ex_tables1 : list (list (list (list nat))) := map (fun d => [[d]]) ex_coins.
Definition ex_tables2 : list (list (list (list nat))) := flat_map (fun d => map (fun e => [[d]; [e]]) ex_coins) ex_coins.
