(** All the ways the mutations of a random search can turn out, and what it means that it visits a solution. *)
From Verif Require Import Model.Base Model.Algorithm Spec.Odds Spec.Search.

(** [l] lists, each once, the sequences of [T] entries of [alphabet]. *)
Definition all_lists {X} (alphabet : list X) (T : nat) (l : list (list X)) : Prop :=
  NoDup l /\ forall t, In t l <-> length t = T /\ Forall (fun x => In x alphabet) t.

(** cyclic_selection, clone, mutate, evaluate, pool(size=1) on a list of one individual, seen through the genomes; the i-th
    run of the pipeline mutates with the i-th entry of [t] *)
Definition walk_pipeline {G X} (mutator : X -> list G -> result (list G * option (list G))) (x0 : X) (t : list X)
  : nat -> rs_ctx -> list (list G) -> result (list (list G)) :=
  fun i _ l => match l with
               | g :: _ => bind (mutator (nth i t x0) g) (fun r => Ok [outcome_of r])
               | [] => Err StopIteration
               end.

(** A search that ends, having recorded a solution. *)
Definition visits {G} (solution : list G -> bool) (run : option (result (list (list G)) * rs_ctx)) : Prop :=
  exists traj c, run = Some (Ok traj, c) /\ exists g, In g traj /\ solution g = true.

(** membership in a list of genomes *)
Definition one_of (hs : list (list Z)) (g : list Z) : bool := if in_dec (list_eq_dec Z.eq_dec) g hs then true else false.
