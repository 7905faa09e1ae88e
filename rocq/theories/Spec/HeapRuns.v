(** Operators of the standard representations as stages of a run's pipeline, and what a run must keep to. *)
From Verif Require Import Model.Base Model.Variation Model.Heap Model.Pipeline Model.Executable Model.Transfer
  Spec.Variation Spec.Heap Spec.HeapEa Spec.Executable.
From Verif Require Model.Cgp Spec.Cgp.

(** [between] lies between the clone and evaluate stages *)
Definition breeds_with {G} (variation : op G -> Prop) (ops : list (op G)) : Prop :=
  exists between, ops = OpEval :: between ++ [OpClone] /\ Forall variation between.

(** every gene within its own bounds, both inclusive *)
Definition int_box (bs : list (Z * Z)) (g : list Z) : Prop := Forall2 (fun x b => fst b <= x <= snd b)%Z g bs.
Definition real_box (bs : list (Q * Q)) (g : list Q) : Prop := Forall2 (fun x b => fst b <= x <= snd b)%Q g bs.

(** mutation probability per gene of a genome of length [n] *)
Definition per_gene (expected : Q) (n : nat) : Q := (expected / inject_Z (Z.of_nat n))%Q.

(** *** the stages; draws of the k-th individual or pair are indexed by [k] *)
(** mutate_randint *)
Definition randint_op (bs : list (Z * Z)) (expected : Q) (us : nat -> list Q) (ds : nat -> list Z) : op Z :=
  OpMutate (fun k g => bind (individual_mutate_randint bs (Some expected) None (us k) (ds k) g) (fun g' => Ok (g', None))) false.
(** mutate_binomial *)
Definition binomial_op (bs : list (Z * Z)) (expected : Q) (us : nat -> list Q) (ks fls : nat -> list Z) : op Z :=
  OpMutate (fun k g => bind (genome_mutate_binomial (BEach bs) (Some expected) None (us k) (ks k) (fls k) g)
                         (fun '(inplace, g') => Ok (inplace, Some g'))) false.
(** UniformCrossover and NPointCrossover *)
Definition ux_op {G} (skip : nat -> bool) (masks : nat -> list bool) : op G :=
  OpXover skip (fun k a b => uniform_recombine (masks k) a b) false.
Definition nary_op {G} (skip : nat -> bool) (n : nat) (draws : nat -> list nat) : op G :=
  OpXover skip (fun k a b => nary_recombine n (draws k) a b) false.
(** mutate_gaussian with finite bounds; a gene that is not finite would be no gene of a real genome *)
Fixpoint finite_genes (l : list ext) : result (list Q) :=
  match l with
  | [] => Ok []
  | Fin x :: r => bind (finite_genes r) (fun r' => Ok (x :: r'))
  | _ :: _ => Err OverflowError
  end.
Definition gaussian_op (stds : Q + list Q) (expected : option Q) (bs : list (Q * Q)) (slope intercept : Q)
    (us noise : nat -> list Q) : op Q :=
  OpMutate (fun k g =>
    bind (genome_mutate_gaussian stds expected (BEach (map (fun b => (Fin (fst b), Fin (snd b))) bs)) slope intercept (us k) (noise k) g)
      (fun '(inplace, out) => bind (finite_genes out) (fun g' => Ok (inplace, Some g')))) false.

(** crossovers with as many draws as they ask for *)
Inductive crossing {G} (len : nat) : op G -> Prop :=
| crossing_uniform skip masks : (forall k, length (masks k) = len) -> crossing len (ux_op skip masks)
| crossing_points skip n draws : n <= len -> (forall k, length (draws k) = n /\ Forall (fun p => p < len) (draws k)) ->
    crossing len (nary_op skip n draws).

(** integer genomes: any crossover, any mutation with a proper rate, as many draws as asked for *)
Inductive int_variation (bs : list (Z * Z)) : op Z -> Prop :=
| int_crossing o : crossing (length bs) o -> int_variation bs o
| int_randint expected us ds : (0 <= expected)%Q -> (expected <= inject_Z (Z.of_nat (length bs)))%Q ->
    (forall k, length (us k) = length bs /\ length bs <= length (ds k)) -> int_variation bs (randint_op bs expected us ds)
| int_binomial expected us ks fls : (0 <= expected)%Q -> (expected <= inject_Z (Z.of_nat (length bs)))%Q ->
    (forall k, length (us k) = length bs /\
       length (ks k) = selected_before (us k) (per_gene expected (length bs)) (length bs) /\ length (fls k) = length (ks k)) ->
    int_variation bs (binomial_op bs expected us ks fls).

(** real genomes *)
Inductive real_variation (bs : list (Q * Q)) : op Q -> Prop :=
| real_crossing o : crossing (length bs) o -> real_variation bs o
| real_gaussian stds expected slope intercept us noise p :
    match stds with inl s => (0 <= s)%Q | inr l => length l = length bs end ->
    match expected with
    | None => p = 1%Q
    | Some e => (0 <= e)%Q /\ (e <= inject_Z (Z.of_nat (length bs)))%Q /\ p = per_gene e (length bs)
    end ->
    (forall k, length (us k) = length bs /\ length (noise k) = selected_before (us k) p (length bs)) ->
    real_variation bs (gaussian_op stds expected bs slope intercept us noise).

(** *** truth tables solved by cartesian genetic programming *)
Definition z_list_eqb (a b : list Z) : bool := if list_eq_dec Z.eq_dec a b then true else false.
(** the TruthTableProblem as a problem on decoded graphs; [left]: node outputs left over from before the call *)
Definition truth_table_problem (ni no : nat) (left : Cgp.graph Z -> list Z -> Z -> option Z)
    (function : list Z -> result (list Z)) (pad : bool) (n : nat) (_ : nat) (v : phen_value Z (Cgp.graph Z)) : result num :=
  match v with
  | VVal gr => bind (tt_evaluate z_list_eqb function
                       (fun i => bind (Cgp.call gr ni no (left gr i) i) (fun '(_, vs) => Ok vs)) ni pad n)
                 (fun q => Ok (NFlt true (Fin q)))
  | VArr _ => Err TypeError
  end.
Definition cgp_decoder (d : Cgp.decoder Z) (prune : bool) (_ : nat) : option (list Z -> result (Cgp.graph Z)) :=
  Some (Cgp.decode d prune).

(** the program written in genome [g] computes the target on exactly [k] of the 2^n inputs *)
Definition solves (d : Cgp.decoder Z) (function : list Z -> result (list Z)) (pad : bool) (n : nat) (g : list Z) (k : nat) : Prop :=
  exists nodes outs prog right_on,
    Spec.Cgp.layout d g nodes outs /\ Spec.Cgp.feasible d nodes outs /\ Spec.Cgp.program d (fun _ => []) nodes prog /\
    NoDup right_on /\ length right_on = k /\
    forall i, In i right_on <-> bit_vector n i /\ exists vs, function i = Ok vs /\
      Forall2 (Spec.Cgp.value (Cgp.c_inputs d) prog (filled pad (Cgp.c_inputs d) i)) outs vs.

(** *** examples *)
Definition ex_int_bounds : list (Z * Z) := [(0, 9); (-5, 5)]%Z.
Definition ex_sum_problem (_ : nat) (v : phen_value Z unit) : result num :=
  match v with VArr g => Ok (NInt (fold_right Z.add 0%Z g)) | VVal _ => Err TypeError end.
Definition ex_first_problem (_ : nat) (v : phen_value Q unit) : result num :=
  match v with VArr (x :: _) => Ok (NFlt true (Fin x)) | _ => Err TypeError end.
Definition ex_real_world : world Q unit num :=
  mk_world (fun _ => mk_indiv 0 0 0 None None 0 [] false None None) (fun _ => []) 0 0 0.
(** and, or, xor on two bits, one layer of one node *)
Definition ex_gate (f : Z -> Z -> Z) : Cgp.prim Z :=
  Cgp.mk_prim (Some 2) (fun l => match l with [a; b] => Ok (f a b) | _ => Ok 0%Z end).
Definition ex_logic : Cgp.decoder Z := Cgp.mk_decoder [ex_gate Z.land; ex_gate Z.lor; ex_gate Z.lxor] 2 1 1 1 2 1%Z.
Definition ex_xor (i : list Z) : result (list Z) := match i with [a; b] => Ok [Z.lxor a b] | _ => Err ValueError end.
Definition ex_cgp_world : world Z (Cgp.graph Z) num :=
  mk_world (fun _ => mk_indiv 0 0 0 None None 0 [] false None None) (fun _ => []) 0 0 0.
