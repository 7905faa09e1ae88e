(** What is expected of the operators of a generational run, and bit-string examples. *)
From Verif Require Import Model.Base Model.Heap Model.Pipeline Model.Variation Model.Problems Spec.Heap.

Section Spec.
Context {G : Type}.

(** clone first, evaluate last, anything but a second source in between *)
Definition clone_vary_evaluate (ops : list (op G)) : Prop :=
  exists between, ops = OpEval :: between ++ [OpClone] /\ Forall (fun o => is_source o = false) between.

(** an operator never leads out of the set [D] of genomes *)
Definition stays_within (D : list G -> Prop) (o : op G) : Prop :=
  match o with
  | OpMutate f _ => forall k g inplace fresh, D g -> f k g = Ok (inplace, fresh) ->
      D (match fresh with Some h => h | None => inplace end)
  | OpXover _ f _ => forall k a b c d, D a -> D b -> f k a b = Ok (c, d) -> D c /\ D d
  | _ => True
  end.

(** no variation operator raises on genomes in [D] *)
Definition works_on (D : list G -> Prop) (o : op G) : Prop :=
  match o with
  | OpMutate f _ => forall k g, D g -> exists r, f k g = Ok r
  | OpXover _ f _ => forall k a b, D a -> D b -> exists r, f k a b = Ok r
  | _ => True
  end.
End Spec.

(** *** bit strings *)
Definition bit_string (n : nat) (g : list Z) : Prop := length g = n /\ Forall (fun x => x = 0%Z \/ x = 1%Z) g.
(** MaxOnes with its default target as a problem on genome arrays *)
Definition max_ones_problem (_ : nat) (v : phen_value Z unit) : result num :=
  match v with VArr g => bind (max_ones None (BArr g)) (fun z => Ok (NInt z)) | VVal _ => Err TypeError end.
Definition no_decoder (_ : nat) : option (list Z -> result unit) := None.

(** mutate_bitflip with draws [us k] on its k-th individual; uniform crossover with mask [masks k] *)
Definition bitflip_op (expected : Q) (us : nat -> list Q) : op Z :=
  OpMutate (fun k g => bind (genome_mutate_bitflip (Some expected) None (us k) g) (fun g' => Ok (g', None))) false.
Definition uniform_op (skip : nat -> bool) (masks : nat -> list bool) : op Z :=
  OpXover skip (fun k a b => uniform_recombine (masks k) a b) false.
(** clone, flip bits, cross, evaluate *)
Definition bit_pipeline (expected : Q) (us : nat -> list Q) (skip : nat -> bool) (masks : nat -> list bool) : list (op Z) :=
  [OpEval; uniform_op skip masks; bitflip_op expected us; OpClone].

(** example: three-bit genomes, population 2, two generations *)
Definition ex_world : world Z unit num :=
  mk_world (fun _ => mk_indiv 0 0 0 None None 0 [] false None None) (fun _ => []) 0 0 0.
Definition ex_init (k : nat) : list Z := nth k [[0; 1; 0]; [0; 0; 1]]%Z [0; 0; 0]%Z.
Definition ex_us (i k : nat) : list Q := if i =? k then [1 # 10; 9 # 10; 9 # 10]%Q else [9 # 10; 9 # 10; 9 # 10]%Q.
Definition ex_masks (_ _ : nat) : list bool := [false; true; true].
Definition ex_pick (_ : nat) (_ : world Z unit num) (l : list nat) (k : nat) : nat := k mod length l.
