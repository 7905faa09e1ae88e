(** What counters should do, as sums over the history of operations. *)
From Verif Require Import Model.Base Model.Counters.

(** net effect of one operation *)
Definition op_delta (op : birth_op) : Z := match op with BInc n => n | BDec => (-1)%Z end.

(** sum of a list of integers *)
Definition zsum (l : list Z) : Z := fold_right Z.add 0%Z l.

(** the value after the first n operations *)
Definition value_after (start : Z) (ops : list birth_op) (n : nat) : Z :=
  (start + zsum (map op_delta (firstn n ops)))%Z.

(** number of times callback [f] was told value [v] *)
Definition told (log : list (nat * Z)) (f : nat) (v : Z) : nat :=
  length (filter (fun e => Nat.eqb (fst e) f && Z.eqb (snd e) v) log).

(** the individuals an operation of a branding history is about *)
Definition ids_of_source (s : source) : list nat := match s with SGen l | SList l => l | SInd i => [i] end.
Definition mentioned (op : br_op) : list nat :=
  match op with OBrandPop l => l | OStart s => ids_of_source s | OPull _ => [] | OClone i j => [i; j] end.

(** every clone is a new object, which nobody knew before *)
Definition clones_are_new (birth0 : nat -> option nat) (ops : list br_op) : Prop :=
  forall before i j after, ops = before ++ OClone i j :: after ->
    j <> i /\ birth0 j = None /\ ~ In j (flat_map mentioned before).

(** y is x, or a clone of x, or a clone of a clone, ... *)
Inductive copy_of (ops : list br_op) : nat -> nat -> Prop :=
| copy_self x : copy_of ops x x
| copy_clone x i j : copy_of ops x i -> In (OClone i j) ops -> copy_of ops x j.
