(** Crowding distance with infinite objective values, as IEEE arithmetic leaves it: where a neighbour is infinite the
    relative distance is inf/inf, NaN, and it stays so until the individual is at an end of a later objective. *)
From Coq Require Import Permutation Sorted.
From Verif Require Import Model.Base Spec.Order Spec.Crowding.

Section Infinite.
Context {A : Type}.
Variable value : nat -> A -> ext.

Definition finite_value (e : ext) : Prop := exists q, e = Fin q.
(** one and the same finite value everywhere *)
Definition flat (k : nat) (l : list A) : Prop := exists q, forall x, In x l -> exists p, value k x = Fin p /\ (p == q)%Q.
(** the members listed by objective k, in one direction or the other *)
Definition listed (k : nat) (l s : list A) : Prop :=
  Permutation l s /\
  (StronglySorted (fun x y => ~ ext_lt (value k y) (value k x)) s \/
   StronglySorted (fun x y => ~ ext_lt (value k x) (value k y)) s).
(** the difference of two finite values, relative to a finite width *)
Definition relative (k : nat) (l : list A) (p n : A) (g : Q) : Prop :=
  exists lo hi a b u v, In lo l /\ In hi l /\ value k lo = Fin a /\ value k hi = Fin b /\
    (forall z, In z l -> ~ ext_lt (value k z) (Fin a) /\ ~ ext_lt (Fin b) (value k z)) /\
    value k p = Fin u /\ value k n = Fin v /\ (g == Qabs (v - u) / (b - a))%Q.

(** a finite distance is added; NaN stays NaN, infinity stays infinite *)
Inductive plus : option ext -> Q -> option ext -> Prop :=
| plus_nan g : plus None g None
| plus_inf g : plus (Some PInf) g (Some PInf)
| plus_fin a g b : (b == a + g)%Q -> plus (Some (Fin a)) g (Some (Fin b)).

(** what objective k makes of the distance [acc] of x, with the members arranged as [s] *)
Inductive objective (k : nat) (l s : list A) (x : A) : option ext -> option ext -> Prop :=
| o_flat acc : flat k l -> objective k l s x acc acc
| o_end acc : ~ flat k l -> at_end s x -> objective k l s x acc (Some PInf)
| o_infinite acc l1 p n l2 : s = l1 ++ p :: x :: n :: l2 ->
    ~ finite_value (value k p) \/ ~ finite_value (value k n) -> objective k l s x acc None
| o_far acc acc' l1 p n l2 : s = l1 ++ p :: x :: n :: l2 -> finite_value (value k p) -> finite_value (value k n) ->
    (exists y, In y l /\ ~ finite_value (value k y)) -> plus acc 0 acc' -> objective k l s x acc acc'
| o_gap acc acc' l1 p n l2 g : ~ flat k l -> s = l1 ++ p :: x :: n :: l2 -> (forall y, In y l -> finite_value (value k y)) ->
    relative k l p n g -> plus acc g acc' -> objective k l s x acc acc'.

(** after the first m objectives, beginning with 0 *)
Inductive objectives (l : list A) (arr : nat -> list A) (x : A) : nat -> option ext -> Prop :=
| os_none : objectives l arr x 0 (Some (Fin 0))
| os_next m v v' : objectives l arr x m v -> objective m l (arr m) x v v' -> objectives l arr x (S m) v'.

Definition distances (m : nat) (l : list A) (dist : A -> option ext) : Prop :=
  exists arr : nat -> list A, (forall k, k < m -> ~ flat k l -> listed k l (arr k)) /\
    forall x, In x l -> objectives l arr x m (dist x).
End Infinite.
