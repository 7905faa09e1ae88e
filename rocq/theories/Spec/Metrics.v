(** Sums of pairwise squared distances and constant columns. *)
From Verif Require Import Model.Base Spec.Problems.

Definition sq (x : Q) : Q := (x * x)%Q.
(** squared Euclidean distance *)
Fixpoint sqdist (a b : list Q) : Q :=
  match a, b with x :: a', y :: b' => (sq (x - y) + sqdist a' b')%Q | _, _ => 0%Q end.
(** the sum over all ordered pairs *)
Definition pairwise_sum (gs : list (list Q)) : Q := Qsum (map (fun a => Qsum (map (sqdist a) gs)) gs).
Definition rectangular (n : nat) (gs : list (list Q)) : Prop := Forall (fun g => length g = n) gs.
Definition same_genome (a b : list Q) : Prop := Forall2 Qeq a b.
Definition constant_column (gs : list (list Q)) (j : nat) : Prop :=
  forall a b, In a gs -> In b gs -> (nth j a 0 == nth j b 0)%Q.
Definition integral (gs : list (list Q)) : Prop := Forall (Forall (fun x => exists z, (x == inject_Z z)%Q)) gs.
