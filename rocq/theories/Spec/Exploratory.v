(** Specifications for the convexity features: convex, concave and affine functions of vectors. *)
From Verif Require Import Model.Base.

(** the point at weight a between x and y *)
Definition between (a : Q) (x y : list Q) : list Q :=
  map (fun i => a * nth i x 0 + (1 - a) * nth i y 0)%Q (seq 0 (length x)).

Section Shape.
(** a function of vectors of length n *)
Variable n : nat.
Variable f : list Q -> Q.
Definition on_segments (P : Q -> Q -> Prop) : Prop := forall a x y, length x = n -> length y = n -> (0 <= a)%Q -> (a <= 1)%Q ->
  P (f (between a x y)) (a * f x + (1 - a) * f y)%Q.
Definition convex := on_segments Qle.
Definition concave := on_segments (fun p c => Qle c p).
Definition affine := on_segments Qeq.
End Shape.

(** a sample of n-vectors with their values *)
Definition evaluated (n : nat) (f : list Q -> Q) (design : list (list Q * Q)) : Prop :=
  forall x v, In (x, v) design -> length x = n /\ (v == f x)%Q.
(** draws that choose two different members of the sample and a weight *)
Definition good_draws (size : nat) (draws : list (nat * nat * Q)) : Prop :=
  forall i j a, In (i, j, a) draws -> i < size /\ j < size /\ i <> j /\ (0 <= a)%Q /\ (a <= 1)%Q.
(** the difference between the function and the chord *)
Definition chord_gap (f : list Q -> Q) (a : Q) (x y : list Q) : Q := (f (between a x y) - (a * f x + (1 - a) * f y))%Q.
(** the share of a list that passes a test *)
Definition share {A} (test : A -> bool) (l : list A) (q : Q) : Prop :=
  (q * inject_Z (Z.of_nat (length l)) == inject_Z (Z.of_nat (length (filter test l))))%Q.
Definition total_of (l : list Q) : Q := fold_right Qplus 0%Q l.
