(** Specification of the image-matching fitness *)
From Coq Require Import Reals.
From Verif Require Import Model.Base Spec.RealFunctions.

(** what the executable is asked for: position k of a flat image of width w is column k mod w, row k / w *)
Definition columns_of (w h : nat) : list Z := map (fun k => Z.of_nat (k mod w)) (seq 0 (w * h)).
Definition rows_of (w h : nat) : list Z := map (fun k => Z.of_nat (k / w)) (seq 0 (w * h)).

(** [z] is [q] with its fraction dropped *)
Definition toward_zero (q : Q) (z : Z) : Prop :=
  ((0 <= q)%Q -> (inject_Z z <= q < inject_Z (z + 1))%Q) /\ ((q <= 0)%Q -> (inject_Z (z - 1) < q <= inject_Z z)%Q).

(** a sum over all pixels *)
Definition pixel_sum (w h : nat) (f : nat -> nat -> R) : R :=
  R_sum (map (fun y => R_sum (map (fun x => f x y) (seq 0 w))) (seq 0 h)).

(** the squared distance of two colours *)
Definition colour_distance2 (c d : Z * Z * Z) : R :=
  let '(r, g, b) := c in let '(r', g', b') := d in
  ((IZR r - IZR r') ^ 2 + (IZR g - IZR g') ^ 2 + (IZR b - IZR b') ^ 2)%R.

(** the colour shown at position k of three output channels *)
Definition shows (cr cg cb : list Q) (k : nat) (c : Z * Z * Z) : Prop :=
  let '(r, g, b) := c in
  toward_zero (nth k cr 0%Q) r /\ toward_zero (nth k cg 0%Q) g /\ toward_zero (nth k cb 0%Q) b.
