(** Words for the statements about fitness arithmetic in floats. *)
From Verif Require Import Model.Base Model.Floats Model.FloatMeans Spec.Floats Spec.FloatMeans.
From Coq Require Import QArith.
Local Open Scope Q_scope.

(** at least as good, for a maximized or minimized problem *)
Definition as_good (maximize : bool) (better worse : Q) : Prop := if maximize then worse <= better else better <= worse.

(** all IEEE 754 requires of a square root that the theorems need: it is exact where a float is the square root *)
Definition exact_root (root : Q -> Q) : Prop := forall s x, binary64 s -> 0 <= s -> x == s * s -> root x == s.
(** a function with that property *)
Definition square_root (x : Q) : Q :=
  let r := Qred x in Z.sqrt (Qnum r) # Z.to_pos (Z.sqrt (Zpos (Qden r))).

(** what an objective contributes lies between its extremes, whichever way round they are *)
Definition between_extremes (obj : Q * Q * Q * Q) : Prop :=
  let '(f_min, f_max, before, after) := obj in
  binary64 f_min /\ binary64 f_max /\
  ((f_min < f_max /\ f_min <= before /\ before <= after /\ after <= f_max) \/
   (f_max < f_min /\ f_max <= after /\ after <= before /\ before <= f_min)).

(** the squared distance of two points *)
Definition sq_dist (a b : list Z) : Z := Zsum (map (fun '(x, y) => (x - y) * (x - y))%Z (combine a b)).
(** [means] are the column means of [points], which are whole numbers *)
Definition whole_means (points : list (list Z)) (means : list Z) : Prop :=
  forall j, (j < length means)%nat -> Zsum (map (fun p => nth j p 0%Z) points) = (nth j means 0 * Z.of_nat (length points))%Z.
