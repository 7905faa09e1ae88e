(** Vectors of real numbers. *)
From Coq Require Import Reals.
From Verif Require Import Model.Base.
Open Scope R_scope.

Definition R_sum (l : list R) : R := fold_right Rplus 0 l.

(** inner product *)
Fixpoint inner (a b : list R) : R :=
  match a, b with x :: a', y :: b' => x * y + inner a' b' | _, _ => 0 end.

(** v is a linear combination of the vectors of S (all of length n) *)
Inductive in_span (n : nat) (S : list (list R)) : list R -> Prop :=
| sp_in v : In v S -> in_span n S v
| sp_zero : in_span n S (repeat 0 n)
| sp_scale c v : in_span n S v -> in_span n S (map (Rmult c) v)
| sp_add v w u : in_span n S v -> in_span n S w -> length u = n ->
    (forall i, nth i u 0 = nth i v 0 + nth i w 0) -> in_span n S u.

(** no row is a linear combination of the rows before it *)
Definition independent (n : nat) (rows : list (list R)) : Prop :=
  forall k row, nth_error rows k = Some row -> ~ in_span n (firstn k rows) row.

(** n rows of length n, each of length one, pairwise perpendicular *)
Definition orthonormal (n : nat) (m : list (list R)) : Prop :=
  length m = n /\ Forall (fun row => length row = n) m /\
  forall i k, (i < n)%nat -> (k < n)%nat ->
    inner (nth i m []) (nth k m []) = if (i =? k)%nat then 1 else 0.

(** a whole number *)
Definition whole (x : R) : Prop := exists z, x = IZR z.
