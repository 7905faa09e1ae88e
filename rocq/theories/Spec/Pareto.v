(** Pareto dominance and non-domination fronts, independent of any algorithm. *)
From Verif Require Import Model.Base Model.Pareto Spec.Order.

(** g is at least as good as / better than f in an objective to be maximised ([mx]) or minimised;
    a NaN is comparable with nothing *)
Definition as_good (mx : bool) (g f : num) : Prop :=
  match num_val g, num_val f with
  | Some x, Some y => if mx then ext_le y x else ext_le x y
  | _, _ => False
  end.
Definition strictly_better (mx : bool) (g f : num) : Prop :=
  match num_val g, num_val f with
  | Some x, Some y => if mx then ext_lt y x else ext_lt x y
  | _, _ => False
  end.

(** [dominates mx g f]: at least as good everywhere, strictly better somewhere *)
Definition dominates (mx : list bool) (g f : list num) : Prop :=
  (forall i m a b, nth_error mx i = Some m -> nth_error g i = Some a -> nth_error f i = Some b ->
     as_good m a b) /\
  (exists i m a b, nth_error mx i = Some m /\ nth_error g i = Some a /\ nth_error f i = Some b /\
     strictly_better m a b).

Section Fronts.
Context {A : Type}.
Variable dom : A -> A -> Prop.   (* dom y x: y dominates x *)

(** [rank] numbers the fronts of [pop]: rank 1 exactly for those dominated by nobody; otherwise one
    more than the largest rank among the dominators. *)
Definition front_numbers (pop : list A) (rank : A -> nat) : Prop :=
  forall x, In x pop ->
    1 <= rank x /\
    (forall y, In y pop -> dom y x -> rank y < rank x) /\
    (rank x = 1 \/ exists y, In y pop /\ dom y x /\ rank x = S (rank y)).
End Fronts.

(** full vectors of numbers, none NaN *)
Definition numeric_vectors (mx : list bool) (l : list mo) : Prop :=
  forall x, In x l -> length (o_fit x) = length mx /\ Forall viable (o_fit x).
