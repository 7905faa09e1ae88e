(** Pareto optimality for two objectives that are both minimised. *)
From Coq Require Import Reals QArith.Qreals.
From Verif Require Import Model.Base.
Open Scope R_scope.

(** [a] is at least as good in both objectives and better in one *)
Definition dominates2 (a b : R * R) : Prop :=
  fst a <= fst b /\ snd a <= snd b /\ (fst a < fst b \/ snd a < snd b).

(** [x] is feasible, has a value, and no feasible point's value dominates it *)
Definition pareto_optimal {X} (feasible : X -> Prop) (value : X -> R * R -> Prop) (x : X) : Prop :=
  feasible x /\ exists v, value x v /\ forall y w, feasible y -> value y w -> ~ dominates2 w v.

(** a point with one coordinate per pair of bounds, within them *)
Definition in_box (bounds : list (R * R)) (x : list R) : Prop :=
  Forall2 (fun b v => fst b <= v <= snd b) bounds x.

(** all coordinates but the first are zero *)
Definition zero_tail (x : list R) : Prop := Forall (fun v => v = 0) (tl x).

(** a bit string, and the number of its ones *)
Definition bit_string (x : list Z) : Prop := Forall (fun b => b = 0%Z \/ b = 1%Z) x.
Fixpoint ones (x : list Z) : nat :=
  match x with [] => 0 | b :: r => (if (b =? 1)%Z then 1 else 0) + ones r end%nat.

(** the program [f] returns the objective pair [v] on [x] (an undefined second objective has no value) *)
Definition value_of {X} (f : X -> result (R * option R)) (x : X) (v : R * R) : Prop :=
  f x = Ok (fst v, Some (snd v)).
Definition value_of_zq {X} (f : X -> result (Z * option Q)) (x : X) (v : R * R) : Prop :=
  exists a b, f x = Ok (a, Some b) /\ v = (IZR a, Q2R b).

(** the feasible points of ZDT5 with [n] variables: one of 30 bits, the others of five *)
Definition zdt5_feasible (n : nat) (x : list Z) : Prop := bit_string x /\ length x = (30 + (n - 1) * 5)%nat.
