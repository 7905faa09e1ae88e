(** Specifications for failed evaluations under several objectives. *)
From Verif Require Import Model.Base Model.Pareto Model.Crowding Spec.Order Spec.Pareto Spec.NsgaRun.

Section Spec.
Variable failed : nat -> bool.
Definition evaluated (x : mo) : Prop := failed (o_id x) = false.
Definition failures (l : list mo) : list mo := filter (fun x => failed (o_id x)) l.
Definition successes (l : list mo) : list mo := filter (fun x => negb (failed (o_id x))) l.
(** y is better than x: both were evaluated and y dominates x *)
Definition better_evaluated (mx : list bool) (y x : mo) : Prop := evaluated y /\ evaluated x /\ dominates mx (o_fit y) (o_fit x).
End Spec.

(** examples, both objectives minimised; individual 9 has failed *)
Definition nine (i : nat) : bool := i =? 9.
Definition nobody (i : nat) : bool := false.
Definition broken : mo := mk_mo 9 [].
(** a child fails in the second generation *)
Definition breaking_pipeline (g : nat) (parents : list mo) : list mo :=
  match g with 0 => [pt 4 30 30; pt 5 70 70; pt 6 75 65] | _ => [pt 7 0 90; broken] end.
