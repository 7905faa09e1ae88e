From Coq Require Import Reals Lra Lia.
From Verif Require Import Model.Base Model.Zdt Spec.Zdt Proofs.Zdt.
Open Scope R_scope.

(** ** C63: the multi-objective benchmarks have the documented Pareto sets and fronts *)

Theorem C63_sch : forall x, pareto_optimal (fun _ => True) (fun x v => v = sch x) x <-> 0 <= x <= 2.
Proof. exact sch_front. Qed.
Print Assumptions C63_sch.

Theorem C63_zdt1 : forall n check x, (2 <= n)%nat -> in_box (unit_bounds n) x ->
  (pareto_optimal (in_box (unit_bounds n)) (value_of (zdt1 n check)) x <-> zero_tail x).
Proof. exact zdt1_front. Qed.
Print Assumptions C63_zdt1.
Theorem C63_zdt2 : forall n check x, (2 <= n)%nat -> in_box (unit_bounds n) x ->
  (pareto_optimal (in_box (unit_bounds n)) (value_of (zdt2 n check)) x <-> zero_tail x).
Proof. exact zdt2_front. Qed.
Print Assumptions C63_zdt2.
Theorem C63_zdt3 : forall n check x, (2 <= n)%nat ->
  pareto_optimal (in_box (unit_bounds n)) (value_of (zdt3 n check)) x -> zero_tail x.
Proof. exact zdt3_front. Qed.
Print Assumptions C63_zdt3.
Theorem C63_zdt4 : forall n check x, (1 <= n)%nat -> in_box (zdt4_bounds n) x ->
  (pareto_optimal (in_box (zdt4_bounds n)) (value_of (zdt4 n check)) x <-> zero_tail x).
Proof. exact zdt4_front. Qed.
Print Assumptions C63_zdt4.
Theorem C63_zdt5 : forall n check x, (2 <= n)%nat -> zdt5_feasible n x ->
  (pareto_optimal (zdt5_feasible n) (value_of_zq (zdt5 n check)) x <-> Forall (fun b => b = 1%Z) (skipn 30 x)).
Proof. exact zdt5_front. Qed.
Print Assumptions C63_zdt5.
Theorem C63_zdt6 : forall n check x, (2 <= n)%nat -> in_box (unit_bounds n) x ->
  (pareto_optimal (in_box (unit_bounds n)) (value_of (zdt6 n check)) x <-> zero_tail x).
Proof. exact zdt6_front. Qed.
Print Assumptions C63_zdt6.

(** The values on the Pareto sets: the documented fronts. *)
Theorem C63_front_values_123 : forall n check x, (2 <= n)%nat -> in_box (unit_bounds n) x -> zero_tail x ->
  zdt1 n check x = Ok (hd 0 x, Some (1 - sqrt (hd 0 x))) /\
  zdt2 n check x = Ok (hd 0 x, Some (1 - hd 0 x ^ 2)) /\
  zdt3 n check x = Ok (hd 0 x, Some (1 - sqrt (hd 0 x) - hd 0 x * sin (10 * PI * hd 0 x))).
Proof. exact front1. Qed.
Print Assumptions C63_front_values_123.
Theorem C63_front_values_4 : forall n check x, (1 <= n)%nat -> in_box (zdt4_bounds n) x -> zero_tail x ->
  zdt4 n check x = Ok (hd 0 x, Some (1 - sqrt (hd 0 x))).
Proof. exact front4. Qed.
Print Assumptions C63_front_values_4.
Theorem C63_front_values_5 : forall n check x, (2 <= n)%nat -> zdt5_feasible n x ->
  Forall (fun b => b = 1%Z) (skipn 30 x) ->
  value_of_zq (zdt5 n check) x (1 + INR (ones (firstn 30 x)), INR (n - 1) / (1 + INR (ones (firstn 30 x)))).
Proof. exact front5. Qed.
Print Assumptions C63_front_values_5.
Theorem C63_front_values_6 : forall n check x, (2 <= n)%nat -> in_box (unit_bounds n) x -> zero_tail x ->
  exists f1, zdt6 n check x = Ok (f1, Some (1 - f1 ^ 2)) /\ f1 = 1 - exp (-4 * hd 0 x) * sin (6 * PI * hd 0 x) ^ 6.
Proof. exact front6. Qed.
Print Assumptions C63_front_values_6.

(** With checking on, a nonempty phenome outside its range is refused and one inside is not. *)
Theorem C63_check : forall n f x, In f [zdt1; zdt2; zdt3; zdt6] -> x <> [] ->
  (f n true x = Err AssertionError <-> ~ Forall (fun v => 0 <= v <= 1) x) /\
  (Forall (fun v => 0 <= v <= 1) x -> exists r, f n true x = Ok r).
Proof. exact zdt_check_unit. Qed.
Print Assumptions C63_check.
Theorem C63_check_zdt4 : forall n x0 t,
  (zdt4 n true (x0 :: t) = Err AssertionError <-> ~ (0 <= x0 <= 1 /\ Forall (fun v => -5 <= v <= 5) t)) /\
  ((0 <= x0 <= 1 /\ Forall (fun v => -5 <= v <= 5) t) -> exists r, zdt4 n true (x0 :: t) = Ok r).
Proof. exact zdt4_check. Qed.
Print Assumptions C63_check_zdt4.
Theorem C63_check_zdt5 : forall n x, (1 <= n)%nat ->
  (zdt5_feasible n x <-> exists r, zdt5 n true x = Ok r) /\
  (~ zdt5_feasible n x <-> zdt5 n true x = Err AssertionError).
Proof. intros n x _. exact (zdt5_checks n x). Qed.
Print Assumptions C63_check_zdt5.

(** Without checking, a negative first variable makes the second objective of ZDT1 and ZDT3 NaN. *)
Theorem C63_negative_first_variable : forall n x0 t, (2 <= n)%nat -> x0 < 0 -> Forall (fun v => 0 <= v <= 1) t ->
  zdt1 n false (x0 :: t) = Ok (x0, None) /\ zdt3 n false (x0 :: t) = Ok (x0, None).
Proof. exact negative_first. Qed.
Print Assumptions C63_negative_first_variable.

Example C63_example_optimal : pareto_optimal (in_box (unit_bounds 2)) (value_of (zdt1 2 true)) [1 / 4; 0].
Proof. apply C63_zdt1; [lia|apply box2; lra|apply zero2]. Qed.
Example C63_example_not_optimal : ~ pareto_optimal (in_box (unit_bounds 2)) (value_of (zdt6 2 true)) [1 / 4; 1].
Proof.
  intros P. pose proof P as [B _]. apply C63_zdt6 in P; [|lia|exact B]. inversion P. lra.
Qed.
Example C63_example_zdt5 : zdt5 2 true (repeat 0%Z 30 ++ repeat 1%Z 5) = Ok (1%Z, Some (1 * (1 / 1))%Q).
Proof. reflexivity. Qed.

(** ZDT3's sine makes the front disconnected: a zero tail does not suffice. *)
Theorem C63_zdt3_converse_refuted : exists n x, (2 <= n)%nat /\ in_box (unit_bounds n) x /\ zero_tail x /\
  ~ pareto_optimal (in_box (unit_bounds n)) (value_of (zdt3 n true)) x.
Proof. exists 2%nat, [3 / 10; 0]. split; [lia|]. exact zdt3_dominated. Qed.
Print Assumptions C63_zdt3_converse_refuted.

(** The check compares values with the range but not the number of values with n: a phenome that is not
    in the problem's space is scored as if it were optimal. *)
Theorem C63_length_checked_refuted : exists n x, ~ in_box (unit_bounds n) x /\ zdt1 n true x = Ok (1, Some 0).
Proof. exists 30%nat, [1; 0; 0]. exact length_unchecked. Qed.
Print Assumptions C63_length_checked_refuted.

(** With one variable a feasible point has no second objective (0 / 0). *)
Theorem C63_one_variable_refuted : exists x, in_box (unit_bounds 1) x /\ zdt1 1 true x = Ok (1 / 2, None).
Proof. exists [1 / 2]. exact one_variable. Qed.
Print Assumptions C63_one_variable_refuted.
