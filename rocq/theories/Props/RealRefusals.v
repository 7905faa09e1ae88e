(** Properties C23, C60, C61, C63 and C65, continued: which arguments the real-valued functions refuse *)
From Coq Require Import Reals Lia Lra List.
From Verif Require Import Model.Base Model.RealFunctions Model.NeuralExec Model.Zdt Spec.RealFunctions Spec.Refusals2 Spec.RealRefusals
  Proofs.RealFunctions Proofs.GramSchmidt Proofs.RealRefusals.
Local Open Scope nat_scope.

(** In two or more dimensions exactly the linearly independent draws give a matrix; all others fail the assertion. *)
Theorem C60_exactly_independent_draws : forall n draws,
  2 <= n -> length draws = n -> Forall (fun row => length row = n) draws ->
  ((exists m, random_orthonormal_matrix draws = Ok m) <-> independent n draws) /\
  (random_orthonormal_matrix draws = Err AssertionError <-> ~ independent n draws).
Proof. exact orthonormal_exact. Qed.
Print Assumptions C60_exactly_independent_draws.

(** A forward pass fails exactly when the sizes do not fit, at the first layer where they do not; a layer without
    columns is refused by the network, except with softmax, which refuses it itself. *)
Theorem C65_fails_exactly : forall net x e,
  (nn_call sigmoid net x = Err e <-> size_trouble AssertionError (length x) net e) /\
  (nn_call relu net x = Err e <-> size_trouble AssertionError (length x) net e) /\
  (nn_call softmax net x = Err e <-> size_trouble ValueError (length x) net e).
Proof. exact (fun net x e => conj (sigmoid_pass net x e) (conj (relu_pass net x e) (softmax_pass net x e))). Qed.
Print Assumptions C65_fails_exactly.

Theorem C61_refusals : forall (a b c width height alpha : R) gs ls x e,
  (ackley a b c x = Err e <-> x = [] /\ e = ZeroDivisionError) /\
  (gaussian width height x = Err e <-> (width <= 0)%R /\ e = AssertionError) /\
  (cosine_family alpha gs ls x = Err e <->
     length ls <> length gs /\ e = AssertionError \/ length ls = length gs /\ length x <> length gs /\ e = ValueError).
Proof. exact function_refusals. Qed.
Print Assumptions C61_refusals.

Theorem C61_langermann_refusals : forall m c a x e, 0 < m -> langermann m c a x = Err e <->
  (~ rectangle m (length x) a) /\ e = ValueError \/ rectangle m (length x) a /\ length c < m /\ e = IndexError.
Proof. exact langermann_fails. Qed.
Print Assumptions C61_langermann_refusals.

(** A standard deviation too wide for the number of trials has no binomial distribution. *)
Theorem C23_binomial_width_refusals : forall n std e, binomial_p_from_std n std = Err e <->
  n = 0%Z /\ e = ZeroDivisionError \/ n <> 0%Z /\ (1 < 4 * std ^ 2 / IZR n)%R /\ e = ValueError.
Proof. exact binomial_fails. Qed.
Print Assumptions C23_binomial_width_refusals.

(** The ZDT functions refuse exactly a phenome without variables, and, if asked to check, one outside its bounds. *)
Theorem C63_refusals : forall n f check x z e, In f [zdt1; zdt2; zdt3; zdt6] ->
  (f n check x = Err e <->
   x = [] /\ e = IndexError \/ check = true /\ ~ Forall (fun v => 0 <= v <= 1)%R x /\ e = AssertionError) /\
  (zdt4 n check x = Err e <->
   x = [] /\ e = IndexError \/
   exists x0 t, x = x0 :: t /\ check = true /\ ~ ((0 <= x0 <= 1)%R /\ Forall (fun v => -5 <= v <= 5)%R t) /\ e = AssertionError) /\
  (zdt5 n check z = Err e <->
   check = true /\ (length z <> zdt5_length n \/ exists b, In b z /\ b <> 0%Z /\ b <> 1%Z) /\ e = AssertionError).
Proof. exact (fun n f check x z e H => conj (zdt_fails n f check x e H) (conj (zdt4_fails n check x e) (zdt5_fails n check z e))). Qed.
Print Assumptions C63_refusals.

(** dependent draws: the second row is twice the first *)
Example C60_dependent_example : random_orthonormal_matrix [[1; 0]; [2; 0]]%R = Err AssertionError.
Proof.
  apply (C60_exactly_independent_draws 2); [lia|reflexivity|repeat constructor|]. intros I.
  apply (I 1 [2; 0]%R eq_refl). cbn [firstn].
  apply sp_add with (map (Rmult 2) [1; 0]%R) (repeat 0%R 2); [apply sp_scale, sp_in; left; reflexivity|apply sp_zero|reflexivity|].
  intros [|[|[|i]]]; cbn; lra.
Qed.
Example C65_refusals_example :
  nn_call softmax [[[]; []]] [1%R] = Err ValueError /\ nn_call relu [[[]; []]] [1%R] = Err AssertionError /\
  nn_call relu [[[1%R]; [1%R]]; [[1%R]]] [1%R] = Err ValueError.
Proof.
  split; [|split].
  - apply C65_fails_exactly. apply size_empty; reflexivity.
  - apply C65_fails_exactly. apply size_empty; reflexivity.
  - apply C65_fails_exactly. apply size_later; [reflexivity|discriminate|]. apply size_rows. discriminate.
Qed.
Example C63_refusals_example : zdt6 2 true [] = Err IndexError /\ zdt4 2 true [2; 9]%R = Err AssertionError /\ zdt5 1 true [1; 2]%Z = Err AssertionError.
Proof.
  split; [|split; [|reflexivity]].
  - apply (C63_refusals 2 zdt6 true [] [] IndexError); [cbn; auto 10|]. left. split; reflexivity.
  - apply (C63_refusals 2 zdt6 true [2; 9]%R [] AssertionError); [cbn; auto 10|]. right. exists 2%R, [9%R]. repeat split. intros [H _]. lra.
Qed.
