(** C111, continued: means of any number of samples, however numpy brackets and orders the additions. *)
From Verif Require Import Model.Base Model.Floats Model.FloatMeans Spec.Floats Spec.FloatMeans Proofs.Floats Proofs.FloatMeans.
From Coq Require Import QArith Qabs Permutation Lia.
Local Open Scope Q_scope.

(** Adding up from the left is one of the ways covered. *)
Theorem C111_left : forall l, l <> [] -> Forall binary64 l -> mean_f l == mean_in (from_left (length l)) l.
Proof. exact mean_left. Qed.
Print Assumptions C111_left.

(** Averaging never turns round an order that all samples agree on ... *)
Theorem C111_any_order : forall o l l', l <> [] -> Forall2 Qle l l' -> mean_in o l <= mean_in o l'.
Proof. exact mean_in_mono. Qed.
Print Assumptions C111_any_order.

(** ... is right up to the last rounding for whole numbers, in whichever order each is added once ... *)
Theorem C111_any_whole : forall o zs, zs <> [] -> covers o (length zs) -> (Zsum (map Z.abs zs) <= 2 ^ 53)%Z ->
  (Z.of_nat (length zs) <= 2 ^ 53)%Z ->
  nearest (inject_Z (Zsum zs) / inject_Z (Z.of_nat (length zs))) (mean_in o (map inject_Z zs)).
Proof. exact mean_in_nearest. Qed.
Print Assumptions C111_any_whole.

(** ... stays between whole numbers between which the samples lie ... *)
Theorem C111_between : forall o ev n lo hi, (1 <= n)%nat -> covers o n -> (Z.of_nat n <= 2 ^ 53)%Z ->
  (Z.abs lo * Z.of_nat n <= 2 ^ 53)%Z -> (Z.abs hi * Z.of_nat n <= 2 ^ 53)%Z -> (forall k, (k < n)%nat -> inject_Z lo <= ev k /\ ev k <= inject_Z hi) ->
  inject_Z lo <= average_f o ev n /\ average_f o ev n <= inject_Z hi.
Proof. exact average_between. Qed.
Print Assumptions C111_between.

(** ... and the sum misses the true one by at most a factor per level of bracketing, of the sum of the sizes. *)
Theorem C111_error : forall o l, covers o (length l) -> Forall binary64 l ->
  Qabs (sum_in o l - exact_sum l) <= (grow (height o) - 1) * size_sum l.
Proof. exact sum_error. Qed.
Print Assumptions C111_error.

(** The factor is at most twice the number of levels times 2^-53. *)
Theorem C111_error_linear : forall o l, covers o (length l) -> Forall binary64 l -> inject_Z (Z.of_nat (height o)) * eps <= 1 # 4 ->
  Qabs (sum_in o l - exact_sum l) <= 2 * inject_Z (Z.of_nat (height o)) * eps * size_sum l.
Proof. exact sum_error_lin. Qed.
Print Assumptions C111_error_linear.

(** The order matters: eight numbers added as numpy does, and from the left. *)
Theorem C111_independent_refuted : exists l, length l = 8%nat /\ Forall binary64 l /\ covers numpy_eight 8 /\ covers (from_left 8) 8 /\
  ~ mean_in numpy_eight l == mean_in (from_left 8) l.
Proof.
  exists [inject_Z (2 ^ 53); 1; 1; 1; 0; 0; 0; 0]. split; [reflexivity|]. split.
  { assert (B1 : binary64 1) by (apply (b64_int 1); lia). repeat (constructor; [first [exact b64_0|exact B1|apply b64_int; lia]|]). constructor. }
  split; [apply Permutation_refl|]. split; [apply Permutation_refl|]. vm_compute. discriminate.
Qed.
Print Assumptions C111_independent_refuted.

Example C111_numpy_example : covers numpy_eight 8 /\ height numpy_eight = 3%nat /\
  Qeq_bool (mean_in numpy_eight (map inject_Z [1; 2; 3; 4; 5; 6; 7; 8]%Z)) (9 # 2) = true /\ Qle_bool (inject_Z (Z.of_nat 3) * eps) (1 # 4) = true.
Proof. split; [apply Permutation_refl|]. repeat split; vm_compute; reflexivity. Qed.
