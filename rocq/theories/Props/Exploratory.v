(** Property C70: the convexity features *)
From Verif Require Import Model.Base Model.Exploratory Spec.Exploratory Proofs.Exploratory Proofs.Metrics.
From Coq Require Import Lia Lqa.

(** each test compares the function with the chord between the two chosen points *)
Theorem C70_deltas (score : list Q -> result Q) (design : list (list Q * Q)) (draws : list (nat * nat * Q)) (n : nat) (f : list Q -> Q) :
  evaluated n f design -> good_draws (length design) draws ->
  (forall x, length x = n -> score x = Ok (f x)) -> 2 < length design -> draws <> [] ->
  exists deltas, ela_init score design draws = Ok deltas /\ length deltas = length draws /\
    forall k i j a, nth_error draws k = Some (i, j, a) -> exists x vx y vy d, nth_error design i = Some (x, vx) /\
      nth_error design j = Some (y, vy) /\ nth_error deltas k = Some d /\ (d == chord_gap f a x y)%Q.
Proof. exact (gap_props score design draws n f). Qed.
Print Assumptions C70_deltas.

(** a convex function gives no positive difference, and the two deviations are opposite *)
Theorem C70_convex (n : nat) (f : list Q -> Q) (score : list Q -> result Q) (design : list (list Q * Q)) (draws : list (nat * nat * Q)) :
  convex n f -> evaluated n f design -> good_draws (length design) draws ->
  (forall x, length x = n -> score x = Ok (f x)) -> 2 < length design -> draws <> [] ->
  exists deltas, ela_init score design draws = Ok deltas /\ deltas <> [] /\ Forall (fun d => d <= 0)%Q deltas /\
    (linear_deviation_abs deltas == - linear_deviation deltas)%Q.
Proof. exact (convex_result n f score design draws). Qed.
Print Assumptions C70_convex.

(** a concave function is never taken for a convex one *)
Theorem C70_concave (n : nat) (f : list Q -> Q) (score : list Q -> result Q) (design : list (list Q * Q)) (draws : list (nat * nat * Q)) (t : Q) :
  concave n f -> evaluated n f design -> good_draws (length design) draws ->
  (forall x, length x = n -> score x = Ok (f x)) -> 2 < length design -> draws <> [] -> (t < 0)%Q ->
  exists deltas q, ela_init score design draws = Ok deltas /\ Forall (fun d => 0 <= d)%Q deltas /\ convex_p t deltas = Ok q /\ (q == 0)%Q.
Proof. exact (concave_result n f score design draws t). Qed.
Print Assumptions C70_concave.

(** an affine function gives only zeros *)
Theorem C70_affine (n : nat) (f : list Q -> Q) (score : list Q -> result Q) (design : list (list Q * Q)) (draws : list (nat * nat * Q)) :
  affine n f -> evaluated n f design -> good_draws (length design) draws ->
  (forall x, length x = n -> score x = Ok (f x)) -> 2 < length design -> draws <> [] ->
  exists deltas, ela_init score design draws = Ok deltas /\ Forall (fun d => d == 0)%Q deltas /\
    (linear_deviation_abs deltas == 0)%Q /\ (linear_deviation deltas == 0)%Q.
Proof. exact (affine_result n f score design draws). Qed.
Print Assumptions C70_affine.

(** the hypotheses of the four theorems hold for the square and for a line *)
Example C70_convex_ex : convex 1 (fun x => nth 0 x 0 * nth 0 x 0)%Q /\
  concave 1 (fun x => - (nth 0 x 0 * nth 0 x 0))%Q /\ affine 1 (fun x => 2 * nth 0 x 0 + 1)%Q.
Proof.
  split; [|split]; intros a [|u [|? ?]] [|v [|? ?]] Hx Hy A0 A1; try discriminate; unfold between; cbn [length seq map nth].
  - assert (0 <= a * (1 - a) * ((u - v) * (u - v)))%Q; [|lra]. apply Qmult_le_0_compat; [apply Qmult_le_0_compat; lra|apply sq_nonneg].
  - assert (0 <= a * (1 - a) * ((u - v) * (u - v)))%Q; [|lra]. apply Qmult_le_0_compat; [apply Qmult_le_0_compat; lra|apply sq_nonneg].
  - ring.
Qed.
Example C70_deltas_ex :
  let f x := (nth 0 x 0 * nth 0 x 0)%Q in
  let design := [([0], 0); ([2], 4); ([4], 16)]%Q in
  evaluated 1 f design /\ good_draws (length design) [(0, 1, (1 # 2)%Q); (2, 0, (1 # 4)%Q)] /\
  exists d e, ela_init (fun x => Ok (f x)) design [(0, 1, (1 # 2)%Q); (2, 0, (1 # 4)%Q)] = Ok [d; e] /\ (d == -1)%Q /\ (e == -3)%Q.
Proof.
  split; [intros x v [H|[H|[H|[]]]]; injection H as <- <-; split; reflexivity|]. split.
  - intros i j a [H|[H|[]]]; injection H as <- <- <-; cbn; repeat split; try lia; discriminate.
  - eexists _, _. split; [reflexivity|]. split; reflexivity.
Qed.

(** convex_p is the share of the differences below the threshold, which must be negative *)
Theorem C70_convex_p (t : Q) (deltas : list Q) :
  ((t < 0)%Q -> deltas <> [] -> exists q, convex_p t deltas = Ok q /\ share (fun d => Qltb d t) deltas q /\ (0 <= q)%Q /\ (q <= 1)%Q) /\
  ((0 <= t)%Q -> convex_p t deltas = Err AssertionError).
Proof. exact (conj (ratio_spec (fun d => Qltb d t) t deltas) (ratio_threshold (fun d => Qltb d t) t deltas)). Qed.
Print Assumptions C70_convex_p.
Example C70_convex_p_ex : convex_p (-1 # 10)%Q [-1; 0; -2; 3]%Q = Ok (inject_Z 2 / inject_Z 4)%Q /\ convex_p 0%Q [-1]%Q = Err AssertionError.
Proof. split; reflexivity. Qed.

(** the deviations are means, and only an all-zero list has absolute deviation 0 *)
Theorem C70_deviation (deltas : list Q) : deltas <> [] ->
  (linear_deviation deltas * inject_Z (Z.of_nat (length deltas)) == total_of deltas)%Q /\
  (linear_deviation_abs deltas * inject_Z (Z.of_nat (length deltas)) == total_of (map Qabs deltas))%Q /\
  (Qabs (linear_deviation deltas) <= linear_deviation_abs deltas)%Q /\
  ((linear_deviation_abs deltas == 0)%Q <-> Forall (fun d => d == 0)%Q deltas).
Proof.
  exact (fun N => conj (deviation_mean deltas N) (conj (deviation_abs_mean deltas N)
    (conj (proj1 (deviation_bounds deltas N)) (proj1 (proj2 (deviation_bounds deltas N)))))).
Qed.
Print Assumptions C70_deviation.
Example C70_deviation_ex : (linear_deviation [1; -3] == -1)%Q /\ (linear_deviation_abs [1; -3] == 2)%Q.
Proof. split; reflexivity. Qed.

(** linear_p is 0 whatever was measured: an absolute value is never below a negative threshold *)
Theorem C70_linear_p_is_zero (t : Q) (deltas : list Q) : (t < 0)%Q -> deltas <> [] -> exists q, linear_p t deltas = Ok q /\ (q == 0)%Q.
Proof. exact (linear_zero t deltas). Qed.
Print Assumptions C70_linear_p_is_zero.
Example C70_linear_p_is_zero_ex : exists q, linear_p (-1 # 10)%Q [0; 1]%Q = Ok q /\ (q == 0)%Q.
Proof. eexists. split; reflexivity. Qed.

(** so it does not recognise a linear landscape *)
Theorem C70_linear_p_refuted : exists n f design draws deltas q, affine n f /\ evaluated n f design /\ good_draws (length design) draws /\
  ela_init (fun x => Ok (f x)) design draws = Ok deltas /\ Forall (fun d => d == 0)%Q deltas /\ linear_p (-1 # 1000)%Q deltas = Ok q /\ ~ (q == 1)%Q.
Proof.
  exists 1, (fun x => 2 * nth 0 x 0 + 1)%Q, [([0], 1); ([1], 3); ([2], 5)]%Q, [(0, 1, (1 # 2)%Q)]. eexists _, _.
  split; [apply C70_convex_ex|]. split; [intros x v [H|[H|[H|[]]]]; injection H as <- <-; split; reflexivity|].
  split; [intros i j a [H|[]]; injection H as <- <- <-; cbn; repeat split; try lia; discriminate|].
  split; [reflexivity|]. split; [constructor; [reflexivity|constructor]|]. split; [reflexivity|]. discriminate.
Qed.
Print Assumptions C70_linear_p_refuted.

(** two individuals would do for a pair, but three are demanded *)
Theorem C70_two_individuals_refuted : exists design draws, length design = 2 /\ good_draws (length design) draws /\ draws <> [] /\
  ela_init (fun x => Ok (nth 0 x 0%Q)) design draws = Err AssertionError.
Proof.
  exists [([0], 0); ([1], 1)]%Q, [(0, 1, (1 # 2)%Q)]. split; [reflexivity|].
  split; [intros i j a [H|[]]; injection H as <- <- <-; cbn; repeat split; try lia; discriminate|]. split; [discriminate|reflexivity].
Qed.
Print Assumptions C70_two_individuals_refuted.
