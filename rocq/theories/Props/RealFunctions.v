From Coq Require Import Reals Lra Lia.
From Verif Require Import Model.Base Model.RealFunctions Spec.RealFunctions Proofs.RealFunctions Proofs.GramSchmidt.
Open Scope R_scope.

(** ** C60: random_orthonormal_matrix *)

(** Whatever n-by-n draws are made, a matrix that is returned has orthonormal rows, and for two or more
    dimensions linearly independent draws always produce one. *)
Theorem C60_returned_matrix_is_orthonormal : forall n draws m,
  length draws = n -> Forall (fun row => length row = n) draws ->
  random_orthonormal_matrix draws = Ok m -> orthonormal n m.
Proof. exact returned_orthonormal. Qed.
Print Assumptions C60_returned_matrix_is_orthonormal.

Theorem C60_orthonormal_matrix_partial : forall n draws,
  (2 <= n)%nat -> length draws = n -> Forall (fun row => length row = n) draws -> independent n draws ->
  exists m, random_orthonormal_matrix draws = Ok m /\ orthonormal n m.
Proof. exact orthonormal_matrix. Qed.
Print Assumptions C60_orthonormal_matrix_partial.

Example C60_example_independent : independent 2 [[1; 0]; [1; 1]].
Proof.
  intros [|[|k]] row H; cbn [nth_error firstn] in *.
  - injection H as <-. intros S. apply span_empty with (i := 0%nat) in S. cbn in S. lra.
  - injection H as <-. intros S. apply (span_coordinate 2 [[1; 0]] 1) in S; [cbn in S; lra|]. intros u [<- | []]. reflexivity.
  - destruct k; discriminate.
Qed.
Example C60_example_two : exists m, random_orthonormal_matrix [[1; 0]; [1; 1]] = Ok m /\ orthonormal 2 m.
Proof.
  apply C60_orthonormal_matrix_partial; [lia|reflexivity|repeat constructor|exact C60_example_independent].
Qed.

(** In one dimension the function never succeeds: it looks at matrix[1]. *)
Theorem C60_one_dimension_refuted :
  exists draws, length draws = 1%nat /\ Forall (fun row => length row = 1%nat) draws /\ independent 1 draws /\
    random_orthonormal_matrix draws = Err IndexError.
Proof.
  exists [[1]]. split; [reflexivity|]. split; [repeat constructor|]. split.
  - intros [|[|k]] row H; cbn [nth_error firstn] in *; [|discriminate|discriminate]. injection H as <-.
    intros S. apply span_empty with (i := 0%nat) in S. cbn in S. lra.
  - destruct (one_dimension 1) as [H | H]; [exact H|lra].
Qed.
Print Assumptions C60_one_dimension_refuted.

Theorem C60_one_dimension_never_succeeds : forall v, v <> 0 -> random_orthonormal_matrix [[v]] = Err IndexError.
Proof. intros v H. destruct (one_dimension v) as [E | E]; [exact E|contradiction]. Qed.
Print Assumptions C60_one_dimension_never_succeeds.

(** ** C61: the transcendental benchmarks have the bounds and optima they are documented to have *)

Theorem C61_rastrigin : forall a x, 0 <= a ->
  0 <= rastrigin a x /\ (rastrigin a x = 0 <-> Forall (fun v => v = 0) x).
Proof. exact rastrigin_spec. Qed.
Print Assumptions C61_rastrigin.

Theorem C61_griewank : forall x,
  0 <= griewank x /\ (griewank x = 0 <-> Forall (fun v => v = 0) x).
Proof. exact griewank_spec. Qed.
Print Assumptions C61_griewank.

(** along the axis of coordinate i+1: the parabola and a ripple whose wave length grows with the square root of i+1 *)
Theorem C61_griewank_ripples : forall i k y,
  griewank (repeat 0 i ++ y :: repeat 0 k) = y ^ 2 / 4000 + 1 - cos (y / sqrt (INR (S i))).
Proof. exact griewank_ripples. Qed.
Print Assumptions C61_griewank_ripples.

Theorem C61_ackley : forall a b c x, 0 < a -> 0 < b -> x <> [] ->
  exists v, ackley a b c x = Ok v /\ 0 <= v /\ (v = 0 <-> Forall (fun u => u = 0) x).
Proof. exact ackley_spec. Qed.
Print Assumptions C61_ackley.

Theorem C61_weierstrass : forall kmax a b x, 0 <= a -> Nat.Odd b ->
  0 <= weierstrass kmax a (INR b) x /\ (Forall whole x -> weierstrass kmax a (INR b) x = 0).
Proof. exact weierstrass_spec. Qed.
Print Assumptions C61_weierstrass.

Theorem C61_langermann_bound : forall m c a x v, langermann m c a x = Ok v -> Rabs v <= R_sum (map Rabs c).
Proof. exact langermann_bound. Qed.
Print Assumptions C61_langermann_bound.

Theorem C61_lunacek : forall d mu1 mu2 s x, 0 < d -> 0 <= s ->
  0 <= lunacek d mu1 mu2 s x /\ (lunacek d mu1 mu2 s x = 0 <-> Forall (fun v => v = mu1) x).
Proof. exact lunacek_spec. Qed.
Print Assumptions C61_lunacek.

Theorem C61_lunacek_default_s : forall N, (2 <= N)%nat -> 0 < lunacek_s N < 1.
Proof. exact lunacek_s_ok. Qed.
Print Assumptions C61_lunacek_default_s.

(** the second centre is on the other side of the origin, and the two funnels are level at the origin *)
Theorem C61_lunacek_default_mu2 : forall N mu1 d x, (2 <= N)%nat -> d <= mu1 ^ 2 ->
  let mu2 := lunacek_mu2 N mu1 d in let s := lunacek_s N in
  mu2 <= 0 /\ s * mu2 ^ 2 + d = mu1 ^ 2 /\
  (Forall (fun v => v = 0) x -> R_sum (map (fun v => (v - mu1) ^ 2) x) = d * INR (length x) + s * R_sum (map (fun v => (v - mu2) ^ 2) x)).
Proof. exact lunacek_funnels. Qed.
Print Assumptions C61_lunacek_default_mu2.

(** with N = 1 the default s is negative: the square root in mu_2 is then taken of a negative number *)
Theorem C61_lunacek_one_dimension_refuted : exists N, (1 <= N)%nat /\ lunacek_s N < 0.
Proof. exists 1%nat. split; [lia|exact lunacek_s_one]. Qed.
Print Assumptions C61_lunacek_one_dimension_refuted.

Theorem C61_schwefel_mirror : forall alpha x,
  schwefel alpha (map Ropp x) + schwefel alpha x = 2 * alpha * INR (length x).
Proof. exact schwefel_mirror. Qed.
Print Assumptions C61_schwefel_mirror.

Theorem C61_gaussian : forall width height x, 0 < width ->
  exists v, gaussian width height x = Ok v /\ 0 < v <= 1 /\ (v = 1 <-> Forall (fun u => u = 0) x).
Proof. exact gaussian_spec. Qed.
Print Assumptions C61_gaussian.

(** the peak is not [height] *)
Theorem C61_gaussian_height_refuted : exists width height v, 0 < width /\ 0 < height /\
  gaussian width height [0] = Ok v /\ v <> height.
Proof.
  destruct (gaussian_spec 1 2 [0] ltac:(lra)) as (v & E & B & _). exists 1, 2, v. split; [lra|]. split; [lra|]. split; [exact E|]. lra.
Qed.
Print Assumptions C61_gaussian_height_refuted.

Theorem C61_cosine_family : forall alpha gs ls x, 0 <= alpha -> gs <> [] -> length ls = length gs -> length x = length gs ->
  Forall whole ls ->
  exists v, cosine_family alpha gs ls x = Ok v /\ - (1 + alpha) / 2 <= v <= (1 + alpha) / 2 /\
    (v = - (1 + alpha) / 2 <-> Forall2 (fun g u => whole ((g - 1) * u)) gs x).
Proof. exact cosine_spec. Qed.
Print Assumptions C61_cosine_family.

(** concrete points *)
Example C61_example_ripple : griewank [0; PI * sqrt (INR 2)] = (PI * sqrt (INR 2)) ^ 2 / 4000 + 2.
Proof.
  change (griewank [0; PI * sqrt (INR 2)]) with (griewank (repeat 0 1 ++ PI * sqrt (INR 2) :: repeat 0 0)).
  rewrite (C61_griewank_ripples 1 0 (PI * sqrt (INR 2))). replace (PI * sqrt (INR 2) / sqrt (INR 2)) with PI; [rewrite cos_PI; ring|].
  field. apply Rgt_not_eq, sqrt_lt_R0. cbn. lra.
Qed.
Example C61_example_funnels : lunacek_s 2 * lunacek_mu2 2 (5 / 2) 1 ^ 2 + 1 = 25 / 4.
Proof. destruct (C61_lunacek_default_mu2 2 (5 / 2) 1 [0; 0]) as (_ & E & _); [lia|lra|]. rewrite E. lra. Qed.
Example C61_example_rastrigin : rastrigin 1 [0; 0] = 0 /\ rastrigin 1 [1] <> 0.
Proof.
  split; [apply C61_rastrigin; [lra|repeat constructor]|]. intros H. apply C61_rastrigin in H; [|lra]. inversion H. lra.
Qed.
Example C61_example_ackley : exists v, ackley 20 0.2 (2 * PI) [1; 0] = Ok v /\ 0 < v.
Proof.
  destruct (C61_ackley 20 0.2 (2 * PI) [1; 0]) as (v & E & P & Z); [lra|lra|discriminate|]. exists v. split; [exact E|].
  destruct P as [P | P]; [exact P|]. exfalso. symmetry in P. apply Z in P. inversion P. lra.
Qed.
Example C61_example_weierstrass : weierstrass 3 0.5 (INR 3) [IZR 2; IZR (-1)] = 0.
Proof.
  apply C61_weierstrass; [lra|exists 1%nat; reflexivity|]. constructor; [exists 2%Z; reflexivity|]. constructor; [exists (-1)%Z; reflexivity|constructor].
Qed.
Example C61_example_cosine : exists v, cosine_family 1 [3] [2] [1 / 2] = Ok v /\ v = -1.
Proof.
  destruct (C61_cosine_family 1 [3] [2] [1 / 2]) as (v & E & _ & Z); [lra|discriminate|reflexivity|reflexivity| |].
  - constructor; [exists 2%Z; reflexivity|constructor].
  - exists v. split; [exact E|]. rewrite (proj2 Z); [lra|]. constructor; [exists 1%Z; lra|constructor].
Qed.
Example C61_example_langermann : exists v, langermann 1 [2] [[1]] [0] = Ok v.
Proof. eexists. cbn. reflexivity. Qed.
Example C61_example_griewank : griewank [1] <> 0.
Proof. intros H. apply C61_griewank in H. inversion H. lra. Qed.

(** ** C23: the width of binomial mutation *)

(** The success probability computed for n flips gives exactly the requested variance n p (1 - p) = std^2,
    and a width that n flips cannot reach is refused. *)
Theorem C23_binomial_width : forall n std, (0 < n)%Z ->
  (binomial_p_from_std n std = Err ValueError <-> IZR n < 4 * std ^ 2) /\
  (4 * std ^ 2 <= IZR n -> exists p, binomial_p_from_std n std = Ok p /\
     0 <= p <= 1 / 2 /\ IZR n * p * (1 - p) = std ^ 2).
Proof. exact binomial_p. Qed.
Print Assumptions C23_binomial_width.

Example C23_example_width : exists p, binomial_p_from_std 10000 (1 / 2) = Ok p /\ 0 <= p <= 1 / 2 /\
  IZR 10000 * p * (1 - p) = (1 / 2) ^ 2.
Proof. apply C23_binomial_width; [lia|lra]. Qed.
