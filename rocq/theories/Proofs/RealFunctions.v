(** Lemmas about the transcendental benchmarks. *)
From Coq Require Import Reals Lra Lia Psatz.
From Verif Require Import Model.Base Model.RealFunctions Spec.RealFunctions.
Open Scope R_scope.

Lemma r_sum_R_sum l : r_sum l = R_sum l.
Proof.
  unfold r_sum, R_sum. assert (H : forall l a, fold_left Rplus l a = a + fold_right Rplus 0 l).
  { clear. induction l as [|x l IH]; intros a; cbn [fold_left fold_right]; [lra|]. rewrite IH. lra. }
  rewrite H. lra.
Qed.
Lemma R_sum_cons x l : R_sum (x :: l) = x + R_sum l.
Proof. reflexivity. Qed.
Lemma R_sum_ext {A} (f g : A -> R) l : (forall x, In x l -> f x = g x) -> R_sum (map f l) = R_sum (map g l).
Proof. intros H. f_equal. apply map_ext_in, H. Qed.
Lemma R_sum_plus {A} (f g : A -> R) l : R_sum (map (fun x => f x + g x) l) = R_sum (map f l) + R_sum (map g l).
Proof. induction l as [|x l IH]; cbn [map]; rewrite ?R_sum_cons; [unfold R_sum; cbn; lra|]. rewrite IH. lra. Qed.
Lemma R_sum_scale {A} c (f : A -> R) l : R_sum (map (fun x => c * f x) l) = c * R_sum (map f l).
Proof. induction l as [|x l IH]; cbn [map]; rewrite ?R_sum_cons; [unfold R_sum; cbn; lra|]. rewrite IH. lra. Qed.
Lemma R_sum_const {A} c (l : list A) : R_sum (map (fun _ => c) l) = INR (length l) * c.
Proof. induction l as [|x l IH]; cbn [map length]; rewrite ?R_sum_cons; [unfold R_sum; cbn; lra|]. rewrite IH, S_INR. lra. Qed.
Lemma R_sum_nonneg {A} (f : A -> R) l : (forall x, In x l -> 0 <= f x) -> 0 <= R_sum (map f l).
Proof.
  induction l as [|x l IH]; intros H; cbn [map]; rewrite ?R_sum_cons; [unfold R_sum; cbn; lra|].
  specialize (IH (fun y Hy => H y (or_intror Hy))). specialize (H x (or_introl eq_refl)). lra.
Qed.
Lemma R_sum_zero {A} (f : A -> R) l : (forall x, In x l -> 0 <= f x) -> (R_sum (map f l) = 0 <-> forall x, In x l -> f x = 0).
Proof.
  induction l as [|x l IH]; intros H; [split; [intros _ y []|reflexivity]|].
  assert (N := R_sum_nonneg f l (fun y Hy => H y (or_intror Hy))). specialize (IH (fun y Hy => H y (or_intror Hy))).
  assert (Hx := H x (or_introl eq_refl)). cbn [map]. rewrite R_sum_cons. split.
  - intros E y [<- | Hy]; [lra|]. apply IH; [lra|exact Hy].
  - intros E. rewrite (E x (or_introl eq_refl)). rewrite (proj2 IH); [lra|]. intros y Hy. apply E. right. exact Hy.
Qed.
Lemma R_sum_le {A} (f g : A -> R) l : (forall x, In x l -> f x <= g x) -> R_sum (map f l) <= R_sum (map g l).
Proof.
  induction l as [|x l IH]; intros H; cbn [map]; rewrite ?R_sum_cons; [lra|].
  specialize (IH (fun y Hy => H y (or_intror Hy))). specialize (H x (or_introl eq_refl)). lra.
Qed.

Lemma pow2 x : x ^ 2 = x * x. Proof. ring. Qed.
Lemma pow2_nonneg x : 0 <= x ^ 2. Proof. apply pow2_ge_0. Qed.
Lemma pow2_zero x : x ^ 2 = 0 <-> x = 0.
Proof. rewrite pow2. split; intros H; [nra|subst; ring]. Qed.
Lemma cos_le x : 1 - cos x >= 0. Proof. pose proof (COS_bound x). lra. Qed.

(** ** Rastrigin *)
Lemma rastrigin_sum a x : rastrigin a x = R_sum (map (fun v => v ^ 2 + a * (1 - cos (2 * PI * v))) x).
Proof.
  unfold rastrigin. rewrite r_sum_R_sum. rewrite Rmult_comm, <- (R_sum_const a x), <- R_sum_plus.
  apply R_sum_ext. intros v _. ring.
Qed.
Lemma rastrigin_spec a x : 0 <= a -> 0 <= rastrigin a x /\ (rastrigin a x = 0 <-> Forall (fun v => v = 0) x).
Proof.
  intros Ha. rewrite rastrigin_sum.
  assert (P : forall v, 0 <= v ^ 2 + a * (1 - cos (2 * PI * v))).
  { intros v. pose proof (pow2_nonneg v). pose proof (cos_le (2 * PI * v)). nra. }
  split; [apply R_sum_nonneg; auto|]. rewrite R_sum_zero by auto. rewrite Forall_forall. split; intros H v Hv; specialize (H v Hv).
  - apply pow2_zero. pose proof (pow2_nonneg v). pose proof (cos_le (2 * PI * v)).
    assert (0 <= a * (1 - cos (2 * PI * v))) by (apply Rmult_le_pos; lra). lra.
  - cbv beta in H. subst v. rewrite Rmult_0_r, cos_0. ring.
Qed.

(** ** Griewank *)
Lemma r_prod_le l : Forall (fun v => -1 <= v <= 1) l -> -1 <= r_prod l <= 1.
Proof.
  unfold r_prod. assert (H : forall l a, -1 <= a <= 1 -> Forall (fun v => -1 <= v <= 1) l -> -1 <= fold_left Rmult l a <= 1).
  { clear. induction l as [|x l IH]; intros a Ha H; cbn [fold_left]; [exact Ha|]. inversion H; subst. apply IH; [nra|assumption]. }
  apply H. lra.
Qed.
Lemma r_prod_ones l : Forall (fun v => v = 1) l -> r_prod l = 1.
Proof.
  unfold r_prod. intros H. assert (K : forall a, a = 1 -> fold_left Rmult l a = 1).
  { induction H as [|x l Hx _ IH]; intros a Ha; cbn [fold_left]; [exact Ha|]. apply IH. subst. ring. }
  apply K. reflexivity.
Qed.
Lemma griewank_spec x : 0 <= griewank x /\ (griewank x = 0 <-> Forall (fun v => v = 0) x).
Proof.
  unfold griewank. rewrite r_sum_R_sum. set (p := r_prod _).
  assert (Hp : p <= 1).
  { apply r_prod_le. apply Forall_forall. intros v Hv. apply in_map_iff in Hv. destruct Hv as (u & <- & _). apply COS_bound. }
  assert (P : forall v, 0 <= v ^ 2 / 4000) by (intros v; pose proof (pow2_nonneg v); lra).
  assert (S := R_sum_nonneg (fun v => v ^ 2 / 4000) x (fun v _ => P v)). split; [lra|].
  assert (Z := R_sum_zero (fun v => v ^ 2 / 4000) x (fun v _ => P v)). split.
  - intros H. assert (S0 : R_sum (map (fun v => v ^ 2 / 4000) x) = 0) by lra. apply Forall_forall. intros v Hv.
    apply pow2_zero. pose proof (proj1 Z S0 v Hv). cbv beta in *. lra.
  - intros H. assert (S0 : R_sum (map (fun v => v ^ 2 / 4000) x) = 0).
    { apply Z. rewrite Forall_forall in H. intros v Hv. rewrite (H v Hv). field. }
    assert (P1 : p = 1).
    { apply r_prod_ones. apply Forall_forall. intros v Hv. apply in_map_iff in Hv. destruct Hv as (u & <- & Hu).
      unfold r_map2 in Hu. apply in_map_iff in Hu. destruct Hu as ([a b] & <- & Hab). rewrite Forall_forall in H. cbn [fst snd].
      rewrite (H a (in_combine_l _ _ _ _ Hab)). unfold Rdiv. rewrite Rmult_0_l. apply cos_0. }
    lra.
Qed.

Lemma r_prod_app l m : r_prod (l ++ m) = r_prod l * r_prod m.
Proof.
  assert (A : forall l a, fold_left Rmult l a = a * fold_left Rmult l 1).
  { clear. induction l as [|x l IH]; intros a; cbn [fold_left]; [ring|]. rewrite (IH (a * x)), (IH (1 * x)). ring. }
  unfold r_prod. rewrite fold_left_app, A. reflexivity.
Qed.
Lemma r_map2_app f l1 l2 m1 m2 : length l1 = length m1 -> r_map2 f (l1 ++ l2) (m1 ++ m2) = r_map2 f l1 m1 ++ r_map2 f l2 m2.
Proof.
  unfold r_map2. intros H. revert m1 H. induction l1 as [|x l1 IH]; intros [|y m1] H; try discriminate; [reflexivity|]. cbn. f_equal. apply IH. injection H as H. exact H.
Qed.
Lemma cos_zeros n : forall k, r_prod (map cos (r_map2 Rdiv (repeat 0 n) (map (fun i => sqrt (INR i)) (seq k n)))) = 1.
Proof.
  intros k. apply r_prod_ones. apply Forall_forall. intros v Hv. apply in_map_iff in Hv. destruct Hv as (u & <- & Hu).
  unfold r_map2 in Hu. apply in_map_iff in Hu. destruct Hu as ([a b] & <- & Hab). cbn [fst snd].
  rewrite (repeat_spec _ _ _ (in_combine_l _ _ _ _ Hab)). unfold Rdiv. rewrite Rmult_0_l. apply cos_0.
Qed.
Lemma griewank_ripples i k y : griewank (repeat 0 i ++ y :: repeat 0 k) = y ^ 2 / 4000 + 1 - cos (y / sqrt (INR (S i))).
Proof.
  unfold griewank. rewrite r_sum_R_sum, map_app, app_length. cbn [map length]. rewrite !repeat_length.
  replace (i + S k)%nat with (i + (1 + k))%nat by lia. rewrite !seq_app, !map_app. cbn [seq map].
  rewrite r_map2_app by (rewrite repeat_length, map_length, seq_length; reflexivity).
  change (y :: repeat 0 k) with ([y] ++ repeat 0 k). rewrite r_map2_app by reflexivity.
  rewrite !map_app, !r_prod_app, !cos_zeros. cbn [r_map2 combine map fst snd].
  assert (Z : forall n, R_sum (map (fun v => v ^ 2 / 4000) (repeat 0 n)) = 0).
  { intros n. induction n as [|n IH]; [reflexivity|]. cbn [repeat map]. rewrite R_sum_cons, IH. field. }
  assert (SA : forall l m, R_sum (l ++ m) = R_sum l + R_sum m) by (intros l m; induction l as [|w l IH]; cbn [app]; [unfold R_sum; cbn; ring|rewrite !R_sum_cons, IH; ring]).
  rewrite SA, R_sum_cons, !Z. replace (1 + i)%nat with (S i) by lia. unfold r_prod. cbn [fold_left]. ring.
Qed.

(** ** Ackley *)
Lemma exp_le a b : a <= b -> exp a <= exp b.
Proof. intros [H | ->]; [left; apply exp_increasing, H|right; reflexivity]. Qed.
Lemma ackley_spec a b c x : 0 < a -> 0 < b -> x <> [] ->
  exists v, ackley a b c x = Ok v /\ 0 <= v /\ (v = 0 <-> Forall (fun u => u = 0) x).
Proof.
  intros Ha Hb Hx. assert (Hl : (0 < length x)%nat) by (destruct x; [congruence|cbn; lia]).
  eexists. split; [destruct x; [congruence|reflexivity]|]. rewrite !r_sum_R_sum.
  assert (Hd : 0 < INR (length x)) by (apply lt_0_INR, Hl).
  set (d := INR (length x)) in *. set (q := R_sum (map (fun v => v ^ 2) x)). set (cs := R_sum (map (fun v => cos (c * v)) x)).
  assert (Hq : 0 <= q) by (apply R_sum_nonneg; intros; apply pow2_nonneg).
  assert (Hid : 0 < 1 / d) by (apply Rdiv_lt_0_compat; lra).
  assert (Hcs : 1 / d * cs <= 1).
  { assert (K : cs <= d * 1). { unfold cs, d. rewrite <- (R_sum_const 1 x). apply R_sum_le. intros. apply COS_bound. }
    apply Rmult_le_reg_l with d; [exact Hd|]. field_simplify; lra. }
  assert (E2 : exp (1 / d * cs) <= exp 1) by (apply exp_le, Hcs).
  assert (Hsq : 0 <= sqrt (1 / d * q)) by apply sqrt_pos.
  assert (E1 : exp (- b * sqrt (1 / d * q)) <= 1). { apply Rle_trans with (exp 0); [apply exp_le; nra|rewrite exp_0; lra]. }
  split; [nra|]. split.
  - intros H. assert (T1 : exp (- b * sqrt (1 / d * q)) = 1) by (apply Rle_antisym; [exact E1|]; apply Rmult_le_reg_l with a; [exact Ha|]; lra).
    assert (B0 : - b * sqrt (1 / d * q) = 0). { apply exp_inv. rewrite exp_0. exact T1. }
    assert (S0 : sqrt (1 / d * q) = 0) by nra. apply sqrt_eq_0 in S0; [|nra].
    assert (Q0 : q = 0) by nra. unfold q in Q0. rewrite R_sum_zero in Q0 by (intros; apply pow2_nonneg).
    apply Forall_forall. intros v Hv. apply pow2_zero, Q0, Hv.
  - intros H. rewrite Forall_forall in H.
    assert (Q0 : q = 0). { apply R_sum_zero; [intros; apply pow2_nonneg|]. intros v Hv. rewrite (H v Hv). ring. }
    assert (C0 : cs = d). { unfold cs, d. rewrite <- (Rmult_1_r (INR (length x))), <- (R_sum_const 1 x). apply R_sum_ext. intros v Hv. rewrite (H v Hv), Rmult_0_r. apply cos_0. }
    rewrite Q0, C0, Rmult_0_r, sqrt_0, Rmult_0_r, exp_0. replace (1 / d * d) with 1 by (field; lra). lra.
Qed.

(** ** Weierstrass *)
Lemma cos_odd_pi n : Nat.Odd n -> cos (PI * INR n) = -1.
Proof.
  intros [k ->]. replace (PI * INR (2 * k + 1)) with (PI + 2 * INR k * PI) by (rewrite plus_INR, mult_INR; cbn; ring).
  rewrite cos_period. apply cos_PI.
Qed.
Lemma odd_pow b k : Nat.Odd b -> Nat.Odd (b ^ k).
Proof. intros H. induction k as [|k IH]; [exists 0%nat; reflexivity|]. destruct H as [u Hu], IH as [w Hw]. exists (2 * u * w + u + w)%nat. cbn [Nat.pow]. rewrite Hw, Hu. ring. Qed.
Lemma cos_period_Z x z : cos (x + 2 * IZR z * PI) = cos x.
Proof.
  destruct (Z_le_gt_dec 0 z) as [H | H].
  - rewrite <- (Z2Nat.id z H), <- INR_IZR_INZ. apply cos_period.
  - rewrite <- (cos_period (x + 2 * IZR z * PI) (Z.to_nat (- z))). f_equal. rewrite INR_IZR_INZ, Z2Nat.id by lia. rewrite opp_IZR. ring.
Qed.
Lemma weierstrass_sum kmax a b x :
  weierstrass kmax a b x = R_sum (map (fun v => R_sum (map (fun k => a ^ k * (cos (2 * PI * b ^ k * (v + 0.5)) - cos (PI * b ^ k))) (seq 0 kmax))) x).
Proof.
  unfold weierstrass. cbv zeta. rewrite (r_sum_R_sum (map _ x)), (r_sum_R_sum (map _ (seq 0 kmax))). set (t2 := R_sum (map _ (seq 0 kmax))).
  transitivity (R_sum (map (fun v => r_sum (map (fun k => a ^ k * cos (2 * PI * b ^ k * (v + 0.5))) (seq 0 kmax)) + (-1) * t2) x)).
  - rewrite R_sum_plus, R_sum_const. ring.
  - apply R_sum_ext. intros v _. rewrite r_sum_R_sum. unfold t2. rewrite <- R_sum_scale, <- R_sum_plus. apply R_sum_ext. intros k _. ring.
Qed.
Lemma weierstrass_spec kmax a b x : 0 <= a -> Nat.Odd b ->
  0 <= weierstrass kmax a (INR b) x /\ (Forall whole x -> weierstrass kmax a (INR b) x = 0).
Proof.
  intros Ha Hb. rewrite weierstrass_sum. split.
  - apply R_sum_nonneg. intros v _. apply R_sum_nonneg. intros k _. rewrite <- (pow_INR b k), (cos_odd_pi _ (odd_pow b k Hb)).
    apply Rmult_le_pos; [apply pow_le, Ha|]. pose proof (COS_bound (2 * PI * INR (b ^ k) * (v + 0.5))). lra.
  - intros H. rewrite Forall_forall in H. transitivity (R_sum (map (fun _ : R => 0) x)); [|rewrite R_sum_const; ring].
    apply R_sum_ext. intros v Hv. transitivity (R_sum (map (fun _ : nat => 0) (seq 0 kmax))); [|rewrite R_sum_const; ring].
    apply R_sum_ext. intros k _. rewrite <- (pow_INR b k). destruct (H v Hv) as [z ->].
    replace (2 * PI * INR (b ^ k) * (IZR z + 0.5)) with (PI * INR (b ^ k) + 2 * IZR (Z.of_nat (b ^ k) * z) * PI).
    + rewrite cos_period_Z. ring.
    + rewrite mult_IZR, <- INR_IZR_INZ. replace 0.5 with (/ 2) by lra. field.
Qed.

(** ** Lunacek *)
Lemma lunacek_spec d mu1 mu2 s x : 0 < d -> 0 <= s ->
  0 <= lunacek d mu1 mu2 s x /\ (lunacek d mu1 mu2 s x = 0 <-> Forall (fun v => v = mu1) x).
Proof.
  intros Hd Hs. unfold lunacek. rewrite !r_sum_R_sum.
  set (s1 := R_sum (map (fun v => (v - mu1) ^ 2) x)). set (s2 := R_sum (map (fun v => (v - mu2) ^ 2) x)).
  set (w := R_sum (map (fun v => 1 - cos (2 * PI * (v - mu1))) x)).
  assert (P1 : 0 <= s1) by (apply R_sum_nonneg; intros; apply pow2_nonneg).
  assert (P2 : 0 <= s2) by (apply R_sum_nonneg; intros; apply pow2_nonneg).
  assert (Pw : 0 <= w) by (apply R_sum_nonneg; intros v _; pose proof (cos_le (2 * PI * (v - mu1))); lra).
  assert (Pn : 0 <= INR (length x)) by apply pos_INR.
  assert (Ps : 0 <= d * INR (length x) + s * s2) by nra.
  assert (Pm : 0 <= Rmin s1 (d * INR (length x) + s * s2)) by (apply Rmin_glb; assumption).
  split; [lra|]. split.
  - intros H. assert (M : Rmin s1 (d * INR (length x) + s * s2) = 0) by lra. apply Forall_forall. intros v Hv.
    unfold Rmin in M. destruct (Rle_dec _ _) as [L | L].
    + unfold s1 in M. rewrite R_sum_zero in M by (intros; apply pow2_nonneg). specialize (M v Hv). cbv beta in M. apply (proj1 (pow2_zero _)) in M. lra.
    + exfalso. assert (0 < INR (length x)) by (apply lt_0_INR; destruct x; [destruct Hv|cbn; lia]). nra.
  - intros H. rewrite Forall_forall in H.
    assert (S0 : s1 = 0). { apply R_sum_zero; [intros; apply pow2_nonneg|]. intros v Hv. rewrite (H v Hv). ring. }
    assert (W0 : w = 0). { transitivity (R_sum (map (fun _ : R => 0) x)); [|rewrite R_sum_const; ring]. apply R_sum_ext. intros v Hv. rewrite (H v Hv).
      replace (2 * PI * (mu1 - mu1)) with 0 by ring. rewrite cos_0. ring. }
    rewrite S0, W0. rewrite Rmin_left by lra. ring.
Qed.
Lemma lunacek_s_ok N : (2 <= N)%nat -> 0 < lunacek_s N < 1.
Proof.
  intros H. unfold lunacek_s. apply le_INR in H. cbn in H.
  assert (L : 4.65 < sqrt (INR N + 20)).
  { replace 4.65 with (sqrt (4.65 * 4.65)) by (apply sqrt_square; lra). apply sqrt_lt_1; lra. }
  assert (D : 1 < 2 * sqrt (INR N + 20) - 8.2) by lra. set (t := 2 * sqrt (INR N + 20) - 8.2) in *.
  assert (0 < 1 / t) by (apply Rdiv_lt_0_compat; lra). assert (1 / t < 1). { apply Rmult_lt_reg_l with t; [lra|]. field_simplify; lra. } lra.
Qed.
Lemma lunacek_funnels N mu1 d x : (2 <= N)%nat -> d <= mu1 ^ 2 ->
  let mu2 := lunacek_mu2 N mu1 d in let s := lunacek_s N in
  mu2 <= 0 /\ s * mu2 ^ 2 + d = mu1 ^ 2 /\
  (Forall (fun v => v = 0) x -> R_sum (map (fun v => (v - mu1) ^ 2) x) = d * INR (length x) + s * R_sum (map (fun v => (v - mu2) ^ 2) x)).
Proof.
  intros H Hd mu2 s. destruct (lunacek_s_ok N H) as (S0 & _). fold s in S0.
  assert (Q : 0 <= (mu1 ^ 2 - d) / s) by (apply Rmult_le_pos; [lra|left; apply Rinv_0_lt_compat, S0]).
  assert (E : s * mu2 ^ 2 + d = mu1 ^ 2).
  { unfold mu2, lunacek_mu2. fold s. replace ((- sqrt ((mu1 ^ 2 - d) / s)) ^ 2) with (sqrt ((mu1 ^ 2 - d) / s) * sqrt ((mu1 ^ 2 - d) / s)) by ring.
    rewrite sqrt_sqrt by exact Q. field. lra. }
  split; [unfold mu2, lunacek_mu2; fold s; pose proof (sqrt_pos ((mu1 ^ 2 - d) / s)); lra|]. split; [exact E|].
  intros F. rewrite Forall_forall in F. rewrite (R_sum_ext (fun v => (v - mu1) ^ 2) (fun _ => mu1 ^ 2)), (R_sum_ext (fun v => (v - mu2) ^ 2) (fun _ => mu2 ^ 2)).
  - rewrite !R_sum_const. rewrite <- E. ring.
  - intros v Hv. rewrite (F v Hv). ring.
  - intros v Hv. rewrite (F v Hv). ring.
Qed.
Lemma lunacek_s_one : lunacek_s 1 < 0.
Proof.
  unfold lunacek_s. cbn [INR]. assert (L : sqrt (1 + 20) < 4.6).
  { replace 4.6 with (sqrt (4.6 * 4.6)) by (apply sqrt_square; lra). apply sqrt_lt_1; lra. }
  assert (K : 4.5 < sqrt (1 + 20)).
  { replace 4.5 with (sqrt (4.5 * 4.5)) by (apply sqrt_square; lra). apply sqrt_lt_1; lra. }
  set (t := 2 * sqrt (1 + 20) - 8.2). assert (T : 0.8 < t < 1) by (unfold t; lra). clearbody t.
  assert (1 < 1 / t). { apply Rmult_lt_reg_l with t; [lra|]. field_simplify; lra. } lra.
Qed.

(** ** Langermann *)
Lemma langermann_bound m c a x v : langermann m c a x = Ok v -> Rabs v <= R_sum (map Rabs c).
Proof.
  unfold langermann. destruct (_ && _)%bool; [|discriminate]. destruct (_ =? _)%nat; [|discriminate]. destruct (_ <=? _)%nat; [|discriminate].
  intros H. injection H as <-.
  assert (G : forall l r0, Rabs (fold_left (fun res p => let '(ci, row) := p in
              let q := r_sum (map (fun d => d ^ 2) (r_map2 Rminus x row)) in
              res - ci * exp (-1 / PI * q) * cos (PI * q)) l r0) <= Rabs r0 + R_sum (map (fun p => Rabs (fst p)) l)).
  { induction l as [|[ci row] l IH]; intros r0; cbn [fold_left map]; rewrite ?R_sum_cons; [unfold R_sum; cbn; lra|].
    eapply Rle_trans; [apply IH|]. cbn [fst]. set (q := r_sum _).
    assert (Hq : 0 <= q). { unfold q. rewrite r_sum_R_sum. apply R_sum_nonneg. intros; apply pow2_nonneg. }
    assert (He : 0 < exp (-1 / PI * q) <= 1).
    { split; [apply exp_pos|]. apply Rle_trans with (exp 0); [apply exp_le|rewrite exp_0; lra]. assert (0 < 1 / PI) by (apply Rdiv_lt_0_compat; [lra|apply PI_RGT_0]).
      replace (-1 / PI) with (- (1 / PI)) by (field; apply Rgt_not_eq, PI_RGT_0). nra. }
    assert (Hc := COS_bound (PI * q)). assert (B : Rabs (ci * exp (-1 / PI * q) * cos (PI * q)) <= Rabs ci).
    { rewrite !Rabs_mult. assert (Rabs (exp (-1 / PI * q)) <= 1) by (rewrite Rabs_pos_eq; lra). assert (Rabs (cos (PI * q)) <= 1) by (apply Rabs_le; lra).
      pose proof (Rabs_pos ci). pose proof (Rabs_pos (exp (-1 / PI * q))). pose proof (Rabs_pos (cos (PI * q))).
      assert (Rabs ci * Rabs (exp (-1 / PI * q)) <= Rabs ci) by nra.
      assert (0 <= Rabs ci * Rabs (exp (-1 / PI * q))) by (apply Rmult_le_pos; assumption). nra. }
    assert (T := Rabs_triang r0 (- (ci * exp (-1 / PI * q) * cos (PI * q)))). rewrite Rabs_Ropp in T.
    replace (r0 - ci * exp (-1 / PI * q) * cos (PI * q)) with (r0 + - (ci * exp (-1 / PI * q) * cos (PI * q))) by ring. lra. }
  eapply Rle_trans; [apply G|]. rewrite Rabs_R0, Rplus_0_l.
  clear. revert a. induction c as [|ci c IH]; intros [|row a]; cbn [combine map]; rewrite ?R_sum_cons; cbn [fst].
  - lra.
  - lra.
  - unfold R_sum at 1. cbn [fold_right]. pose proof (Rabs_pos ci). assert (0 <= R_sum (map Rabs c)) by (apply R_sum_nonneg; intros; apply Rabs_pos). lra.
  - specialize (IH a). lra.
Qed.

(** ** Gaussian *)
Lemma gaussian_spec width height x : 0 < width ->
  exists v, gaussian width height x = Ok v /\ 0 < v <= 1 /\ (v = 1 <-> Forall (fun u => u = 0) x).
Proof.
  intros Hw. unfold gaussian. destruct (Rlt_dec 0 width); [|contradiction]. eexists. split; [reflexivity|]. rewrite r_sum_R_sum, Rmult_1_l.
  set (q := R_sum _). assert (Hq : 0 <= q) by (apply R_sum_nonneg; intros; apply pow2_nonneg).
  split; [split; [apply exp_pos|rewrite <- exp_0; apply exp_le; lra]|]. split.
  - intros H. assert (Q0 : q = 0). { assert (- q = 0); [apply exp_inv; rewrite exp_0; exact H|lra]. }
    unfold q in Q0. rewrite R_sum_zero in Q0 by (intros; apply pow2_nonneg). apply Forall_forall. intros v Hv. specialize (Q0 v Hv). cbv beta in Q0. apply (proj1 (pow2_zero _)) in Q0. lra.
  - intros H. rewrite Forall_forall in H. assert (Q0 : q = 0). { apply R_sum_zero; [intros; apply pow2_nonneg|]. intros v Hv. rewrite (H v Hv). field. }
    rewrite Q0, Ropp_0. apply exp_0.
Qed.

(** ** Cosine family *)
Lemma cos_one y : cos y = 1 <-> exists k, y = 2 * IZR k * PI.
Proof.
  split.
  - intros H. replace y with (2 * (y / 2)) in H by field. rewrite cos_2a_sin in H.
    assert (S : sin (y / 2) = 0) by nra. apply sin_eq_0_0 in S. destruct S as [k K]. exists k. lra.
  - intros [k ->]. replace (2 * IZR k * PI) with (0 + 2 * IZR k * PI) by ring. rewrite cos_period_Z. apply cos_0.
Qed.
Fixpoint cos_terms (alpha : R) (gs ls x : list R) : R :=
  match gs, ls, x with
  | g :: gs', l :: ls', v :: x' => (1 - cos ((g - 1) * 2 * PI * v)) + alpha * (1 - cos ((g - 1) * 2 * PI * l * v)) + cos_terms alpha gs' ls' x'
  | _, _, _ => 0
  end.
Lemma cosine_terms alpha gs : forall ls x, length ls = length gs -> length x = length gs ->
  R_sum (r_map2 Rplus (map (fun p => - cos ((fst p - 1) * 2 * PI * snd p)) (combine gs x))
     (map (fun p => - alpha * cos ((fst (fst p) - 1) * 2 * PI * snd (fst p) * snd p)) (combine (combine gs ls) x)))
  = cos_terms alpha gs ls x - INR (length gs) * (1 + alpha).
Proof.
  unfold r_map2. induction gs as [|g gs IH]; intros [|l ls] [|v x] H1 H2; cbn [length] in H1, H2; try lia.
  - unfold R_sum. cbn. ring.
  - cbn [combine map fst snd cos_terms length]. rewrite R_sum_cons, IH by lia. rewrite S_INR. ring.
Qed.
Lemma cos_terms_bound alpha gs : 0 <= alpha -> forall ls x, 0 <= cos_terms alpha gs ls x <= INR (length gs) * (2 * (1 + alpha)).
Proof.
  intros Ha. induction gs as [|g gs IH]; intros ls x; [cbn; lra|]. assert (P := pos_INR (length gs)). cbn [length]. rewrite S_INR.
  destruct ls as [|l ls], x as [|v x]; cbn [cos_terms]; try nra. specialize (IH ls x).
  pose proof (COS_bound ((g - 1) * 2 * PI * v)). pose proof (COS_bound ((g - 1) * 2 * PI * l * v)). nra.
Qed.
Lemma cos_terms_zero alpha gs : 0 <= alpha -> forall ls x, length ls = length gs -> length x = length gs -> Forall whole ls ->
  (cos_terms alpha gs ls x = 0 <-> Forall2 (fun g v => whole ((g - 1) * v)) gs x).
Proof.
  intros Ha. induction gs as [|g gs IH]; intros [|l ls] [|v x] H1 H2 Hl; cbn [length] in H1, H2; try lia; [split; [constructor|reflexivity]|].
  cbn [cos_terms]. inversion Hl as [|? ? Hl1 Hl2]; subst. specialize (IH ls x ltac:(lia) ltac:(lia) Hl2).
  pose proof (cos_terms_bound alpha gs Ha ls x) as [B _]. pose proof (COS_bound ((g - 1) * 2 * PI * v)) as C1. pose proof (COS_bound ((g - 1) * 2 * PI * l * v)) as C2.
  assert (A2 : 0 <= alpha * (1 - cos ((g - 1) * 2 * PI * l * v))) by (apply Rmult_le_pos; lra). split.
  - intros H. constructor; [|apply IH; lra]. assert (C : cos ((g - 1) * 2 * PI * v) = 1) by lra. apply cos_one in C. destruct C as [k K]. exists k.
    assert (PI <> 0) by (apply Rgt_not_eq, PI_RGT_0). apply Rmult_eq_reg_r with (2 * PI); [|nra]. lra.
  - intros H. inversion H as [|? ? ? ? [k K] HR]; subst. apply IH in HR. destruct Hl1 as [z ->].
    assert (E1 : cos ((g - 1) * 2 * PI * v) = 1). { apply cos_one. exists k. rewrite <- K. ring. }
    assert (E2 : cos ((g - 1) * 2 * PI * IZR z * v) = 1). { apply cos_one. exists (z * k)%Z. rewrite mult_IZR, <- K. ring. }
    rewrite E1, E2, HR. ring.
Qed.
Lemma cosine_spec alpha gs ls x : 0 <= alpha -> gs <> [] -> length ls = length gs -> length x = length gs -> Forall whole ls ->
  exists v, cosine_family alpha gs ls x = Ok v /\ - (1 + alpha) / 2 <= v <= (1 + alpha) / 2 /\
    (v = - (1 + alpha) / 2 <-> Forall2 (fun g u => whole ((g - 1) * u)) gs x).
Proof.
  intros Ha Hne H1 H2 Hl. unfold cosine_family. rewrite H1, H2, Nat.eqb_refl. eexists. split; [reflexivity|]. rewrite r_sum_R_sum, cosine_terms by assumption.
  rewrite <- (cos_terms_zero alpha gs Ha ls x H1 H2 Hl). pose proof (cos_terms_bound alpha gs Ha ls x) as B. set (t := cos_terms alpha gs ls x) in *. clearbody t.
  assert (Hn : 0 < INR (length gs)) by (apply lt_0_INR; destruct gs; [congruence|cbn; lia]). set (n := INR (length gs)) in *. clearbody n.
  replace ((t - n * (1 + alpha)) / (2 * n)) with (t / (2 * n) - (1 + alpha) / 2) by (field; lra).
  assert (T : 0 <= t / (2 * n) <= 1 + alpha).
  { split; [apply Rmult_le_pos; [lra|left; apply Rinv_0_lt_compat; lra]|]. apply Rmult_le_reg_l with (2 * n); [lra|]. field_simplify; lra. }
  split; [lra|]. split.
  - intros H. assert (Z : t / (2 * n) = 0) by lra. apply Rmult_eq_reg_r with (/ (2 * n)); [|apply Rgt_not_eq, Rinv_0_lt_compat; lra]. rewrite Rmult_0_l. exact Z.
  - intros ->. field. lra.
Qed.

(** ** Schwefel *)
Lemma schwefel_mirror alpha x : schwefel alpha (map Ropp x) + schwefel alpha x = 2 * alpha * INR (length x).
Proof.
  unfold schwefel. rewrite !r_sum_R_sum, map_length, map_map.
  transitivity (R_sum (map (fun v => (- - v) * sin (sqrt (Rabs (- v))) + (- v) * sin (sqrt (Rabs v))) x) + 2 * alpha * INR (length x)).
  - rewrite R_sum_plus. ring.
  - rewrite (R_sum_ext _ (fun _ => 0)); [rewrite R_sum_const; ring|]. intros v _. rewrite Rabs_Ropp. ring.
Qed.

(** ** the width of a binomial perturbation *)
Lemma binomial_p n std : (0 < n)%Z ->
  (binomial_p_from_std n std = Err ValueError <-> IZR n < 4 * std ^ 2) /\
  (4 * std ^ 2 <= IZR n -> exists p, binomial_p_from_std n std = Ok p /\
     0 <= p <= 1 / 2 /\ IZR n * p * (1 - p) = std ^ 2).
Proof.
  intros Hn. assert (N : 0 < IZR n) by (apply IZR_lt in Hn; exact Hn).
  unfold binomial_p_from_std. destruct (Z.eqb_spec n 0); [lia|].
  assert (E : 4 * std ^ 2 / IZR n * IZR n = 4 * std ^ 2) by (field; lra).
  assert (Q0 : 0 <= 4 * std ^ 2 / IZR n).
  { apply Rmult_le_pos; [pose proof (pow2_ge_0 std); lra|]. left. apply Rinv_0_lt_compat, N. }
  set (q := 4 * std ^ 2 / IZR n) in *. clearbody q. destruct (Rlt_dec 1 q) as [L|L].
  - split; [split; auto; intros _; nra|]. intros H. exfalso. nra.
  - split; [split; [discriminate|]|].
    + intros H. exfalso. nra.
    + intros H. eexists. split; [reflexivity|]. assert (A : 0 <= 1 - q <= 1) by lra.
      pose proof (sqrt_pos (1 - q)) as S0. pose proof (sqrt_sqrt (1 - q) ltac:(lra)) as S1.
      assert (S2 : sqrt (1 - q) <= sqrt 1) by (apply sqrt_le_1; lra). rewrite sqrt_1 in S2.
      set (r := sqrt (1 - q)) in *. split; [split; lra|].
      replace (std ^ 2) with (q * IZR n / 4) by lra. replace q with (1 - r * r) by lra. field.
Qed.
