(** Proofs about the multi-objective benchmarks. *)
From Coq Require Import Reals Lra Psatz Lia QArith.Qreals.
From Verif Require Import Model.Base Model.RealFunctions Model.Zdt Spec.RealFunctions Spec.Zdt Proofs.RealFunctions.
Open Scope R_scope.

(** ** the common shape: first objective a, distance g >= 1, second objective h a g *)
Section Shape.
Context {X : Type}.
Variable feasible : X -> Prop.
Variable value : X -> R * R -> Prop.
Variable a g : X -> R.
Variable h : R -> R -> R.
Variable dom : R -> Prop.
Hypothesis Hval : forall x v, feasible x -> (value x v <-> v = (a x, h (a x) (g x))).
Hypothesis Ha : forall x, feasible x -> dom (a x).
Hypothesis Hg : forall x, feasible x -> 1 <= g x.
Hypothesis Hproj : forall x, feasible x -> exists y, feasible y /\ a y = a x /\ g y = 1.
Hypothesis Hmono : forall u p q, dom u -> 1 <= p -> p < q -> h u p < h u q.

Lemma shape_only x : pareto_optimal feasible value x -> g x = 1.
Proof.
  intros (Fx & v & Vx & Best). destruct (Req_dec (g x) 1) as [|N]; auto. exfalso.
  destruct (Hproj x Fx) as (y & Fy & Ey & Gy).
  apply (proj1 (Hval x v Fx)) in Vx. subst v.
  apply (Best y (a y, h (a y) (g y)) Fy).
  - apply Hval; auto.
  - pose proof (Hg x Fx). assert (L : h (a x) 1 < h (a x) (g x)) by (apply Hmono; auto; lra).
    unfold dominates2. cbn. rewrite Ey, Gy. split; [lra|]. split; [lra|]. right. exact L.
Qed.

Hypothesis Hdecr : forall u w, dom u -> dom w -> u < w -> h w 1 < h u 1.
Lemma shape_iff x : feasible x -> (pareto_optimal feasible value x <-> g x = 1).
Proof.
  intros Fx. split; [apply shape_only|]. intros Gx. split; auto.
  exists (a x, h (a x) (g x)). split; [apply Hval; auto|].
  intros y w Fy Vy D. apply (proj1 (Hval y w Fy)) in Vy. subst w.
  unfold dominates2 in D. cbn in D. rewrite Gx in D. destruct D as (D1 & D2 & D3).
  assert (M : h (a y) 1 <= h (a y) (g y)).
  { destruct (Req_dec (g y) 1) as [E|N]; [rewrite E; lra|]. pose proof (Hg y Fy).
    left. apply Hmono; auto; lra. }
  destruct (Req_dec (a y) (a x)) as [E|N].
  - destruct D3 as [D3|D3]; [lra|]. rewrite E in *. lra.
  - assert (L : a y < a x) by lra. pose proof (Hdecr (a y) (a x) (Ha y Fy) (Ha x Fx) L). lra.
Qed.
End Shape.

(** ** bounds and checks *)
Lemma all_between_ok lo hi x : all_between lo hi x = true <-> Forall (fun v => lo <= v <= hi) x.
Proof.
  unfold all_between. rewrite forallb_forall, Forall_forall.
  split; intros H v I; specialize (H v I); destruct (Rle_dec lo v), (Rle_dec v hi); cbn in *; try discriminate; try lra; auto.
Qed.
Lemma in_box_unit n : forall x, in_box (unit_bounds n) x <-> length x = n /\ Forall (fun v => 0 <= v <= 1) x.
Proof.
  unfold in_box, unit_bounds. induction n as [|n IH]; intros x; cbn [repeat]; split.
  - intros H. inversion H. split; [reflexivity|constructor].
  - intros [H _]. destruct x; [constructor|discriminate].
  - intros H. inversion H as [|? ? ? ? A B]; subst. apply (proj1 (IH _)) in B. destruct B as [B1 B2].
    split; [cbn; congruence|constructor; auto].
  - intros [H1 H2]. destruct x; [discriminate|]. inversion H2 as [|? ? A B]; subst. constructor; [auto|].
    apply IH. split; [cbn in H1; congruence|auto].
Qed.
Lemma in_box_repeat lo hi n : forall x, Forall2 (fun b v => fst b <= v <= snd b) (repeat (lo, hi) n) x <->
  length x = n /\ Forall (fun v => lo <= v <= hi) x.
Proof.
  induction n as [|n IH]; intros x; cbn [repeat]; split.
  - intros H. inversion H. split; [reflexivity|constructor].
  - intros [H _]. destruct x; [constructor|discriminate].
  - intros H. inversion H as [|? ? ? ? A B]; subst. apply (proj1 (IH _)) in B. destruct B as [B1 B2].
    split; [cbn; congruence|constructor; auto].
  - intros [H1 H2]. destruct x; [discriminate|]. inversion H2 as [|? ? A B]; subst. constructor; [auto|].
    apply IH. split; [cbn in H1; congruence|auto].
Qed.
Lemma in_box_zdt4 n x : in_box (zdt4_bounds n) x <->
  exists x0 t, x = x0 :: t /\ length t = (n - 1)%nat /\ 0 <= x0 <= 1 /\ Forall (fun v => -5 <= v <= 5) t.
Proof.
  unfold in_box, zdt4_bounds. split.
  - intros H. inversion H as [|? ? ? ? A B]; subst. apply (proj1 (in_box_repeat _ _ _ _)) in B. destruct B.
    eexists _, _. split; [reflexivity|]. cbn in A. auto.
  - intros (x0 & t & -> & L & A & B). constructor; [exact A|]. apply in_box_repeat. auto.
Qed.

Lemma np_div_ok a b : b <> 0 -> np_div a b = Some (a / b).
Proof. intros H. unfold np_div. destruct (Req_EM_T b 0); [contradiction|reflexivity]. Qed.
Lemma np_sqrt_ok a : 0 <= a -> np_sqrt a = Some (sqrt a).
Proof. intros H. unfold np_sqrt. destruct (Rlt_dec a 0); [lra|reflexivity]. Qed.

Lemma INR_ge2 n : (2 <= n)%nat -> 1 <= INR n - 1.
Proof. intros H. apply le_INR in H. cbn in H. lra. Qed.
Lemma sum_nonneg l : Forall (fun v => 0 <= v <= 1) l -> 0 <= r_sum l /\ (r_sum l = 0 <-> Forall (fun v => v = 0) l).
Proof.
  intros H. rewrite r_sum_R_sum. rewrite Forall_forall in H. rewrite <- (map_id l).
  assert (P : forall x, In x l -> 0 <= (fun v => v) x) by (intros x I; apply H in I; cbn; lra).
  split; [apply (R_sum_nonneg (fun v => v)); exact P|].
  rewrite (R_sum_zero (fun v => v) l P). rewrite map_id, Forall_forall. reflexivity.
Qed.

Definition g1 n x := 1 + 9 * r_sum (tl x) / (INR n - 1).
Lemma zdt_g_ok n t : (2 <= n)%nat -> zdt_g n t = Some (1 + 9 * r_sum t / (INR n - 1)).
Proof. intros H. pose proof (INR_ge2 n H). unfold zdt_g. rewrite np_div_ok by lra. reflexivity. Qed.
Lemma quot_zero s m : 0 < m -> (s / m = 0 <-> s = 0).
Proof.
  intros H. split.
  - intros E. replace s with (s / m * m) by (field; lra). rewrite E. ring.
  - intros ->. unfold Rdiv. ring.
Qed.
Lemma g1_ge n x : (2 <= n)%nat -> in_box (unit_bounds n) x -> 1 <= g1 n x /\ (g1 n x = 1 <-> zero_tail x).
Proof.
  intros Hn B. apply (proj1 (in_box_unit _ _)) in B. destruct B as [L B]. pose proof (INR_ge2 n Hn) as P.
  assert (T : Forall (fun v => 0 <= v <= 1) (tl x)) by (destruct B; cbn; auto).
  destruct (sum_nonneg _ T) as [S Z]. unfold g1, zero_tail. rewrite <- Z.
  assert (0 <= 9 * r_sum (tl x) / (INR n - 1)).
  { apply Rmult_le_pos; [lra|]. left. apply Rinv_0_lt_compat. lra. }
  split; [lra|]. pose proof (quot_zero (9 * r_sum (tl x)) (INR n - 1)).
  split; intros E.
  - assert (9 * r_sum (tl x) / (INR n - 1) = 0) as F by lra. apply H0 in F; lra.
  - rewrite E. unfold Rdiv. ring.
Qed.
Lemma zero_point n x : (1 <= n)%nat -> in_box (unit_bounds n) x ->
  in_box (unit_bounds n) (hd 0 x :: repeat 0 (n - 1)) /\ 0 <= hd 0 x <= 1.
Proof.
  intros Hn B. apply (proj1 (in_box_unit _ _)) in B. destruct B as [L B].
  destruct x as [|x0 t]; [cbn in L; lia|]. inversion B; subst. cbn [hd]. split; [|auto].
  apply in_box_unit. split; [cbn; rewrite repeat_length; cbn in *; lia|].
  constructor; auto. apply Forall_forall. intros v I. apply repeat_spec in I. subst. lra.
Qed.
Lemma zero_tail_repeat x0 k : zero_tail (x0 :: repeat 0 k).
Proof. apply Forall_forall. intros v I. apply repeat_spec in I. auto. Qed.

Lemma sqrt_mono_h u p q : 0 <= u <= 1 -> 1 <= p -> p < q -> p * (1 - sqrt (u / p)) < q * (1 - sqrt (u / q)).
Proof.
  intros Hu Hp Hpq.
  assert (E : forall m, 1 <= m -> m * (1 - sqrt (u / m)) = sqrt m * sqrt m - sqrt u * sqrt m).
  { intros m Hm. rewrite sqrt_div by lra. pose proof (sqrt_lt_R0 m ltac:(lra)).
    rewrite <- (sqrt_sqrt m) at 1 by lra. field. lra. }
  rewrite !E by lra.
  pose proof (sqrt_lt_1 p q ltac:(lra) ltac:(lra) Hpq).
  assert (1 <= sqrt p) by (rewrite <- sqrt_1; apply sqrt_le_1; lra).
  assert (sqrt u <= 1) by (rewrite <- sqrt_1; apply sqrt_le_1; lra).
  pose proof (sqrt_pos u). nra.
Qed.
Lemma sqrt_decr_h u w : 0 <= u -> u < w -> 1 * (1 - sqrt (w / 1)) < 1 * (1 - sqrt (u / 1)).
Proof.
  intros Hu Huw. unfold Rdiv. rewrite Rinv_1, !Rmult_1_r, !Rmult_1_l. pose proof (sqrt_lt_1 u w Hu ltac:(lra) Huw). lra.
Qed.
Lemma sq_mono_h u p q : 0 <= u -> 1 <= p -> p < q -> p * (1 - (u / p) ^ 2) < q * (1 - (u / q) ^ 2).
Proof.
  intros Hu Hp Hpq.
  replace (p * (1 - (u / p) ^ 2)) with (p - u * u * / p) by (field; lra).
  replace (q * (1 - (u / q) ^ 2)) with (q - u * u * / q) by (field; lra).
  assert (/ q < / p) by (apply Rinv_lt_contravar; nra). nra.
Qed.
Lemma sq_decr_h u w : 0 <= u -> u < w -> 1 * (1 - (w / 1) ^ 2) < 1 * (1 - (u / 1) ^ 2).
Proof. intros Hu Huw. unfold Rdiv. rewrite Rinv_1. nra. Qed.

Lemma unit_cons n x : (1 <= n)%nat -> in_box (unit_bounds n) x ->
  exists x0 t, x = x0 :: t /\ 0 <= x0 <= 1 /\ Forall (fun v => 0 <= v <= 1) t /\ all_between 0 1 x = true.
Proof.
  intros Hn B. apply (proj1 (in_box_unit _ _)) in B. destruct B as [L B]. destruct x as [|x0 t]; [cbn in L; lia|].
  exists x0, t. inversion B; subst. split; [reflexivity|]. split; [auto|]. split; [auto|]. apply all_between_ok. auto.
Qed.

Lemma Ok_pair (a b c d : R) : @Ok (R * option R) (a, Some b) = Ok (c, Some d) <-> (c, d) = (a, b).
Proof. split; intros H; congruence. Qed.

Lemma zdt1_value n check x : (2 <= n)%nat -> in_box (unit_bounds n) x ->
  zdt1 n check x = Ok (hd 0 x, Some (g1 n x * (1 - sqrt (hd 0 x / g1 n x)))).
Proof.
  intros Hn B. pose proof (g1_ge n x Hn B) as [G _].
  destruct (unit_cons n x ltac:(lia) B) as (x0 & t & -> & H0 & Ht & C).
  unfold zdt1. rewrite C, andb_comm. cbn [negb andb hd]. rewrite zdt_g_ok by auto. cbn [obind].
  change (1 + 9 * r_sum t / (INR n - 1)) with (g1 n (x0 :: t)).
  rewrite np_div_ok by lra. cbn [obind]. rewrite np_sqrt_ok; [reflexivity|].
  apply Rmult_le_pos; [lra|]. left. apply Rinv_0_lt_compat. lra.
Qed.
Lemma zdt2_value n check x : (2 <= n)%nat -> in_box (unit_bounds n) x ->
  zdt2 n check x = Ok (hd 0 x, Some (g1 n x * (1 - (hd 0 x / g1 n x) ^ 2))).
Proof.
  intros Hn B. pose proof (g1_ge n x Hn B) as [G _].
  destruct (unit_cons n x ltac:(lia) B) as (x0 & t & -> & H0 & Ht & C).
  unfold zdt2. rewrite C, andb_comm. cbn [negb andb hd]. rewrite zdt_g_ok by auto. cbn [obind].
  change (1 + 9 * r_sum t / (INR n - 1)) with (g1 n (x0 :: t)).
  rewrite np_div_ok by lra. reflexivity.
Qed.
Lemma zdt3_value n check x : (2 <= n)%nat -> in_box (unit_bounds n) x ->
  zdt3 n check x = Ok (hd 0 x, Some (g1 n x * (1 - sqrt (hd 0 x / g1 n x) - hd 0 x / g1 n x * sin (10 * PI * hd 0 x)))).
Proof.
  intros Hn B. pose proof (g1_ge n x Hn B) as [G _].
  destruct (unit_cons n x ltac:(lia) B) as (x0 & t & -> & H0 & Ht & C).
  unfold zdt3. rewrite C, andb_comm. cbn [negb andb hd]. rewrite zdt_g_ok by auto. cbn [obind].
  change (1 + 9 * r_sum t / (INR n - 1)) with (g1 n (x0 :: t)).
  rewrite np_div_ok by lra. cbn [obind]. rewrite np_sqrt_ok; [reflexivity|].
  apply Rmult_le_pos; [lra|]. left. apply Rinv_0_lt_compat. lra.
Qed.

Lemma to_value (f : list R -> result (R * option R)) x a b : f x = Ok (a, Some b) -> forall v, value_of f x v <-> v = (a, b).
Proof. intros E [c d]. unfold value_of. rewrite E. cbn. apply Ok_pair. Qed.

Lemma unit_proj n x : (2 <= n)%nat -> in_box (unit_bounds n) x ->
  exists y, in_box (unit_bounds n) y /\ hd 0 y = hd 0 x /\ zero_tail y.
Proof.
  intros Hn B. exists (hd 0 x :: repeat 0 (n - 1)). split; [apply zero_point; auto; lia|].
  split; [reflexivity|apply zero_tail_repeat].
Qed.

Lemma zdt1_front n check x : (2 <= n)%nat -> in_box (unit_bounds n) x ->
  (pareto_optimal (in_box (unit_bounds n)) (value_of (zdt1 n check)) x <-> zero_tail x).
Proof.
  intros Hn B. rewrite <- (proj2 (g1_ge n x Hn B)).
  apply (shape_iff _ _ (hd 0) (g1 n) (fun u g => g * (1 - sqrt (u / g))) (fun u => 0 <= u <= 1)); auto.
  - intros y v By. apply to_value, zdt1_value; auto.
  - intros y By. apply (zero_point n y); auto. lia.
  - intros y By. apply g1_ge; auto.
  - intros y By. destruct (unit_proj n y Hn By) as (z & Bz & E & Z). exists z. split; auto. split; auto. apply g1_ge; auto.
  - intros u p q. apply sqrt_mono_h.
  - intros u w Hu _. apply sqrt_decr_h. apply Hu.
Qed.
Lemma zdt2_front n check x : (2 <= n)%nat -> in_box (unit_bounds n) x ->
  (pareto_optimal (in_box (unit_bounds n)) (value_of (zdt2 n check)) x <-> zero_tail x).
Proof.
  intros Hn B. rewrite <- (proj2 (g1_ge n x Hn B)).
  apply (shape_iff _ _ (hd 0) (g1 n) (fun u g => g * (1 - (u / g) ^ 2)) (fun u => 0 <= u <= 1)); auto.
  - intros y v By. apply to_value, zdt2_value; auto.
  - intros y By. apply (zero_point n y); auto. lia.
  - intros y By. apply g1_ge; auto.
  - intros y By. destruct (unit_proj n y Hn By) as (z & Bz & E & Z). exists z. split; auto. split; auto. apply g1_ge; auto.
  - intros u p q Hu. apply sq_mono_h. apply Hu.
  - intros u w Hu _. apply sq_decr_h. apply Hu.
Qed.
Lemma zdt3_front n check x : (2 <= n)%nat ->
  pareto_optimal (in_box (unit_bounds n)) (value_of (zdt3 n check)) x -> zero_tail x.
Proof.
  intros Hn P. pose proof (proj1 P) as B. apply (proj1 (proj2 (g1_ge n x Hn B))).
  revert P.
  apply (shape_only _ _ (hd 0) (g1 n) (fun u g => g * (1 - sqrt (u / g) - u / g * sin (10 * PI * u))) (fun u => 0 <= u <= 1)); auto.
  - intros y v By. apply to_value, zdt3_value; auto.
  - intros y By. apply (zero_point n y); auto. lia.
  - intros y By. apply g1_ge; auto.
  - intros y By. destruct (unit_proj n y Hn By) as (z & Bz & E & Z). exists z. split; auto. split; auto. apply g1_ge; auto.
  - intros u p q Hu Hp Hpq. pose proof (sqrt_mono_h u p q Hu Hp Hpq).
    replace (p * (1 - sqrt (u / p) - u / p * sin (10 * PI * u))) with (p * (1 - sqrt (u / p)) - u * sin (10 * PI * u)) by (field; lra).
    replace (q * (1 - sqrt (u / q) - u / q * sin (10 * PI * u))) with (q * (1 - sqrt (u / q)) - u * sin (10 * PI * u)) by (field; lra).
    lra.
Qed.

(** ** ZDT4 *)
Lemma zdt4_g_sum n t : length t = (n - 1)%nat -> (1 <= n)%nat ->
  zdt4_g n t = 1 + R_sum (map (fun v => v ^ 2 + 10 * (1 - cos (4 * PI * v))) t).
Proof.
  intros L Hn. unfold zdt4_g. rewrite r_sum_R_sum.
  rewrite (R_sum_ext (fun v => v ^ 2 + 10 * (1 - cos (4 * PI * v)))
    (fun v => (v ^ 2 - 10 * cos (4 * PI * v)) + 10)) by (intros; ring).
  rewrite R_sum_plus, (R_sum_const 10). rewrite L, minus_INR by lia. cbn [INR]. ring.
Qed.
Lemma zdt4_g_ge n x0 t : length t = (n - 1)%nat -> (1 <= n)%nat ->
  1 <= zdt4_g n t /\ (zdt4_g n t = 1 <-> zero_tail (x0 :: t)).
Proof.
  intros L Hn. rewrite zdt4_g_sum by auto.
  assert (P : forall v, In v t -> 0 <= (fun v => v ^ 2 + 10 * (1 - cos (4 * PI * v))) v).
  { intros v _. cbn beta. pose proof (pow2_ge_0 v). pose proof (COS_bound (4 * PI * v)). lra. }
  pose proof (R_sum_nonneg _ _ P). pose proof (R_sum_zero _ _ P) as Z. split; [lra|].
  unfold zero_tail. cbn [tl]. rewrite Forall_forall. split.
  - intros E v I. assert (E0 : R_sum (map (fun v => v ^ 2 + 10 * (1 - cos (4 * PI * v))) t) = 0) by lra.
    apply (proj1 Z) with (x := v) in E0; auto. pose proof (pow2_ge_0 v). pose proof (COS_bound (4 * PI * v)).
    apply pow2_zero. lra.
  - intros E. rewrite (proj2 Z); [lra|]. intros v I. rewrite (E v I). rewrite Rmult_0_r, cos_0. ring.
Qed.
Lemma zdt4_value n check x0 t : (1 <= n)%nat -> in_box (zdt4_bounds n) (x0 :: t) ->
  zdt4 n check (x0 :: t) = Ok (x0, Some (zdt4_g n t * (1 - sqrt (x0 / zdt4_g n t)))).
Proof.
  intros Hn B. apply (proj1 (in_box_zdt4 _ _)) in B. destruct B as (y0 & u & E & L & H0 & Ht). inversion E; subst y0 u.
  destruct (zdt4_g_ge n x0 t L Hn) as [G _]. unfold zdt4.
  replace (all_between 0 1 [x0]) with true by (symmetry; apply all_between_ok; constructor; [exact H0|constructor]).
  replace (all_between (-5) 5 t) with true by (symmetry; apply all_between_ok; auto).
  rewrite andb_comm. cbn [negb andb]. rewrite np_div_ok by lra. cbn [obind]. rewrite np_sqrt_ok; [reflexivity|].
  apply Rmult_le_pos; [lra|]. left. apply Rinv_0_lt_compat. lra.
Qed.
Lemma zdt4_front n check x : (1 <= n)%nat -> in_box (zdt4_bounds n) x ->
  (pareto_optimal (in_box (zdt4_bounds n)) (value_of (zdt4 n check)) x <-> zero_tail x).
Proof.
  intros Hn B.
  assert (C : forall y, in_box (zdt4_bounds n) y -> exists y0 t, y = y0 :: t /\ length t = (n - 1)%nat /\ 0 <= y0 <= 1).
  { intros y By. apply (proj1 (in_box_zdt4 _ _)) in By. destruct By as (y0 & u & E & L & H0 & _). eauto. }
  assert (G : forall y, in_box (zdt4_bounds n) y -> 1 <= zdt4_g n (tl y) /\ (zdt4_g n (tl y) = 1 <-> zero_tail y)).
  { intros y By. destruct (C y By) as (y0 & t & -> & L & _). apply zdt4_g_ge; auto. }
  rewrite <- (proj2 (G x B)).
  apply (shape_iff _ _ (hd 0) (fun y => zdt4_g n (tl y)) (fun u g => g * (1 - sqrt (u / g))) (fun u => 0 <= u <= 1)); auto.
  - intros y v By. destruct (C y By) as (y0 & t & -> & _). apply to_value, zdt4_value; auto.
  - intros y By. destruct (C y By) as (y0 & t & -> & _ & H). exact H.
  - intros y By. apply G; auto.
  - intros y By. destruct (C y By) as (y0 & t & -> & L & H). exists (y0 :: repeat 0 (n - 1)).
    assert (Bz : in_box (zdt4_bounds n) (y0 :: repeat 0 (n - 1))).
    { apply in_box_zdt4. exists y0, (repeat 0 (n - 1)). split; [reflexivity|]. rewrite repeat_length. split; [reflexivity|].
      split; [auto|]. apply Forall_forall. intros v I. apply repeat_spec in I. subst. lra. }
    split; auto. split; [reflexivity|]. apply G; auto. apply zero_tail_repeat.
  - intros u p q. apply sqrt_mono_h.
  - intros u w Hu _. apply sqrt_decr_h. apply Hu.
Qed.

(** ** ZDT6 *)
Definition f6 (x : list R) : R := 1 - exp (-4 * hd 0 x) * sin (6 * PI * hd 0 x) ^ 6.
Definition g6 (n : nat) (x : list R) : R := 1 + 9 * sqrt (sqrt (r_sum (tl x) / (INR n - 1))).
Lemma f6_bounds u : 0 <= u -> 0 < 1 - exp (-4 * u) * sin (6 * PI * u) ^ 6 <= 1.
Proof.
  intros Hu. set (s := sin (6 * PI * u)).
  assert (S : 0 <= s ^ 6 <= 1).
  { pose proof (SIN_bound (6 * PI * u)). fold s in H. replace (s ^ 6) with ((s * s) * ((s * s) * (s * s))) by ring.
    assert (T : 0 <= s * s <= 1) by (split; nra). set (q := s * s) in *.
    assert (T2 : 0 <= q * q <= 1) by (split; nra). split; nra. }
  pose proof (exp_pos (-4 * u)) as E.
  assert (E1 : exp (-4 * u) <= 1) by (rewrite <- exp_0; apply exp_le; lra).
  split; [|nra]. destruct (Req_dec u 0) as [->|N].
  - unfold s. replace (6 * PI * 0) with 0 by ring. rewrite sin_0. replace (0 ^ 6) with 0 by ring. lra.
  - assert (exp (-4 * u) < 1) by (rewrite <- exp_0; apply exp_increasing; lra). nra.
Qed.
Lemma sqrt_zero v : 0 <= v -> (sqrt v = 0 <-> v = 0).
Proof. intros H. split; [apply sqrt_eq_0; auto|intros ->; apply sqrt_0]. Qed.
Lemma g6_ge n x : (2 <= n)%nat -> in_box (unit_bounds n) x -> 1 <= g6 n x /\ (g6 n x = 1 <-> zero_tail x).
Proof.
  intros Hn B. apply (proj1 (in_box_unit _ _)) in B. destruct B as [L B]. pose proof (INR_ge2 n Hn) as P.
  assert (T : Forall (fun v => 0 <= v <= 1) (tl x)) by (destruct B; cbn; auto).
  destruct (sum_nonneg _ T) as [S Z]. unfold g6, zero_tail. rewrite <- Z.
  assert (Q0 : 0 <= r_sum (tl x) / (INR n - 1)).
  { apply Rmult_le_pos; [lra|]. left. apply Rinv_0_lt_compat. lra. }
  pose proof (sqrt_pos (sqrt (r_sum (tl x) / (INR n - 1)))).
  split; [lra|]. rewrite <- (quot_zero (r_sum (tl x)) (INR n - 1)) by lra.
  rewrite <- (sqrt_zero _ Q0). rewrite <- (sqrt_zero (sqrt _)) by apply sqrt_pos. split; intros; lra.
Qed.
Lemma zdt6_value n check x : (2 <= n)%nat -> in_box (unit_bounds n) x ->
  zdt6 n check x = Ok (f6 x, Some (g6 n x * (1 - (f6 x / g6 n x) ^ 2))).
Proof.
  intros Hn B. pose proof (g6_ge n x Hn B) as [G _]. pose proof (INR_ge2 n Hn) as P.
  destruct (unit_cons n x ltac:(lia) B) as (x0 & t & -> & H0 & Ht & C).
  unfold zdt6. rewrite C, andb_comm. cbn [negb andb]. unfold zdt6_g. rewrite np_div_ok by lra. cbn [obind].
  destruct (sum_nonneg _ Ht) as [S _].
  rewrite np_sqrt_ok by (apply Rmult_le_pos; [lra|]; left; apply Rinv_0_lt_compat; lra). cbn [obind].
  change (1 + 9 * sqrt (sqrt (r_sum t / (INR n - 1)))) with (g6 n (x0 :: t)).
  rewrite np_div_ok by lra. reflexivity.
Qed.
Lemma zdt6_front n check x : (2 <= n)%nat -> in_box (unit_bounds n) x ->
  (pareto_optimal (in_box (unit_bounds n)) (value_of (zdt6 n check)) x <-> zero_tail x).
Proof.
  intros Hn B. rewrite <- (proj2 (g6_ge n x Hn B)).
  apply (shape_iff _ _ f6 (g6 n) (fun u g => g * (1 - (u / g) ^ 2)) (fun u => 0 < u <= 1)); auto.
  - intros y v By. apply to_value, zdt6_value; auto.
  - intros y By. apply f6_bounds. apply (zero_point n y); auto. lia.
  - intros y By. apply g6_ge; auto.
  - intros y By. destruct (unit_proj n y Hn By) as (z & Bz & E & Z). exists z. split; auto.
    split; [unfold f6; rewrite E; reflexivity|]. apply g6_ge; auto.
  - intros u p q Hu. apply sq_mono_h. lra.
  - intros u w Hu _. apply sq_decr_h. lra.
Qed.

(** ** SCH *)
Lemma sch_front x : pareto_optimal (fun _ => True) (fun x v => v = sch x) x <-> 0 <= x <= 2.
Proof.
  unfold pareto_optimal, sch, dominates2. split.
  - intros (_ & v & -> & Best). destruct (Rlt_dec x 0) as [N|N].
    + exfalso. apply (Best 0 (0 ^ 2, (0 - 2) ^ 2) I eq_refl). cbn. repeat split; [nra|nra|left; nra].
    + destruct (Rlt_dec 2 x) as [M|M]; [|lra].
      exfalso. apply (Best 2 (2 ^ 2, (2 - 2) ^ 2) I eq_refl). cbn. repeat split; [nra|nra|left; nra].
  - intros H. split; [exact I|]. exists (x ^ 2, (x - 2) ^ 2). split; [reflexivity|].
    intros y w _ -> (D1 & D2 & D3). cbn [fst snd] in *.
    assert (y = x) as E.
    { apply Rle_antisym; [|].
      - apply Rnot_lt_le. intros L. nra.
      - apply Rnot_lt_le. intros L. nra. }
    subst y. lra.
Qed.

(** ** the check *)
Lemma zdt_check_unit n f x : In f [zdt1; zdt2; zdt3; zdt6] -> x <> [] ->
  (f n true x = Err AssertionError <-> ~ Forall (fun v => 0 <= v <= 1) x) /\
  (Forall (fun v => 0 <= v <= 1) x -> exists r, f n true x = Ok r).
Proof.
  intros If Nx. rewrite <- (all_between_ok 0 1 x).
  destruct (all_between 0 1 x) eqn:C; cbn in If;
    decompose [or] If; subst; try contradiction; (split; [split|]); intros H;
    unfold zdt1, zdt2, zdt3, zdt6 in *; try rewrite C in *; cbn in *; try discriminate; try reflexivity; try congruence; auto;
    destruct x; try contradiction; try discriminate; eauto.
Qed.
Lemma zdt4_check n x0 t :
  (zdt4 n true (x0 :: t) = Err AssertionError <-> ~ (0 <= x0 <= 1 /\ Forall (fun v => -5 <= v <= 5) t)) /\
  ((0 <= x0 <= 1 /\ Forall (fun v => -5 <= v <= 5) t) -> exists r, zdt4 n true (x0 :: t) = Ok r).
Proof.
  assert (E : all_between 0 1 [x0] && all_between (-5) 5 t = true <-> 0 <= x0 <= 1 /\ Forall (fun v => -5 <= v <= 5) t).
  { rewrite andb_true_iff, !all_between_ok. split; intros [A B]; split; auto. inversion A; auto. }
  rewrite <- E. unfold zdt4. destruct (all_between 0 1 [x0] && all_between (-5) 5 t); cbn.
  - split; [split; [discriminate|tauto]|eauto].
  - split; [split; [discriminate|reflexivity]|discriminate].
Qed.

(** ** ZDT5 *)
Lemma z_sum_acc l : forall a, fold_left Z.add l a = (a + z_sum l)%Z.
Proof.
  unfold z_sum. induction l as [|x l IH]; intros a; cbn [fold_left]; [lia|]. rewrite IH, (IH (0 + x)%Z). lia.
Qed.
Lemma z_sum_cons x l : z_sum (x :: l) = (x + z_sum l)%Z.
Proof. unfold z_sum at 1. cbn [fold_left]. rewrite z_sum_acc. lia. Qed.
Lemma z_sum_ones l : bit_string l -> z_sum l = Z.of_nat (ones l) /\ (ones l <= length l)%nat /\
  (ones l = length l <-> Forall (fun b => b = 1%Z) l).
Proof.
  induction 1 as [|b l Hb H IH]; [cbn; repeat split; auto|]. destruct IH as (E & L & F). rewrite z_sum_cons. cbn [ones length].
  destruct Hb as [-> | ->]; cbn [Z.eqb Pos.eqb].
  - split; [rewrite E; lia|]. split; [lia|]. split; [lia|]. intros A. inversion A. discriminate.
  - split; [rewrite E; lia|]. split; [lia|]. split.
    + intros A. constructor; auto. apply F. lia.
    + intros A. inversion A; subst. cut (ones l = length l); [lia|]. apply F. auto.
Qed.
Lemma v_spec piece : bit_string piece -> length piece = 5%nat ->
  (1 <= zdt5_v piece)%Z /\ (zdt5_v piece = 1%Z <-> Forall (fun b => b = 1%Z) piece).
Proof.
  intros B L. destruct (z_sum_ones _ B) as (E & Le & F). unfold zdt5_v. rewrite E.
  destruct (Z.ltb_spec (Z.of_nat (ones piece)) 5).
  - split; [lia|]. split; [lia|]. intros A. apply F in A. lia.
  - split; [lia|]. split; [|auto]. intros _. apply F. lia.
Qed.
Lemma fives_spec k : forall fuel l, bit_string l -> length l = (k * 5)%nat -> (k <= fuel)%nat ->
  (Z.of_nat k <= z_sum (map zdt5_v (fives fuel l)))%Z /\
  (z_sum (map zdt5_v (fives fuel l)) = Z.of_nat k <-> Forall (fun b => b = 1%Z) l).
Proof.
  induction k as [|k IH]; intros fuel l B L Hf.
  - destruct l; [|discriminate]. destruct fuel; cbn; split; try lia; split; auto.
  - destruct fuel as [|fuel]; [lia|]. destruct l as [|b l0]; [discriminate|]. set (l := b :: l0) in *.
    assert (Ef : fives (S fuel) l = firstn 5 l :: fives fuel (skipn 5 l)) by reflexivity.
    rewrite Ef. cbn [map]. rewrite z_sum_cons.
    assert (B1 : bit_string (firstn 5 l)) by (apply Forall_forall; intros v I; rewrite <- (firstn_skipn 5 l) in B;
      eapply Forall_forall in B; [exact B|apply in_or_app; auto]).
    assert (B2 : bit_string (skipn 5 l)) by (apply Forall_forall; intros v I; rewrite <- (firstn_skipn 5 l) in B;
      eapply Forall_forall in B; [exact B|apply in_or_app; auto]).
    assert (L1 : length (firstn 5 l) = 5%nat) by (rewrite firstn_length; lia).
    assert (L2 : length (skipn 5 l) = (k * 5)%nat) by (rewrite skipn_length; lia).
    destruct (v_spec _ B1 L1) as [V1 V2]. destruct (IH fuel _ B2 L2 ltac:(lia)) as [I1 I2].
    split; [lia|]. rewrite <- (firstn_skipn 5 l) at 3. rewrite Forall_app, <- V2, <- I2. lia.
Qed.

Definition a5 (x : list Z) : R := 1 + INR (ones (firstn 30 x)).
Definition g5 (n : nat) (x : list Z) : R := IZR (z_sum (map zdt5_v (fives (length x) (skipn 30 x)))) / INR (n - 1).

Lemma feasible_parts n x : (2 <= n)%nat -> zdt5_feasible n x ->
  bit_string (firstn 30 x) /\ bit_string (skipn 30 x) /\ length (firstn 30 x) = 30%nat /\ length (skipn 30 x) = ((n - 1) * 5)%nat.
Proof.
  intros Hn [B L].  rewrite <- (firstn_skipn 30 x) in B. apply Forall_app in B. destruct B.
  split; [auto|]. split; [auto|]. rewrite firstn_length, skipn_length. lia.
Qed.
Lemma INR_pos n : (2 <= n)%nat -> 0 < INR (n - 1).
Proof. intros H. apply lt_0_INR. lia. Qed.
Lemma g5_ge n x : (2 <= n)%nat -> zdt5_feasible n x ->
  1 <= g5 n x /\ (g5 n x = 1 <-> Forall (fun b => b = 1%Z) (skipn 30 x)).
Proof.
  intros Hn F. destruct (feasible_parts n x Hn F) as (_ & B & _ & L). destruct F as [_ Lx]. 
  destruct (fives_spec (n - 1) (length x) _ B L ltac:(lia)) as [G1 G2]. pose proof (INR_pos n Hn) as P.
  unfold g5. rewrite <- G2. set (G := z_sum _) in *. clearbody G.
  apply IZR_le in G1. rewrite <- INR_IZR_INZ in G1. split.
  - apply Rmult_le_reg_r with (INR (n - 1)); auto. unfold Rdiv. rewrite Rmult_assoc, Rinv_l by lra. lra.
  - split; intros E.
    + apply eq_IZR. rewrite <- INR_IZR_INZ. replace (IZR G) with (IZR G / INR (n - 1) * INR (n - 1)) by (field; lra).
      rewrite E. ring.
    + rewrite E, <- INR_IZR_INZ. field. lra.
Qed.
Lemma zdt5_check n x : zdt5_feasible n x -> exists a b, zdt5 n true x = Ok (a, Some b).
Proof.
  intros [B L]. unfold zdt5, zdt5_length. rewrite L, Nat.eqb_refl. cbn [negb andb].
  replace (forallb _ x) with true.
  2: { symmetry. apply forallb_forall. intros b I. eapply Forall_forall in B; [|exact I]. destruct B as [-> | ->]; reflexivity. }
  cbn [negb andb].
  assert (B1 : bit_string (firstn 30 x)) by (apply Forall_forall; intros v I; rewrite <- (firstn_skipn 30 x) in B;
      eapply Forall_forall in B; [exact B|apply in_or_app; auto]).
  destruct (z_sum_ones _ B1) as (E & _). destruct (Z.eqb_spec (1 + z_sum (firstn 30 x)) 0); [lia|]. eauto.
Qed.
Lemma zdt5_val n check x : (2 <= n)%nat -> zdt5_feasible n x ->
  forall v, value_of_zq (zdt5 n check) x v <-> v = (a5 x, INR (n - 1) * g5 n x / a5 x).
Proof.
  intros Hn F. destruct (feasible_parts n x Hn F) as (B1 & _ & _ & _). destruct (z_sum_ones _ B1) as (E & _).
  pose proof (INR_pos n Hn) as P.
  assert (Z : zdt5 n check x = Ok ((1 + z_sum (firstn 30 x))%Z,
     Some (inject_Z (z_sum (map zdt5_v (fives (length x) (skipn 30 x)))) * (1 / inject_Z (1 + z_sum (firstn 30 x))))%Q)).
  { destruct F as [B L]. unfold zdt5. unfold zdt5_length. rewrite L, Nat.eqb_refl, andb_comm. cbn [negb andb].
    replace (forallb _ x) with true.
    2: { symmetry. apply forallb_forall. intros b I. eapply Forall_forall in B; [|exact I]. destruct B as [-> | ->]; reflexivity. }
    rewrite andb_comm. cbn [negb andb]. destruct (Z.eqb_spec (1 + z_sum (firstn 30 x)) 0); [lia|]. reflexivity. }
  assert (V : (IZR (1 + z_sum (firstn 30 x)),
     Q2R (inject_Z (z_sum (map zdt5_v (fives (length x) (skipn 30 x)))) * (1 / inject_Z (1 + z_sum (firstn 30 x))))%Q) =
     (a5 x, INR (n - 1) * g5 n x / a5 x)).
  { assert (A : IZR (1 + z_sum (firstn 30 x)) = a5 x).
    { unfold a5. rewrite plus_IZR, E, <- INR_IZR_INZ. ring. }
    assert (Apos : 0 < a5 x) by (unfold a5; pose proof (pos_INR (ones (firstn 30 x))); lra).
    f_equal; [exact A|]. rewrite Q2R_mult. unfold Qdiv. rewrite Q2R_mult, Q2R_inv.
    - unfold Q2R, inject_Z. cbn [Qnum Qden]. rewrite A. unfold g5. field. split; lra.
    - intros H. unfold Qeq, inject_Z in H. cbn [Qnum Qden] in H. lia. }
  intros v. unfold value_of_zq. split.
  - intros (a & b & Ez & Ev). rewrite Z in Ez. inversion Ez; subst. exact V.
  - intros Ev. eexists _, _. split; [exact Z|]. rewrite Ev. symmetry. exact V.
Qed.
Lemma zdt5_front n check x : (2 <= n)%nat -> zdt5_feasible n x ->
  (pareto_optimal (zdt5_feasible n) (value_of_zq (zdt5 n check)) x <-> Forall (fun b => b = 1%Z) (skipn 30 x)).
Proof.
  intros Hn F. rewrite <- (proj2 (g5_ge n x Hn F)). pose proof (INR_pos n Hn) as P.
  apply (shape_iff _ _ a5 (g5 n) (fun u g => INR (n - 1) * g / u) (fun u => 0 < u)); auto.
  - intros y v Fy. apply zdt5_val; auto.
  - intros y _. unfold a5. pose proof (pos_INR (ones (firstn 30 y))). lra.
  - intros y Fy. apply g5_ge; auto.
  - intros y Fy. destruct (feasible_parts n y Hn Fy) as (B1 & _ & L1 & _).
    assert (Fz : zdt5_feasible n (firstn 30 y ++ repeat 1%Z ((n - 1) * 5))).
    { split.
      - apply Forall_app. split; auto. apply Forall_forall. intros v I. apply repeat_spec in I. auto.
      - rewrite app_length, repeat_length, L1. reflexivity. }
    exists (firstn 30 y ++ repeat 1%Z ((n - 1) * 5)). split; auto.
    assert (E1 : firstn 30 (firstn 30 y ++ repeat 1%Z ((n - 1) * 5)) = firstn 30 y).
    { rewrite firstn_app, L1. replace (30 - 30)%nat with 0%nat by lia. rewrite firstn_O, app_nil_r, firstn_firstn. reflexivity. }
    split; [unfold a5; rewrite E1; reflexivity|]. apply (proj2 (g5_ge n _ Hn Fz)).
    rewrite skipn_app, L1. replace (30 - 30)%nat with 0%nat by lia. rewrite skipn_O.
    rewrite skipn_all2 by lia. cbn [app]. apply Forall_forall. intros v I. apply repeat_spec in I. auto.
  - intros u p q Hu _ Hpq. apply Rmult_lt_compat_r; [apply Rinv_0_lt_compat; auto|]. apply Rmult_lt_compat_l; auto.
  - intros u w Hu Hw Huw. apply Rmult_lt_compat_l; [lra|]. apply Rinv_lt_contravar; [apply Rmult_lt_0_compat; auto|auto].
Qed.

(** ** the fronts themselves *)
Lemma front1 n check x : (2 <= n)%nat -> in_box (unit_bounds n) x -> zero_tail x ->
  zdt1 n check x = Ok (hd 0 x, Some (1 - sqrt (hd 0 x))) /\
  zdt2 n check x = Ok (hd 0 x, Some (1 - hd 0 x ^ 2)) /\
  zdt3 n check x = Ok (hd 0 x, Some (1 - sqrt (hd 0 x) - hd 0 x * sin (10 * PI * hd 0 x))).
Proof.
  intros Hn B Z. rewrite zdt1_value, zdt2_value, zdt3_value by auto. apply (proj2 (g1_ge n x Hn B)) in Z. rewrite Z.
  unfold Rdiv. rewrite Rinv_1, !Rmult_1_r, !Rmult_1_l. auto.
Qed.
Lemma front4 n check x : (1 <= n)%nat -> in_box (zdt4_bounds n) x -> zero_tail x ->
  zdt4 n check x = Ok (hd 0 x, Some (1 - sqrt (hd 0 x))).
Proof.
  intros Hn B Z. pose proof B as B'. apply (proj1 (in_box_zdt4 _ _)) in B'. destruct B' as (x0 & t & -> & L & H0 & Ht).
  rewrite zdt4_value by auto. cbn [hd].
  replace (zdt4_g n t) with 1.
  - unfold Rdiv. rewrite Rinv_1, !Rmult_1_r, !Rmult_1_l. reflexivity.
  - symmetry. apply (proj2 (zdt4_g_ge n x0 t L Hn)); exact Z.
Qed.
Lemma front6 n check x : (2 <= n)%nat -> in_box (unit_bounds n) x -> zero_tail x ->
  exists f1, zdt6 n check x = Ok (f1, Some (1 - f1 ^ 2)) /\ f1 = 1 - exp (-4 * hd 0 x) * sin (6 * PI * hd 0 x) ^ 6.
Proof.
  intros Hn B Z. rewrite zdt6_value by auto. apply (proj2 (g6_ge n x Hn B)) in Z. rewrite Z.
  unfold Rdiv. rewrite Rinv_1, !Rmult_1_r, !Rmult_1_l. exists (f6 x). split; reflexivity.
Qed.
Lemma front5 n check x : (2 <= n)%nat -> zdt5_feasible n x -> Forall (fun b => b = 1%Z) (skipn 30 x) ->
  value_of_zq (zdt5 n check) x (1 + INR (ones (firstn 30 x)), INR (n - 1) / (1 + INR (ones (firstn 30 x)))).
Proof.
  intros Hn F Z. apply zdt5_val; auto. apply (proj2 (g5_ge n x Hn F)) in Z. rewrite Z. unfold a5. rewrite Rmult_1_r. reflexivity.
Qed.

(** ** ZDT3: not every zero tail is optimal *)
Lemma box2 u : 0 <= u <= 1 -> in_box (unit_bounds 2) [u; 0].
Proof. intros H. apply in_box_unit. split; [reflexivity|]. constructor; [auto|]. constructor; [lra|constructor]. Qed.
Lemma zero2 u : zero_tail [u; 0].
Proof. constructor; [reflexivity|constructor]. Qed.
Lemma zdt3_dominated : in_box (unit_bounds 2) [3 / 10; 0] /\ zero_tail [3 / 10; 0] /\
  ~ pareto_optimal (in_box (unit_bounds 2)) (value_of (zdt3 2 true)) [3 / 10; 0].
Proof.
  assert (B : in_box (unit_bounds 2) [3 / 10; 0]) by (apply box2; lra).
  assert (B' : in_box (unit_bounds 2) [1 / 4; 0]) by (apply box2; lra).
  split; [exact B|]. split; [apply zero2|]. intros (_ & v & V & Best).
  destruct (front1 2 true _ ltac:(lia) B (zero2 _)) as (_ & _ & E). destruct (front1 2 true _ ltac:(lia) B' (zero2 _)) as (_ & _ & E').
  cbn [hd] in E, E'. unfold value_of in V. rewrite E in V. destruct v as [v1 v2]. cbn in V. injection V as V1 V2.
  eapply (Best [1 / 4; 0] (_, _) B' E'). cbn [fst snd] in *. subst. unfold dominates2. cbn [fst snd].
  assert (S1 : sin (10 * PI * (1 / 4)) = 1).
  { replace (10 * PI * (1 / 4)) with (PI / 2 + 2 * INR 1 * PI) by (cbn; field). rewrite sin_period. apply sin_PI2. }
  assert (S2 : sin (10 * PI * (3 / 10)) = 0).
  { replace (10 * PI * (3 / 10)) with (PI + 2 * INR 1 * PI) by (cbn; field). rewrite sin_period. apply sin_PI. }
  rewrite S1, S2.
  assert (Q1 : sqrt (1 / 4) = 1 / 2) by (replace (1 / 4) with (1 / 2 * (1 / 2)) by field; apply sqrt_square; lra).
  assert (Q2 : sqrt (3 / 10) < 7 / 10).
  { replace (7 / 10) with (sqrt (7 / 10 * (7 / 10))) by (apply sqrt_square; lra). apply sqrt_lt_1; lra. }
  rewrite Q1. split; [lra|]. split; [lra|]. left. lra.
Qed.

(** ** the length of the phenome is not looked at *)
Lemma length_unchecked : ~ in_box (unit_bounds 30) [1; 0; 0] /\ zdt1 30 true [1; 0; 0] = Ok (1, Some 0).
Proof.
  split.
  - intros B. apply (proj1 (in_box_unit _ _)) in B. destruct B. discriminate.
  - assert (A : all_between 0 1 [1; 0; 0] = true) by (apply all_between_ok; repeat (constructor; [lra|]); constructor).
    unfold zdt1. rewrite A. cbn [negb andb]. rewrite zdt_g_ok by lia. cbn [obind].
    assert (G : 1 + 9 * r_sum [0; 0] / (INR 30 - 1) = 1) by (unfold r_sum, Rdiv; cbn [fold_left]; ring).
    rewrite G, np_div_ok by lra. cbn [obind]. rewrite np_sqrt_ok by lra. cbn [obind].
    replace (1 / 1) with 1 by field. rewrite sqrt_1. repeat f_equal. ring.
Qed.
Lemma one_variable : in_box (unit_bounds 1) [1 / 2] /\ zdt1 1 true [1 / 2] = Ok (1 / 2, None).
Proof.
  assert (B : in_box (unit_bounds 1) [1 / 2]) by (apply in_box_unit; split; [reflexivity|constructor; [lra|constructor]]).
  split; [exact B|]. apply (proj1 (in_box_unit _ _)) in B. destruct B as [_ B]. apply all_between_ok in B.
  unfold zdt1. rewrite B. cbn [negb andb]. unfold zdt_g, np_div.
  destruct (Req_EM_T (INR 1 - 1) 0) as [|N]; [reflexivity|]. exfalso. apply N. cbn. ring.
Qed.
Lemma zdt5_checks n x : (zdt5_feasible n x <-> exists r, zdt5 n true x = Ok r) /\
  (~ zdt5_feasible n x <-> zdt5 n true x = Err AssertionError).
Proof.
  assert (A : zdt5_feasible n x <-> (length x =? zdt5_length n)%nat && forallb (fun b => (b =? 0)%Z || (b =? 1)%Z) x = true).
  { unfold zdt5_feasible, bit_string, zdt5_length. rewrite andb_true_iff, Nat.eqb_eq, forallb_forall, Forall_forall.
    split; intros [H1 H2]; split; auto; intros b I; [apply H1 in I|apply H2 in I];
      rewrite orb_true_iff, !Z.eqb_eq in *; exact I. }
  rewrite A. unfold zdt5. destruct (length x =? zdt5_length n)%nat; cbn [negb andb].
  - destruct (forallb _ x); cbn [negb andb].
    + split; split; eauto; try discriminate. intros H. contradiction.
    + split; split; auto; try discriminate. intros [r H]. discriminate.
  - split; split; auto; try discriminate. intros [r H]. discriminate.
Qed.

Lemma negative_first n x0 t : (2 <= n)%nat -> x0 < 0 -> Forall (fun v => 0 <= v <= 1) t ->
  zdt1 n false (x0 :: t) = Ok (x0, None) /\ zdt3 n false (x0 :: t) = Ok (x0, None).
Proof.
  intros Hn H0 Ht. destruct (sum_nonneg t Ht) as (S0 & _). pose proof (INR_ge2 n Hn) as N.
  assert (G : 1 <= 1 + 9 * r_sum t / (INR n - 1)).
  { assert (0 <= 9 * r_sum t / (INR n - 1)); [|lra]. apply Rmult_le_pos; [lra|]. left. apply Rinv_0_lt_compat. lra. }
  unfold zdt1, zdt3. cbn [andb]. rewrite (zdt_g_ok n t Hn). cbn [obind]. set (g := 1 + _) in *. rewrite np_div_ok by lra. cbn [obind].
  replace (np_sqrt (x0 / g)) with (@None R); [split; reflexivity|]. unfold np_sqrt. destruct (Rlt_dec (x0 / g) 0) as [_ | K]; [reflexivity|]. exfalso. apply K.
  assert (0 < / g) by (apply Rinv_0_lt_compat; lra). unfold Rdiv. nra.
Qed.
