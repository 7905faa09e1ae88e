(** Lemmas about the algebraic benchmarks and the transformed problems. *)
From Coq Require Import Lia Lqa Qabs Qround Qpower Qfield.
From Verif Require Import Model.Base Model.RealProblems Spec.Problems Spec.RealProblems Proofs.Metrics Proofs.Sums.

Lemma pow2 x : (x ^ 2 == x * x)%Q.
Proof. reflexivity. Qed.
Lemma pow2_nonneg x : (0 <= x ^ 2)%Q.
Proof. rewrite pow2. nra. Qed.
Lemma pow2_zero x : (x ^ 2 == 0 <-> x == 0)%Q.
Proof. rewrite pow2. split; intros H; [nra|rewrite H; reflexivity]. Qed.
Lemma pow4 x : (x ^ 4 == (x * x) * (x * x))%Q.
Proof. cbn. ring. Qed.
Lemma pow6 x : (x ^ 6 == (x * x * x) * (x * x * x))%Q.
Proof. cbn. ring. Qed.
Lemma sq_pos (x : Q) : (0 <= x * x)%Q. Proof. nra. Qed.

Lemma fold_plus {A} (f : A -> Q) l : forall a, (fold_left (fun s x => s + f x) l a == a + Qsum (map f l))%Q.
Proof.
  induction l as [|x l IH]; intros a; cbn [fold_left map]; unfold Qsum in *; cbn [fold_right]; [ring|]. rewrite IH. ring.
Qed.

Lemma fold_plus' {A} (f : Q -> A -> Q) (g : A -> Q) l : (forall s x, f s x = (s + g x)%Q) ->
  forall a, (fold_left f l a == a + Qsum (map g l))%Q.
Proof.
  intros H. induction l as [|x l IH]; intros a; cbn [fold_left map]; unfold Qsum in *; cbn [fold_right]; [ring|]. rewrite IH, H. ring.
Qed.

Lemma spheroid_spec x :
  (spheroid_array x == sq_length x)%Q /\ (spheroid_list x == spheroid_array x)%Q /\ (0 <= spheroid_array x)%Q /\
  ((spheroid_array x == 0)%Q <-> Forall (fun v => v == 0)%Q x).
Proof.
  assert (E : (spheroid_array x == sq_length x)%Q).
  { unfold spheroid_array. rewrite np_sum_Qsum. unfold sq_length. apply Qsum_ext. intros. apply pow2. }
  split; [exact E|]. split.
  { unfold spheroid_list. rewrite (fold_plus (fun x => x ^ 2)%Q), E. unfold sq_length.
    rewrite (Qsum_ext (fun x => x ^ 2)%Q (fun x => x * x)%Q) by (intros; apply pow2). ring. }
  split.
  { rewrite E. apply Qsum_nonneg. intros. apply sq_pos. }
  rewrite E. unfold sq_length. rewrite Qsum_zero by (intros; apply sq_pos). rewrite Forall_forall.
  split; intros H v Hv; specialize (H v Hv).
  - nra.
  - rewrite H. reflexivity.
Qed.

(** ** Rosenbrock *)
Definition rosen (x_p x : Q) : Q := (100 * (x_p - x ^ 2) ^ 2 + (x - 1) ^ 2)%Q.
Lemma rosen_nonneg a b : (0 <= rosen a b)%Q.
Proof.
  unfold rosen. pose proof (pow2_nonneg (a - b ^ 2)) as H1. pose proof (pow2_nonneg (b - 1)) as H2.
  revert H1 H2. generalize ((a - b ^ 2) ^ 2)%Q ((b - 1) ^ 2)%Q. intros. lra.
Qed.
Lemma rosen_zero a b : (rosen a b == 0 <-> b == 1 /\ a == 1)%Q.
Proof.
  unfold rosen. pose proof (pow2_nonneg (a - b ^ 2)) as H1. pose proof (pow2_nonneg (b - 1)) as H2. split.
  - intros H. assert (K : ((b - 1) ^ 2 == 0 /\ (a - b ^ 2) ^ 2 == 0)%Q).
    { revert H1 H2 H. generalize ((a - b ^ 2) ^ 2)%Q ((b - 1) ^ 2)%Q. intros. lra. }
    destruct K as [K2 K1].
    apply (proj1 (pow2_zero _)) in K1. apply (proj1 (pow2_zero _)) in K2. assert (Hb : (b == 1)%Q) by lra. split; [exact Hb|]. rewrite Hb in K1. rewrite pow2 in K1. lra.
  - intros [Hb Ha]. rewrite Hb, Ha. reflexivity.
Qed.
Lemma removelast_length {A} (l : list A) : length (removelast l) = length l - 1.
Proof. induction l as [|x [|y l] IH]; [reflexivity..|]. cbn [removelast length] in *. lia. Qed.
Lemma tl_length {A} (l : list A) : length (tl l) = length l - 1.
Proof. destruct l; cbn; lia. Qed.
Lemma removelast_nth (l : list Q) i : i < length l - 1 -> at_ (removelast l) i = at_ l i.
Proof.
  unfold at_. revert i. induction l as [|x [|y l] IH]; intros i H; cbn in H; try lia.
  destruct i as [|i]; [reflexivity|]. change (removelast (x :: y :: l)) with (x :: removelast (y :: l)). cbn [nth]. apply IH. cbn. lia.
Qed.
Lemma tl_nth (l : list Q) i : at_ (tl l) i = at_ l (S i).
Proof. unfold at_. destruct l; cbn; [destruct i; reflexivity|reflexivity]. Qed.

Lemma rosenbrock_array_sum x : (rosenbrock_array x == sumn (length x - 1) (fun i => rosen (at_ x (S i)) (at_ x i)))%Q.
Proof.
  unfold rosenbrock_array. change (fun x_p x0 : Q => _) with rosen.
  rewrite map2_sum by (rewrite removelast_length, tl_length; reflexivity).
  rewrite removelast_length. apply sumn_ext. intros i Hi. rewrite tl_nth, removelast_nth by exact Hi. reflexivity.
Qed.
Lemma combine_seq_map (l : list Q) s : combine (seq s (length l)) l = map (fun i => (s + i, at_ l i)) (seq 0 (length l)).
Proof.
  revert s. induction l as [|x l IH]; intros s; [reflexivity|]. cbn [length seq combine map]. f_equal; [f_equal; lia|].
  rewrite IH, <- seq_shift, map_map. apply map_ext. intros i. f_equal; [lia].
Qed.
Lemma rosenbrock_list_sum x : (rosenbrock_list x == sumn (length x - 1) (fun i => rosen (at_ x (S i)) (at_ x i)))%Q.
Proof.
  unfold rosenbrock_list. rewrite combine_seq_map.
  transitivity (0 + Qsum (map (fun p : nat * Q => rosen (nth (fst p + 1)%nat x 0%Q) (snd p)) (map (fun i => ((0 + i)%nat, at_ (removelast x) i)) (seq 0 (length (removelast x))))))%Q.
  - apply fold_plus'. intros s [i v]. reflexivity.
  - rewrite map_map, removelast_length, Qplus_0_l. unfold sumn. apply Qsum_ext. intros i Hi. apply in_seq in Hi. cbn [fst snd].
    rewrite removelast_nth by lia. replace (0 + i + 1) with (S i) by lia. reflexivity.
Qed.
Lemma rosenbrock_spec x :
  (rosenbrock_list x == rosenbrock_array x)%Q /\
  (rosenbrock_array x == sumn (length x - 1) (fun i => 100 * (at_ x (S i) - at_ x i ^ 2) ^ 2 + (at_ x i - 1) ^ 2))%Q /\
  (0 <= rosenbrock_array x)%Q /\
  (2 <= length x -> (rosenbrock_array x == 0)%Q <-> Forall (fun v => v == 1)%Q x).
Proof.
  split; [rewrite rosenbrock_array_sum; apply rosenbrock_list_sum|]. split; [apply rosenbrock_array_sum|].
  split; [rewrite rosenbrock_array_sum; apply sumn_nonneg; intros; apply rosen_nonneg|].
  intros L. rewrite rosenbrock_array_sum, sumn_zero by (intros; apply rosen_nonneg). rewrite Forall_forall. split.
  - intros H v Hv. apply (In_nth _ _ 0%Q) in Hv. destruct Hv as (i & Hi & <-). fold (at_ x i).
    destruct (Nat.eq_dec i (length x - 1)) as [-> | N].
    + specialize (H (length x - 2) ltac:(lia)). apply rosen_zero in H. destruct H as [_ H].
      replace (length x - 1) with (S (length x - 2)) by lia. exact H.
    + specialize (H i ltac:(lia)). apply rosen_zero in H. apply H.
  - intros H i Hi. apply rosen_zero. split; apply H, nth_In; lia.
Qed.

(** ** Step *)
Lemma step_sum x : (step_evaluate x == sumn (length x) (fun i => inject_Z (Qfloor (at_ x i))))%Q.
Proof. unfold step_evaluate. rewrite np_sum_Qsum. apply Qsum_sumn. Qed.
Lemma floor_le_iff z x : (z <= Qfloor x)%Z <-> (inject_Z z <= x)%Q.
Proof.
  split; intros H.
  - apply Qle_trans with (inject_Z (Qfloor x)); [rewrite <- Zle_Qle; exact H|apply Qfloor_le].
  - apply Z.lt_succ_r. rewrite Zlt_Qlt. apply Qle_lt_trans with x; [exact H|]. pose proof (Qlt_floor x) as K. exact K.
Qed.
Lemma step_spec x :
  (exists z, step_evaluate x == inject_Z z)%Q /\
  (forall y, map Qfloor y = map Qfloor x -> (step_evaluate y == step_evaluate x)%Q) /\
  (forall b, Forall (fun v => v <= b)%Q x ->
     (step_evaluate x <= inject_Z (Z.of_nat (length x)) * inject_Z (Qfloor b))%Q /\
     ((step_evaluate x == inject_Z (Z.of_nat (length x)) * inject_Z (Qfloor b))%Q <->
      Forall (fun v => inject_Z (Qfloor b) <= v)%Q x)).
Proof.
  split; [|split].
  - unfold step_evaluate. rewrite <- map_map.
    assert (K : exists z, (Qsum (map inject_Z (map Qfloor x)) == inject_Z z)%Q).
    { induction (map Qfloor x) as [|z l [w IH]]; [exists 0%Z; reflexivity|]. exists (z + w)%Z. cbn [map]. unfold Qsum in *. cbn [fold_right].
      rewrite IH, inject_Z_plus. reflexivity. }
    destruct K as [z K]. exists z. rewrite np_sum_Qsum. exact K.
  - intros y E. unfold step_evaluate. rewrite <- !(map_map Qfloor inject_Z), E. reflexivity.
  - intros b Hb. rewrite Forall_forall in Hb. rewrite step_sum. rewrite <- sumn_const.
    assert (Hi : forall i, i < length x -> (inject_Z (Qfloor (at_ x i)) <= inject_Z (Qfloor b))%Q).
    { intros i Hi. rewrite <- Zle_Qle. apply Qfloor_resp_le. apply Hb, nth_In, Hi. }
    split; [apply sumn_le, Hi|].
    assert (E : (sumn (length x) (fun i => inject_Z (Qfloor b) + (- (1)) * inject_Z (Qfloor (at_ x i))) ==
                 sumn (length x) (fun _ => inject_Z (Qfloor b)) + (- (1)) * sumn (length x) (fun i => inject_Z (Qfloor (at_ x i))))%Q).
    { rewrite sumn_plus, sumn_scale. reflexivity. }
    assert (Z0 := sumn_zero (length x) (fun i => inject_Z (Qfloor b) + (- (1)) * inject_Z (Qfloor (at_ x i)))%Q).
    cbv beta in Z0. specialize (Z0 ltac:(intros i K; specialize (Hi i K); lra)).
    rewrite Forall_forall. split.
    + intros H v Hv. apply (In_nth _ _ 0%Q) in Hv. destruct Hv as (i & Hl & <-). fold (at_ x i).
      assert (K : (inject_Z (Qfloor b) + (- (1)) * inject_Z (Qfloor (at_ x i)) == 0)%Q) by (apply Z0; [rewrite E, H; ring|exact Hl]).
      apply floor_le_iff. rewrite Zle_Qle. lra.
    + intros H. assert (K : (sumn (length x) (fun i => inject_Z (Qfloor b) + (- (1)) * inject_Z (Qfloor (at_ x i))) == 0)%Q).
      { apply Z0. intros i Hl. assert (F := H _ (nth_In _ 0%Q Hl)). fold (at_ x i) in F. apply floor_le_iff in F. rewrite Zle_Qle in F. specialize (Hi i Hl). lra. }
      rewrite E in K. lra.
Qed.

(** ** Noisy quartic *)
Lemma quartic_spec x noise :
  let clean := sumn (length x) (fun i => inject_Z (Z.of_nat (S i)) * at_ x i ^ 4)%Q in
  (noisy_quartic x noise == clean + Qsum noise)%Q /\ (0 <= clean)%Q /\ ((clean == 0)%Q <-> Forall (fun v => v == 0)%Q x).
Proof.
  intros clean. assert (P : forall i, i < length x -> (0 <= inject_Z (Z.of_nat (S i)) * at_ x i ^ 4)%Q).
  { intros i _. apply Qmult_le_0_compat; [change 0%Q with (inject_Z 0); rewrite <- Zle_Qle; lia|]. rewrite pow4. apply sq_pos. }
  split; [|split].
  - unfold noisy_quartic. rewrite dot_sumn by (rewrite !map_length, seq_length; reflexivity). rewrite map_length, (np_sum_Qsum noise).
    apply Qplus_comp; [|reflexivity]. apply sumn_ext. intros i Hi. unfold at_ at 1 2. rewrite nth_map_seq by exact Hi.
    rewrite (nth_map' _ _ _ 0%Q) by exact Hi. fold (at_ x i). rewrite Nat2Z.inj_succ. unfold Z.succ. rewrite inject_Z_plus. reflexivity.
  - apply sumn_nonneg, P.
  - unfold clean. rewrite sumn_zero by exact P. rewrite Forall_forall. split.
    + intros H v Hv. apply (In_nth _ _ 0%Q) in Hv. destruct Hv as (i & Hl & <-). fold (at_ x i). specialize (H i Hl). rewrite pow4 in H.
      assert (Q0 : ~ (inject_Z (Z.of_nat (S i)) == 0)%Q) by (change 0%Q with (inject_Z 0); rewrite inject_Z_injective; lia).
      apply Qmult_integral in H. destruct H as [H | H]; [contradiction|].
      apply Qmult_integral in H. destruct H as [H | H]; apply Qmult_integral in H; tauto.
    + intros H i Hi. rewrite pow4. assert (F := H _ (nth_In _ 0%Q Hi)). fold (at_ x i) in F. cbv beta in F. rewrite F. ring.
Qed.

(** ** Shekel *)
Lemma foxhole_points c x0 x1 j : j < 25 ->
  (nth j c 0 + (x0 - nth j (nth 0 shekel_points []) 0) ^ 6 + (x1 - nth j (nth 1 shekel_points []) 0) ^ 6)%Q =
  foxhole (fun j => nth j c 0%Q) x0 x1 j.
Proof.
  intros H. unfold foxhole.
  assert (E : nth j (nth 0 shekel_points []) 0%Q = inject_Z (16 * (Z.of_nat (j mod 5) - 2)) /\
              nth j (nth 1 shekel_points []) 0%Q = inject_Z (16 * (Z.of_nat (j / 5) - 2))).
  { do 25 (destruct j as [|j]; [split; reflexivity|]). lia. }
  destruct E as [-> ->]. reflexivity.
Qed.
Lemma foxhole_pos c x0 x1 j : (0 < c j)%Q -> (0 < foxhole c x0 x1 j)%Q.
Proof.
  intros H. unfold foxhole. rewrite !pow6.
  set (a := (x0 - _)%Q). set (b := (x1 - _)%Q). pose proof (sq_pos (a * a * a)). pose proof (sq_pos (b * b * b)). lra.
Qed.
Lemma Qinv_pos x : (0 < x -> 0 < 1 / x)%Q.
Proof. intros H. unfold Qdiv. rewrite Qmult_1_l. apply Qinv_lt_0_compat, H. Qed.
Lemma Qinv_anti x y : (0 < x -> x < y -> 1 / y < 1 / x)%Q.
Proof.
  intros Hx H. apply Qlt_shift_div_l; [exact Hx|]. setoid_replace (1 / y * x)%Q with (x / y)%Q by (field; lra).
  apply Qlt_shift_div_r; lra.
Qed.
Lemma shekel_spec k c x0 x1 :
  (0 < k)%Q -> 25 <= length c -> Forall (fun v => 0 < v)%Q c ->
  exists v, shekel_evaluate k c [x0; x1] = Ok v /\
    (0 < v < k)%Q /\ (forall j, j < 25 -> (v < foxhole (fun j => nth j c 0%Q) x0 x1 j)%Q) /\
    (1 / v == 1 / k + sumn 25 (fun j => 1 / foxhole (fun j => nth j c 0%Q) x0 x1 j))%Q.
Proof.
  intros Hk L Hc. cbn [shekel_evaluate]. rewrite (proj2 (Nat.leb_le _ _) L). eexists. split; [reflexivity|].
  set (s := np_sum _). assert (Es : (s == sumn 25 (fun j => 1 / foxhole (fun j => nth j c 0%Q) x0 x1 j))%Q).
  { unfold s. rewrite np_sum_Qsum. apply Qsum_ext. intros j Hj. apply in_seq in Hj. rewrite foxhole_points by lia. reflexivity. }
  assert (Pj : forall j, j < 25 -> (0 < foxhole (fun j => nth j c 0%Q) x0 x1 j)%Q).
  { intros j Hj. apply foxhole_pos. rewrite Forall_forall in Hc. apply Hc, nth_In. lia. }
  assert (Ps : forall j, j < 25 -> (1 / foxhole (fun j => nth j c 0%Q) x0 x1 j <= s)%Q).
  { intros j Hj. rewrite Es. apply (Qsum_one (fun j => 1 / foxhole (fun j => nth j c 0%Q) x0 x1 j)%Q).
    - intros i Hi. apply in_seq in Hi. apply Qlt_le_weak, Qinv_pos, Pj. lia.
    - apply in_seq. lia. }
  clearbody s. assert (Hs : (0 < s)%Q).
  { specialize (Ps 0%nat ltac:(lia)). pose proof (Qinv_pos _ (Pj 0%nat ltac:(lia))). lra. }
  assert (Hik := Qinv_pos _ Hk). set (ik := (1 / k)%Q) in *.
  assert (Hv := Qinv_pos (ik + s)%Q ltac:(lra)).
  assert (Inv : forall y, (0 < y)%Q -> (1 / (1 / y) == y)%Q) by (intros y Hy; field; lra).
  split; [|split].
  - split; [exact Hv|]. rewrite <- (Inv k Hk). fold ik. apply Qinv_anti; lra.
  - intros j Hj. rewrite <- (Inv _ (Pj j Hj)). specialize (Ps j Hj). pose proof (Qinv_pos _ (Pj j Hj)). apply Qinv_anti; lra.
  - rewrite Inv by lra. rewrite <- Es. reflexivity.
Qed.

(** ** Transformed problems *)
Lemma translated_spec inner o x : length x = length o ->
  exists y, translated_evaluate inner o true x = inner y /\ length y = length x /\
    forall i, i < length x -> (at_ y i == at_ x i - at_ o i)%Q.
Proof.
  intros H. unfold translated_evaluate. rewrite H, Nat.eqb_refl. eexists. split; [reflexivity|].
  split; [rewrite map2_length; congruence|]. intros i Hi. unfold at_ at 1. rewrite map2_nth by (try exact H; congruence). reflexivity.
Qed.
Lemma translated_back inner o x : length x = length o ->
  exists y, translated_evaluate inner o true (map2 Qplus x o) = inner y /\ same_point y x.
Proof.
  intros H. unfold translated_evaluate. rewrite map2_length by exact H. rewrite Nat.eqb_refl. eexists. split; [reflexivity|].
  unfold map2. revert o H. induction x as [|a x IH]; intros [|b o] H; cbn in H; try lia; [constructor|].
  cbn [combine map fst snd]. constructor; [ring|]. apply IH. lia.
Qed.
Lemma translated_errors inner o b x :
  (length x <> length o -> translated_evaluate inner o b x = Err AssertionError) /\
  (length x = length o -> translated_evaluate inner o false x = Err ValueError).
Proof.
  unfold translated_evaluate. split; intros H; [apply Nat.eqb_neq in H; rewrite H; reflexivity|rewrite H, Nat.eqb_refl; reflexivity].
Qed.

Lemma scaled_rel old new x : (fst new < snd new)%Q ->
  ((scaled_point old new x - fst old) * (snd new - fst new) == (x - fst new) * (snd old - fst old))%Q.
Proof. intros H. unfold scaled_point. field. lra. Qed.
Lemma scaled_in old new x : (fst new < snd new)%Q -> (fst old <= snd old)%Q -> (fst new <= x <= snd new)%Q ->
  (fst old <= scaled_point old new x <= snd old)%Q.
Proof.
  intros H K Hx. unfold scaled_point. set (t := ((x - fst new) / (snd new - fst new))%Q).
  assert (T0 : (0 <= t)%Q) by (apply Qle_shift_div_l; lra). assert (T1 : (t <= 1)%Q) by (apply Qle_shift_div_r; lra). clearbody t. nra.
Qed.
Lemma scaled_spec inner old new x : (fst new < snd new)%Q ->
  scaled_evaluate inner old new false x = Err ValueError /\
  exists y, scaled_evaluate inner old new true x = inner y /\ length y = length x /\
    (forall i, i < length x ->
       ((at_ y i - fst old) * (snd new - fst new) == (at_ x i - fst new) * (snd old - fst old))%Q /\
       (at_ x i == fst new -> at_ y i == fst old)%Q /\ (at_ x i == snd new -> at_ y i == snd old)%Q /\
       ((fst old <= snd old)%Q -> (fst new <= at_ x i <= snd new)%Q -> (fst old <= at_ y i <= snd old)%Q)).
Proof.
  intros H. unfold scaled_evaluate. split; [reflexivity|]. eexists. split; [reflexivity|]. split; [apply map_length|]. intros i Hi.
  assert (E : at_ (map (scaled_point old new) x) i = scaled_point old new (at_ x i)) by (unfold at_; apply nth_map', Hi).
  rewrite E. split; [apply scaled_rel, H|]. split; [|split].
  - intros K. unfold scaled_point. rewrite K. field. lra.
  - intros K. unfold scaled_point. rewrite K. field. lra.
  - intros K1 K2. apply scaled_in; assumption.
Qed.

Lemma matrix_spec inner n m x : is_square n m -> length x = n ->
  exists y, matrix_evaluate inner m x = inner y /\ length y = n /\
    (forall i, i < n -> (at_ y i == image n m x i)%Q) /\
    (orthonormal_rows n m -> (sq_length y == sq_length x)%Q).
Proof.
  intros Hm Hx. exists (mat_vec m x). unfold matrix_evaluate.
  replace (length x =? length m) with true by (symmetry; apply Nat.eqb_eq; destruct Hm; congruence).
  assert (F : forallb (fun row => length row =? length x) m = true).
  { apply forallb_forall. intros r Hr. apply Nat.eqb_eq. destruct Hm as [_ Hm]. rewrite Forall_forall in Hm. rewrite (Hm r Hr). congruence. }
  rewrite F. split; [reflexivity|]. assert (L : length (mat_vec m x) = n) by (rewrite mat_vec_length; apply Hm). split; [exact L|].
  assert (A : forall i, i < n -> (at_ (mat_vec m x) i == image n m x i)%Q) by (intros; apply mat_vec_at; assumption).
  split; [exact A|]. intros O. rewrite !sq_length_sumn, L, Hx. rewrite <- (length_preserved n (entry m) O (at_ x)).
  apply sumn_ext. intros i Hi. rewrite (A i Hi). reflexivity.
Qed.
Lemma matrix_problem_spec m : (exists m', matrix_problem m = Ok m') <-> (m <> [] /\ is_square (length m) m).
Proof.
  destruct m as [|r m]; [split; [intros [? [=]]|tauto]|]. cbn [matrix_problem]. split.
  - intros [m' H]. split; [discriminate|]. destruct (length (r :: m) =? length r) eqn:E; [|discriminate]. apply Nat.eqb_eq in E.
    destruct (forallb _ _) eqn:F; [|discriminate]. split; [reflexivity|]. rewrite forallb_forall in F. apply Forall_forall. intros q Hq.
    rewrite E. apply Nat.eqb_eq, F, Hq.
  - intros [_ [_ H]]. rewrite Forall_forall in H. assert (E := H r (or_introl eq_refl)). rewrite E, Nat.eqb_refl.
    replace (forallb _ _) with true; [eexists; reflexivity|]. symmetry. apply forallb_forall. intros q Hq. apply Nat.eqb_eq. apply H, Hq.
Qed.

Lemma matrix_rejects inner m x :
  (length x <> length m -> matrix_evaluate inner m x = Err AssertionError) /\
  (length x = length m -> (exists row, In row m /\ length row <> length x) -> matrix_evaluate inner m x = Err ValueError).
Proof.
  unfold matrix_evaluate. split; intros H.
  - replace (length x =? length m) with false by (symmetry; apply Nat.eqb_neq, H). reflexivity.
  - intros (row & I & N). replace (length x =? length m) with true by (symmetry; apply Nat.eqb_eq, H).
    destruct (forallb _ m) eqn:F; [|reflexivity]. exfalso. rewrite forallb_forall in F. apply N, Nat.eqb_eq, F, I.
Qed.

(** ** Parabaloids *)
Lemma forallb_false_in {A} (f : A -> bool) l : forallb f l = false -> exists x, In x l /\ f x = false.
Proof.
  induction l as [|x l IH]; cbn [forallb]; [discriminate|]. intros H. apply andb_false_iff in H.
  destruct H as [H | H]; [exists x; split; [left; reflexivity|exact H]|]. destruct (IH H) as (y & I & E). exists y. split; [right; exact I|exact E].
Qed.
Lemma parabaloid_rejects n d r : is_square n d -> is_square n r ->
  (parabaloid_matrix d r = Err AssertionError <-> exists i j, i < n /\ j < n /\ i <> j /\ (1 # 100000000 < Qabs (entry d i j))%Q).
Proof.
  intros Hd Hr. unfold parabaloid_matrix.
  assert (Ld : length d = n) by apply Hd. assert (Lr : length r = n) by apply Hr.
  rewrite (proj2 (square_spec d)) by (rewrite Ld; exact Hd). rewrite (proj2 (square_spec r)) by (rewrite Lr; exact Hr).
  rewrite Ld, Lr, Nat.eqb_refl. cbn [andb]. destruct (close_to_diagonal d) eqn:C.
  - split; [discriminate|]. intros (i & j & Hi & Hj & N & B). exfalso. unfold close_to_diagonal in C. rewrite Ld in C.
    rewrite forallb_forall in C. specialize (C i ltac:(apply in_seq; lia)). rewrite forallb_forall in C. specialize (C j ltac:(apply in_seq; lia)).
    apply orb_prop in C. destruct C as [C | C]; [apply Nat.eqb_eq in C; contradiction|]. apply Qle_bool_iff in C. unfold entry, at_ in B. lra.
  - split; [intros _|reflexivity]. unfold close_to_diagonal in C. rewrite Ld in C.
    destruct (forallb_false_in _ _ C) as (i & Hi & E). apply in_seq in Hi. pose proof (forallb_false_in _ _ E) as Y.
    destruct Y as (j & Hj & E'). apply in_seq in Hj. apply orb_false_iff in E'. destruct E' as [N B]. exists i, j. repeat split; [lia|lia|apply Nat.eqb_neq, N|].
    apply Qnot_le_lt. intros L. apply Qle_bool_iff in L. unfold entry, at_ in L. rewrite L in B. discriminate.
Qed.
Lemma generate_rejects nb ng wb ob widths rotations offsets extra :
  (snd wb < fst wb)%Q \/ (snd ob < fst ob)%Q \/ nb < ng ->
  quadratic_generate nb ng wb ob widths rotations offsets extra = Err AssertionError.
Proof.
  intros H. unfold quadratic_generate.
  replace (Qle_bool (fst wb) (snd wb) && Qle_bool (fst ob) (snd ob) && (ng <=? nb)) with false; [reflexivity|]. symmetry.
  destruct (Qle_bool (fst wb) (snd wb)) eqn:A; [|reflexivity]. destruct (Qle_bool (fst ob) (snd ob)) eqn:B; [|reflexivity].
  apply Qle_bool_iff in A, B. apply Nat.leb_gt. destruct H as [H|[H|H]]; [lra|lra|exact H].
Qed.
Lemma parabaloid_matrix_ok n d r : is_square n d -> is_square n r ->
  (forall i j, i < n -> j < n -> i <> j -> (entry d i j == 0)%Q) ->
  parabaloid_matrix d r = Ok (mat_mul (mat_mul (transpose r) d) r).
Proof.
  intros Hd Hr D. unfold parabaloid_matrix.
  assert (Ld : length d = n) by apply Hd. assert (Lr : length r = n) by apply Hr.
  rewrite (proj2 (square_spec d)) by (rewrite Ld; exact Hd). rewrite (proj2 (square_spec r)) by (rewrite Lr; exact Hr).
  rewrite Ld, Lr, Nat.eqb_refl. cbn [andb].
  replace (close_to_diagonal d) with true; [reflexivity|]. symmetry. unfold close_to_diagonal. rewrite Ld.
  apply forallb_forall. intros i Hi. apply forallb_forall. intros j Hj. apply in_seq in Hi, Hj. destruct (i =? j) eqn:E; [reflexivity|].
  apply Nat.eqb_neq in E. cbn [orb]. apply Qle_bool_iff. specialize (D i j ltac:(lia) ltac:(lia) E). unfold entry, at_ in D. rewrite D.
  rewrite Qabs_pos by lra. lra.
Qed.
Lemma quadratic_form n d r x : is_square n d -> is_square n r -> length x = n ->
  (forall i j, i < n -> j < n -> i <> j -> (entry d i j == 0)%Q) ->
  exists v, parabaloid_evaluate (mat_mul (mat_mul (transpose r) d) r) x = Ok v /\
    (v == sumn n (fun i => entry d i i * (image n r x i * image n r x i)))%Q.
Proof.
  intros Hd Hr Hx D. assert (Ht := transpose_square n r Hr). assert (Htd := mat_mul_square n _ _ Ht Hd). assert (Hm := mat_mul_square n _ _ Htd Hr).
  set (M := mat_mul _ r) in *. unfold parabaloid_evaluate.
  replace (length x =? length M) with true by (symmetry; apply Nat.eqb_eq; destruct Hm; congruence).
  eexists. split; [reflexivity|].
  assert (Lv : length (vec_mat x M) = n) by (unfold vec_mat; rewrite map_length, seq_length; apply Hm).
  rewrite dot_sumn by congruence. rewrite Hx.
  (* entries of M *)
  assert (EM : forall a b, a < n -> b < n -> (entry M a b == sumn n (fun i => entry d i i * (entry r i a * entry r i b)))%Q).
  { intros a b Ha Hb. unfold M. rewrite (entry_mat_mul n) by assumption. apply sumn_ext. intros i Hi.
    rewrite (entry_mat_mul n) by assumption.
    transitivity (sumn n (fun k => if k =? i then entry r k a * entry d k i else 0) * entry r i b)%Q.
    - apply Qmult_comp; [|reflexivity]. apply sumn_ext. intros k Hk. rewrite (entry_transpose n) by assumption.
      destruct (k =? i) eqn:E; [reflexivity|]. apply Nat.eqb_neq in E. rewrite (D k i Hk Hi E). ring.
    - rewrite (sumn_delta n i (fun k => entry r k a * entry d k i)%Q Hi). ring. }
  transitivity (sumn n (fun b => sumn n (fun a => sumn n (fun i => (entry d i i * (entry r i a * at_ x a)) * (entry r i b * at_ x b)))))%Q.
  { apply sumn_ext. intros b Hb. rewrite (vec_mat_at n) by assumption. rewrite <- sumn_scale_r. apply sumn_ext. intros a Ha.
    rewrite EM by assumption. rewrite <- sumn_scale, <- sumn_scale_r. apply sumn_ext. intros i Hi. ring. }
  transitivity (sumn n (fun b => sumn n (fun i => sumn n (fun a => (entry d i i * (entry r i a * at_ x a)) * (entry r i b * at_ x b)))))%Q.
  { apply sumn_ext. intros b Hb. apply sumn_swap. }
  rewrite sumn_swap. apply sumn_ext. intros i Hi. unfold image.
  rewrite <- sumn_scale_r, <- sumn_scale. 
  transitivity (sumn n (fun b => sumn n (fun a => entry d i i * (entry r i a * at_ x a)) * (entry r i b * at_ x b)))%Q.
  { apply sumn_ext. intros b Hb. apply sumn_scale_r. }
  rewrite sumn_scale, sumn_scale. rewrite sumn_scale. rewrite sumn_scale_r. ring.
Qed.

Lemma shekel_defaults x0 x1 :
  exists v, shekel_evaluate 500 shekel_default_c [x0; x1] = Ok v /\ (0 < v < 500)%Q /\
    (1 / v == 1 / 500 + sumn 25 (fun j => 1 / foxhole (fun j => inject_Z (Z.of_nat j + 1)) x0 x1 j))%Q.
Proof.
  destruct (shekel_spec 500 shekel_default_c x0 x1) as (v & E & B & _ & S).
  - reflexivity.
  - unfold shekel_default_c. rewrite map_length, seq_length. lia.
  - unfold shekel_default_c. apply Forall_forall. intros q Hq. apply in_map_iff in Hq. destruct Hq as (i & <- & Hi). apply in_seq in Hi.
    change 0%Q with (inject_Z 0). rewrite <- Zlt_Qlt. lia.
  - exists v. split; [exact E|]. split; [exact B|]. rewrite S. apply Qplus_inj_l. apply Qsum_ext. intros j Hj. apply in_seq in Hj.
    assert (K : foxhole (fun j => nth j shekel_default_c 0%Q) x0 x1 j = foxhole (fun j => inject_Z (Z.of_nat j + 1)) x0 x1 j); [|rewrite K; reflexivity].
    unfold foxhole. assert (N : nth j shekel_default_c 0%Q = inject_Z (Z.of_nat j + 1)); [|rewrite N; reflexivity].
    unfold shekel_default_c. rewrite (nth_indep _ 0%Q (inject_Z (Z.of_nat 0))) by (rewrite map_length, seq_length; lia).
    rewrite (map_nth (fun i => inject_Z (Z.of_nat i))), seq_nth by lia. f_equal. lia.
Qed.
