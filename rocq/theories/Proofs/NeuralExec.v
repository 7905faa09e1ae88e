From Coq Require Import Reals Lra Lia Psatz.
From Verif Require Import Model.Base Model.RealFunctions Model.NeuralNet Model.NeuralExec
  Spec.RealFunctions Spec.NeuralNet Spec.NeuralExec Proofs.RealFunctions Proofs.NeuralNet.
Open Scope R_scope.

Lemma R_sum_app a b : R_sum (a ++ b) = R_sum a + R_sum b.
Proof. unfold R_sum. induction a as [|x a IH]; cbn [app fold_right]; [ring|]. rewrite IH. ring. Qed.
Lemma sum_combine j : forall (l : list R) (w : list (list R)), length l = length w ->
  R_sum (map (fun p => fst p * nth j (snd p) 0) (combine l w)) =
  R_sum (map (fun i => nth i l 0 * nth j (nth i w []) 0) (seq 0 (length l))).
Proof.
  induction l as [|x l IH]; intros [|r w] H; try discriminate; [reflexivity|].
  cbn [combine map length seq]. rewrite <- seq_shift, map_map. cbn [R_sum fold_right fst snd nth].
  unfold R_sum in *. cbn [fold_right]. rewrite IH by (cbn in H; lia). reflexivity.
Qed.
Lemma vec_times_ok x w n : is_matrix (length x + 1) n w ->
  vec_times (x ++ [1]) w = Ok (map (weighted_input x w) (seq 0 n)).
Proof.
  intros M. unfold vec_times. rewrite (columns_matrix _ _ _ M). destruct M as [L _].
  rewrite app_length. cbn [length]. rewrite L, Nat.eqb_refl. f_equal. apply map_ext. intros j.
  rewrite r_sum_R_sum, sum_combine by (rewrite app_length; cbn; lia). rewrite app_length. cbn [length].
  rewrite seq_app, map_app, R_sum_app. cbn [seq map plus]. unfold weighted_input. f_equal.
  - f_equal. apply map_ext_in. intros i I. apply in_seq in I. rewrite app_nth1 by lia. reflexivity.
  - rewrite app_nth2, Nat.sub_diag by lia. cbn. ring.
Qed.
Lemma forward f : forall r a b net x, fits (a :: b :: r) net -> Forall (fun n => 0 < n)%nat (b :: r) -> length x = a ->
  nn_call (fun z => Ok (map f z)) net x = Ok (network_output f (a :: b :: r) net x) /\
  length (network_output f (a :: b :: r) net x) = last r b.
Proof.
  induction r as [|c r IH]; intros a b net x F P L; destruct net as [|w net]; try contradiction; destruct F as [M F]; subst a;
    inversion P as [|? ? P1 P2]; subst.
  - destruct net; [|contradiction]. cbn [nn_call network_output]. rewrite (vec_times_ok _ _ _ M). cbn [bind].
    rewrite map_map. fold (layer_output f b w x). assert (E : length (layer_output f b w x) = b) by (unfold layer_output; rewrite map_length, seq_length; reflexivity).
    rewrite E. destruct (Nat.eqb_spec b 0); [lia|]. auto.
  - cbn [nn_call]. rewrite (vec_times_ok _ _ _ M). cbn [bind]. rewrite map_map. fold (layer_output f b w x).
    assert (E : length (layer_output f b w x) = b) by (unfold layer_output; rewrite map_length, seq_length; reflexivity).
    rewrite E. destruct (Nat.eqb_spec b 0); [lia|].
    change (network_output f (length x :: b :: c :: r) (w :: net) x) with (network_output f (b :: c :: r) net (layer_output f b w x)).
    replace (last (c :: r) b) with (last r c).
    + apply IH; auto.
    + clear. revert c. induction r as [|y r IH]; intros c; [reflexivity|]. cbn. destruct r; [reflexivity|]. apply IH.
Qed.
Lemma last_shift {A} (r : list A) : forall b c, last (c :: r) b = last r c.
Proof. induction r as [|y r IH]; intros b c; [reflexivity|]. change (last (y :: r) b = last (y :: r) c). rewrite !IH. reflexivity. Qed.
(** whatever activation keeps the length: the last layer's activation is the output *)
Lemma forward_any act (Hact : forall z, z <> [] -> exists s, act z = Ok s /\ length s = length z) :
  forall r a b net x, fits (a :: b :: r) net -> Forall (fun n => 0 < n)%nat (b :: r) -> length x = a ->
  exists z y, length z = last r b /\ act z = Ok y /\ nn_call act net x = Ok y /\ length y = last r b.
Proof.
  induction r as [|c r IH]; intros a b net x F P L; destruct net as [|w net]; try contradiction; destruct F as [M F]; subst a;
    inversion P as [|? ? P1 P2]; subst; cbn [nn_call]; rewrite (vec_times_ok _ _ _ M); cbn [bind];
    set (z := map (weighted_input x w) (seq 0 b)); assert (Lz : length z = b) by (unfold z; rewrite map_length, seq_length; reflexivity);
    (destruct (Hact z) as (s & Es & Ls); [intros E; rewrite E in Lz; cbn in Lz; lia|]); rewrite Es; cbn [bind];
    (destruct (Nat.eqb_spec (length s) 0); [lia|]).
  - destruct net; [|contradiction]. exists z, s. cbn [last nn_call]. split; [auto|]. split; [auto|]. split; [reflexivity|]. congruence.
  - rewrite last_shift. apply IH with b; auto. congruence.
Qed.
Lemma wrong_input act a b r net x : fits (a :: b :: r) net -> length x <> a -> nn_call act net x = Err ValueError.
Proof.
  intros F N. destruct net as [|w net]; [contradiction|]. destruct F as [[L _] _]. cbn [nn_call]. unfold vec_times.
  rewrite app_length, L. cbn [length]. destruct (Nat.eqb_spec (length x + 1) (a + 1)); [lia|]. reflexivity.
Qed.

(** ** activations *)
Lemma nth_map_in (f : R -> R) l i d : (i < length l)%nat -> nth i (map f l) 0 = f (nth i l d).
Proof. intros H. rewrite (nth_indep _ 0 (f d)) by (rewrite map_length; exact H). apply map_nth. Qed.
Lemma sigmoid_formula x : sigmoid1 x = 1 / (1 + exp (- x)).
Proof.
  unfold sigmoid1. pose proof (exp_pos x). pose proof (exp_pos (- x)).
  destruct (Rle_dec 0 x) as [H1|H1].
  - rewrite Rmin_left, exp_0, Rabs_right by lra. reflexivity.
  - rewrite Rmin_right, Rabs_left by lra. rewrite Ropp_involutive.
    assert (E : exp (- x) * exp x = 1) by (rewrite <- exp_plus; replace (- x + x) with 0 by ring; apply exp_0).
    assert (E' : exp (- x) = / exp x) by (apply exp_Ropp). rewrite E'. field. lra.
Qed.
Lemma sigmoid_spec x : 0 < sigmoid1 x < 1 /\ sigmoid1 (- x) = 1 - sigmoid1 x /\
  (forall y, x < y -> sigmoid1 x < sigmoid1 y).
Proof.
  pose proof (exp_pos (- x)) as P. split; [|split].
  - rewrite sigmoid_formula. unfold Rdiv. rewrite Rmult_1_l. split; [apply Rinv_0_lt_compat; lra|].
    apply Rmult_lt_reg_r with (1 + exp (- x)); [lra|]. rewrite Rinv_l by lra. lra.
  - rewrite !sigmoid_formula, Ropp_involutive. rewrite (exp_Ropp x). pose proof (exp_pos x). field. lra.
  - intros y H. rewrite !sigmoid_formula. unfold Rdiv. rewrite !Rmult_1_l. pose proof (exp_pos (- y)).
    apply Rinv_lt_contravar; [nra|]. assert (exp (- y) < exp (- x)) by (apply exp_increasing; lra). lra.
Qed.
Lemma r_max_spec x : x <> [] -> exists m, r_max x = Ok m /\ In m x /\ forall v, In v x -> v <= m.
Proof.
  destruct x as [|a r]; [congruence|]. intros _. exists (fold_left Rmax r a). split; [reflexivity|].
  revert a. induction r as [|b r IH]; intros a; cbn [fold_left].
  - split; [left; reflexivity|]. intros v [->|[]]. lra.
  - destruct (IH (Rmax a b)) as [I M]. split.
    + destruct I as [I|I]; [|right; right; exact I]. rewrite <- I. unfold Rmax. destruct (Rle_dec a b); [right; left|left]; reflexivity.
    + pose proof (M _ (or_introl eq_refl)) as K. pose proof (Rmax_l a b). pose proof (Rmax_r a b).
      intros v [->|[->|V]]; [lra|lra|apply M; right; exact V].
Qed.
Lemma softmax_formula x : x <> [] -> exists y, softmax x = Ok y /\
  y = map (fun v => exp v / R_sum (map exp x)) x.
Proof.
  intros N. destruct (r_max_spec x N) as (m & E & _). unfold softmax. rewrite E. cbn [bind]. eexists. split; [reflexivity|].
  rewrite map_map. apply map_ext. intros v. rewrite r_sum_R_sum.
  assert (S : R_sum (map (fun v => exp (v - m)) x) = R_sum (map exp x) * exp (- m)).
  { clear. unfold R_sum. induction x as [|a x IH]; cbn [map fold_right]; [ring|]. rewrite IH. unfold Rminus. rewrite exp_plus. ring. }
  rewrite S. unfold Rminus. rewrite exp_plus. pose proof (exp_pos (- m)).
  assert (0 < R_sum (map exp x)).
  { destruct x as [|a x]; [congruence|]. unfold R_sum. cbn [map fold_right]. pose proof (exp_pos a).
    assert (0 <= fold_right Rplus 0 (map exp x)) by (clear; induction x as [|b x IH]; cbn [map fold_right]; [lra|]; pose proof (exp_pos b); lra). lra. }
  field. split; lra.
Qed.
Lemma softmax_spec x : x <> [] -> exists y, softmax x = Ok y /\ length y = length x /\
  Forall (fun v => 0 < v <= 1) y /\ R_sum y = 1 /\
  (forall i j, (i < length x)%nat -> (j < length x)%nat -> nth i x 0 < nth j x 0 -> nth i y 0 < nth j y 0) /\
  (forall c, softmax (map (fun v => v + c) x) = Ok y).
Proof.
  intros N. destruct (softmax_formula x N) as (y & E & F). exists y. split; [exact E|]. subst y.
  assert (P : 0 < R_sum (map exp x)).
  { destruct x as [|a x]; [congruence|]. unfold R_sum. cbn [map fold_right]. pose proof (exp_pos a).
    assert (0 <= fold_right Rplus 0 (map exp x)) by (clear; induction x as [|b x IH]; cbn [map fold_right]; [lra|]; pose proof (exp_pos b); lra). lra. }
  set (s := R_sum (map exp x)) in *. assert (Pi : 0 < / s) by (apply Rinv_0_lt_compat; exact P).
  split; [apply map_length|]. split; [|split; [|split]].
  - apply Forall_forall. intros v I. apply in_map_iff in I. destruct I as (u & <- & I). pose proof (exp_pos u).
    assert (exp u <= s).
    { unfold s. clear - I. unfold R_sum. induction x as [|b x IH]; [destruct I|]. cbn [map fold_right].
      assert (0 <= fold_right Rplus 0 (map exp x)) by (clear; induction x as [|b x IH]; cbn [map fold_right]; [lra|]; pose proof (exp_pos b); lra).
      destruct I as [->|I]; [lra|]. apply IH in I. pose proof (exp_pos b). lra. }
    unfold Rdiv. split; [apply Rmult_lt_0_compat; lra|]. apply Rmult_le_reg_r with s; [lra|]. rewrite Rmult_assoc, Rinv_l by lra. lra.
  - assert (K : R_sum (map (fun v => exp v / s) x) = R_sum (map exp x) * / s).
    { clearbody s. clear. unfold R_sum. induction x as [|b x IH]; cbn [map fold_right]; [ring|]. rewrite IH. unfold Rdiv. ring. }
    rewrite K. fold s. apply Rinv_r. lra.
  - intros i j Hi Hj L. rewrite !(nth_map_in _ x _ 0) by auto. apply Rmult_lt_compat_r; [exact Pi|]. apply exp_increasing. exact L.
  - intros c. destruct (softmax_formula (map (fun v => v + c) x)) as (y & E' & ->); [destruct x; [congruence|discriminate]|].
    rewrite E'. f_equal. rewrite map_map. apply map_ext. intros v.
    assert (K : R_sum (map exp (map (fun v => v + c) x)) = s * exp c).
    { unfold s. clear. unfold R_sum. induction x as [|b x IH]; cbn [map fold_right]; [ring|]. rewrite IH, exp_plus. ring. }
    rewrite K, exp_plus. pose proof (exp_pos c). field. split; lra.
Qed.
Lemma relu_spec x : relu x = Ok (map (fun v => if Rlt_dec 0 v then v else 0) x).
Proof.
  unfold relu. f_equal. apply map_ext. intros v. destruct (Rlt_dec 0 v); [apply Rmax_right|apply Rmax_left]; lra.
Qed.
Lemma softmax_full x : x <> [] -> exists y, softmax x = Ok y /\
  y = map (fun v => exp v / R_sum (map exp x)) x /\ length y = length x /\
  Forall (fun v => 0 < v <= 1) y /\ R_sum y = 1 /\
  (forall i j, (i < length x)%nat -> (j < length x)%nat -> nth i x 0 < nth j x 0 -> nth i y 0 < nth j y 0) /\
  (forall c, softmax (map (fun v => v + c) x) = Ok y).
Proof.
  intros N. destruct (softmax_formula x N) as (y & E & F). destruct (softmax_spec x N) as (y' & E' & H).
  rewrite E in E'. injection E' as <-. exists y. split; [exact E|]. split; [exact F|exact H].
Qed.

(** whole networks *)
Lemma network_output_ext f g : (forall v, f v = g v) -> forall sizes net x, network_output f sizes net x = network_output g sizes net x.
Proof.
  intros H. assert (L : forall n w x, layer_output f n w x = layer_output g n w x) by (intros; unfold layer_output; apply map_ext; intros; apply H).
  induction sizes as [|a [|b r] IH]; intros [|w net] x; cbn [network_output]; auto. rewrite L. apply IH.
Qed.
Lemma sigmoid_network r a b net x : fits (a :: b :: r) net -> Forall (fun n => 0 < n)%nat (b :: r) -> length x = a ->
  exists y, nn_call sigmoid net x = Ok y /\ length y = last r b /\ Forall (fun v => 0 < v < 1) y /\
    y = network_output (fun v => 1 / (1 + exp (- v))) (a :: b :: r) net x.
Proof.
  intros F P L. destruct (forward sigmoid1 r a b net x F P L) as [E Ly]. eexists. split; [exact E|]. split; [exact Ly|].
  split; [|apply network_output_ext, sigmoid_formula].
  destruct (forward_any sigmoid (fun z _ => ex_intro _ _ (conj eq_refl (map_length _ _))) r a b net x F P L) as (z & y & _ & Ez & Ey & _).
  assert (K : Ok (network_output sigmoid1 (a :: b :: r) net x) = Ok y) by exact (eq_trans (eq_sym E) Ey).
  apply (f_equal (fun o => match o with Ok l => l | Err _ => [] end)) in K. cbv beta iota in K. rewrite K.
  assert (Ez' : map sigmoid1 z = y) by (unfold sigmoid in Ez; congruence). rewrite <- Ez'.
  apply Forall_forall. intros v Hv. apply in_map_iff in Hv. destruct Hv as (u & <- & _). apply sigmoid_spec.
Qed.
Lemma softmax_network r a b net x : fits (a :: b :: r) net -> Forall (fun n => 0 < n)%nat (b :: r) -> length x = a ->
  exists y, nn_call softmax net x = Ok y /\ length y = last r b /\ Forall (fun v => 0 < v <= 1) y /\ R_sum y = 1.
Proof.
  intros F P L. assert (Hact : forall z, z <> [] -> exists s, softmax z = Ok s /\ length s = length z).
  { intros z Hz. destruct (softmax_full z Hz) as (s & Es & _ & Ls & _). eauto. }
  destruct (forward_any softmax Hact r a b net x F P L) as (z & y & Lz & Ez & Ey & Ly). exists y. split; [exact Ey|]. split; [exact Ly|].
  assert (Hz : z <> []). { intros ->. cbn in Ez. discriminate. }
  destruct (softmax_full z Hz) as (s & Es & _ & _ & Fs & Ss & _). rewrite Ez in Es. injection Es as <-. auto.
Qed.
