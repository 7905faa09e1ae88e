From Verif Require Import Model.Base Model.Rules Model.Variation Model.Proportional Model.Floats Spec.Floats Proofs.Order Proofs.Floats.
From Coq Require Import QArith Qabs Qpower Qround Lia Lqa Qfield Setoid Morphisms.
Local Open Scope Q_scope.

(** ** stochastic universal sampling *)
Lemma fold_b64 values s : binary64 s -> binary64 (fold_left fadd values s).
Proof. revert s. induction values as [|v values IH]; intros s B; [exact B|]. apply IH, rnd_b64. Qed.
Lemma fold_up values s : binary64 s -> Forall (fun v => 0 <= v) values -> s <= fold_left fadd values s.
Proof.
  intros B F. revert s B. induction F as [|v values Hv F IH]; intros s B; [apply Qle_refl|]. cbn [fold_left].
  eapply Qle_trans; [|apply IH, rnd_b64]. apply rnd_ge_b; [exact B|lra].
Qed.
Lemma Qltb_false a b : Qltb a b = false <-> b <= a.
Proof.
  split; intros H.
  - apply Qnot_lt_le. intros C. apply Qltb_lt in C. congruence.
  - destruct (Qltb a b) eqn:E; [apply Qltb_lt in E; lra|reflexivity].
Qed.
Lemma advance_ok rest idx sum p : p <= fold_left fadd rest sum ->
  exists k, (k <= length rest)%nat /\ sus_advance_f rest idx sum p = Ok ((idx + k)%nat, fold_left fadd (firstn k rest) sum).
Proof.
  revert idx sum. induction rest as [|v rest IH]; intros idx sum H; cbn [fold_left] in H.
  - exists 0%nat. split; [cbn; lia|]. cbn [sus_advance_f firstn fold_left]. rewrite (proj2 (Qltb_false sum p) H), Nat.add_0_r. reflexivity.
  - cbn [sus_advance_f]. destruct (Qltb sum p).
    + destruct (IH (S idx) _ H) as (k & Hk & E). exists (S k). split; [cbn; lia|]. rewrite E. cbn [firstn fold_left]. f_equal. f_equal. lia.
    + exists 0%nat. split; [lia|]. rewrite Nat.add_0_r. reflexivity.
Qed.
Lemma advance_err rest idx sum p : binary64 sum -> Forall (fun v => 0 <= v) rest -> fold_left fadd rest sum < p ->
  sus_advance_f rest idx sum p = Err IndexError.
Proof.
  intros B F. revert idx sum B. induction F as [|v rest Hv F IH]; intros idx sum B H; cbn [fold_left] in H.
  - cbn [sus_advance_f]. rewrite (proj2 (Qltb_lt sum p) H). reflexivity.
  - cbn [sus_advance_f]. assert (U : fadd sum v <= fold_left fadd rest (fadd sum v)) by (apply fold_up; [apply rnd_b64|exact F]).
    assert (U2 : sum <= fadd sum v) by (apply rnd_ge_b; [exact B|lra]).
    rewrite (proj2 (Qltb_lt sum p)) by lra. apply IH; [apply rnd_b64|exact H].
Qed.
Lemma prev_ok {A} (population : list A) idx : population <> [] -> (idx <= length population)%nat ->
  exists x, In x population /\ py_prev population idx = Ok x.
Proof.
  intros N L. unfold py_prev. set (j := match idx with 0%nat => (length population - 1)%nat | S i => i end).
  assert (J : (j < length population)%nat) by (unfold j; destruct population; [congruence|]; cbn in *; destruct idx; lia).
  destruct (nth_error population j) as [x|] eqn:E; [|apply nth_error_None in E; lia].
  exists x. split; [eapply nth_error_In; exact E|reflexivity].
Qed.
Lemma skip_fold values idx : (fold_left fadd (skipn idx values) (fold_left fadd (firstn idx values) 0) = fold_left fadd values 0)%Q.
Proof. rewrite <- fold_left_app, firstn_skipn. reflexivity. Qed.
Lemma firstn_more {A} (l : list A) i k : firstn (i + k) l = firstn i l ++ firstn k (skipn i l).
Proof. revert i. induction l as [|x l IH]; intros i; [destruct i, k; reflexivity|]. destruct i as [|i]; [reflexivity|]. cbn. f_equal. apply IH. Qed.
Lemma Forall_skip {A} (P : A -> Prop) l i : Forall P l -> Forall P (skipn i l).
Proof. intros F. revert i. induction F; intros [|i]; cbn; auto. Qed.
Lemma walk {A} (population : list A) values points idx :
  population <> [] -> length values = length population -> Forall (fun v => 0 <= v) values -> (idx <= length values)%nat ->
  (Forall (fun p => p <= float_total values) points ->
     exists xs, sus_walk_f population values idx (fold_left fadd (firstn idx values) 0) points = Ok xs /\
                length xs = length points /\ incl xs population) /\
  (Exists (fun p => float_total values < p) points ->
     sus_walk_f population values idx (fold_left fadd (firstn idx values) 0) points = Err IndexError).
Proof.
  intros N EL F. change (float_total values) with (fold_left fadd values 0). revert idx.
  induction points as [|p points IH]; intros idx Hi.
  - split; intros H; [exists []; split; [reflexivity|split; [reflexivity|intros x []]]|inversion H].
  - assert (B0 : binary64 (fold_left fadd (firstn idx values) 0)) by apply fold_b64, b64_0.
    assert (Step : p <= fold_left fadd values 0 -> exists j x, (j <= length values)%nat /\ In x population /\
      sus_walk_f population values idx (fold_left fadd (firstn idx values) 0) (p :: points) =
      bind (sus_walk_f population values j (fold_left fadd (firstn j values) 0) points) (fun xs => Ok (x :: xs))).
    { intros Hp. rewrite <- (skip_fold values idx) in Hp. destruct (advance_ok (skipn idx values) idx _ p Hp) as (k & Hk & E).
      rewrite skipn_length in Hk. destruct (prev_ok population (idx + k) N) as (x & Hx & Ex); [lia|].
      exists (idx + k)%nat, x. split; [lia|]. split; [exact Hx|]. cbn [sus_walk_f]. rewrite E. cbn [bind]. rewrite Ex. cbn [bind].
      rewrite firstn_more, fold_left_app. reflexivity. }
    split; intros H.
    + pose proof (Forall_inv H) as Hp. pose proof (Forall_inv_tail H) as Ht. destruct (Step Hp) as (j & x & Hj & Hx & E).
      destruct (proj1 (IH j Hj) Ht) as (xs & Ew & L & I). rewrite E, Ew. exists (x :: xs). split; [reflexivity|].
      split; [cbn; congruence|]. intros y [<-|Hy]; [exact Hx|exact (I y Hy)].
    + destruct (Qlt_le_dec (fold_left fadd values 0) p) as [L|L].
      * cbn [sus_walk_f]. rewrite advance_err; [reflexivity|exact B0|apply Forall_skip, F|]. rewrite skip_fold. exact L.
      * destruct (Step L) as (j & x & Hj & Hx & E). rewrite E. inversion H as [? ? C|? ? C]; subst; [lra|].
        rewrite (proj2 (IH j Hj) C). reflexivity.
Qed.

Definition point (spacing u : Q) (i : nat) : Q := fadd (uniform 0 spacing u) (fmul (of_int (Z.of_nat i)) spacing).
Lemma point_mono spacing u i j : 0 <= spacing -> (i <= j)%nat -> point spacing u i <= point spacing u j.
Proof.
  intros H L. unfold point, fadd. apply rnd_mono. cut (fmul (of_int (Z.of_nat i)) spacing <= fmul (of_int (Z.of_nat j)) spacing); [lra|].
  apply rnd_mono. apply Qmult_le_compat_r; [|exact H]. apply rnd_mono. rewrite <- Zle_Qle. lia.
Qed.
Lemma start_eq spacing u : binary64 spacing -> uniform 0 spacing u == rnd (spacing * u).
Proof.
  intros B. unfold uniform, fadd, fmul, fsub. setoid_replace (spacing - 0) with spacing by ring. rewrite (rnd_id spacing B).
  rewrite Qplus_0_l. apply rnd_id, rnd_b64.
Qed.
Lemma last_eq total n u : (1 <= n)%nat -> (Z.of_nat n <= 2 ^ 53)%Z ->
  point (fdiv total (of_int (Z.of_nat n))) u (n - 1) == last_point total n u.
Proof.
  intros H1 H2. unfold point, last_point, fadd. cbv zeta. rewrite start_eq by apply rnd_b64. unfold fdiv, fmul.
  rewrite !of_int_id by lia. rewrite Nat2Z.inj_sub by exact H1. reflexivity.
Qed.
Lemma points_eq total n u : sus_points_f total n u = map (point (fdiv total (of_int (Z.of_nat n))) u) (seq 0 n).
Proof. unfold sus_points_f, point. cbv zeta. reflexivity. Qed.
Lemma pass {A} (population : list A) values total n u :
  population <> [] -> length values = length population -> Forall (fun v => 0 <= v) values -> 0 <= total ->
  (1 <= n)%nat -> (Z.of_nat n <= 2 ^ 53)%Z ->
  (last_point total n u <= float_total values ->
     exists xs, sus_pass_f population values total n u = Ok xs /\ length xs = n /\ incl xs population) /\
  (float_total values < last_point total n u -> sus_pass_f population values total n u = Err IndexError).
Proof.
  intros N EL F Ht H1 H2. assert (LE := last_eq total n u H1 H2). unfold sus_pass_f. rewrite points_eq.
  set (sp := fdiv total (of_int (Z.of_nat n))) in *.
  assert (Hs : 0 <= sp).
  { unfold sp, fdiv. apply rnd_nonneg. rewrite of_int_id by lia. apply Qle_shift_div_l; [change 0 with (inject_Z 0); rewrite <- Zlt_Qlt; lia|lra]. }
  clearbody sp. set (lp := last_point total n u) in *. clearbody lp.
  assert (W := walk population values (map (point sp u) (seq 0 n)) 0 N EL F (Nat.le_0_l _)).
  change (fold_left fadd (firstn 0 values) 0) with 0 in W. destruct W as [W1 W2]. split; intros H.
  - destruct W1 as (xs & E & L & I); [|exists xs; rewrite map_length, seq_length in L; auto].
    apply Forall_map, Forall_forall. intros i Hi. apply in_seq in Hi.
    eapply Qle_trans; [apply (point_mono sp u i (n - 1) Hs); lia|rewrite LE; exact H].
  - apply W2. apply Exists_exists. exists (point sp u (n - 1)). split; [|rewrite LE; exact H]. apply in_map, in_seq. lia.
Qed.

(** integers *)
Lemma fold_int zs s : (0 <= s)%Z -> Forall (fun z => (0 <= z)%Z) zs -> (s + Zsum zs <= 2 ^ 53)%Z ->
  forall q, q == inject_Z s -> fold_left fadd (map inject_Z zs) q == inject_Z (s + Zsum zs).
Proof.
  intros Hs F. revert s Hs. induction F as [|z zs Hz F IH]; intros s Hs H q E; cbn [map fold_left Zsum fold_right] in *.
  - rewrite E, Z.add_0_r. reflexivity.
  - fold (Zsum zs) in *. assert (Z0 : (0 <= Zsum zs)%Z) by (clear - F; induction F; cbn [Zsum fold_right]; [lia|fold (Zsum l) in *; lia]).
    rewrite (IH (s + z)%Z); [rewrite Z.add_assoc; reflexivity|lia|lia|].
    unfold fadd. rewrite E, <- inject_Z_plus. apply rnd_id, b64_int. lia.
Qed.
Lemma Zsum_nonneg zs : Forall (fun z => (0 <= z)%Z) zs -> (0 <= Zsum zs)%Z.
Proof. intros F. induction F; cbn [Zsum fold_right]; [lia|]. fold (Zsum l) in *. lia. Qed.
Lemma total_int zs : Forall (fun z => (0 <= z)%Z) zs -> (Zsum zs <= 2 ^ 53)%Z -> float_total (map inject_Z zs) == inject_Z (Zsum zs).
Proof. intros F H. apply (fold_int zs 0); [lia|exact F|lia|reflexivity]. Qed.
Lemma values_int zs : Forall (fun z => (0 <= z)%Z) zs -> Forall (fun v => 0 <= v) (map inject_Z zs).
Proof. intros F. apply Forall_map. revert F. apply Forall_impl. intros z H. change 0 with (inject_Z 0). rewrite <- Zle_Qle. exact H. Qed.

Lemma sus_safe {A} (population : list A) zs n u :
  population <> [] -> length zs = length population -> Forall (fun z => (0 <= z)%Z) zs -> (Zsum zs <= 2 ^ 53)%Z ->
  (1 <= n)%nat -> (Z.of_nat n <= 2 ^ 53)%Z -> last_point (inject_Z (Zsum zs)) n u <= inject_Z (Zsum zs) ->
  exists xs, sus_pass_f population (map inject_Z zs) (inject_Z (Zsum zs)) n u = Ok xs /\ length xs = n /\ incl xs population.
Proof.
  intros N EL F HT H1 H2 H. apply pass; try assumption.
  - rewrite map_length. exact EL.
  - apply values_int, F.
  - change 0 with (inject_Z 0). rewrite <- Zle_Qle. apply Zsum_nonneg, F.
  - rewrite total_int by assumption. exact H.
Qed.

Lemma last_power T k n u : (0 <= T)%Z -> (Z.of_nat n = 2 ^ Z.of_nat k)%Z -> (T * Z.of_nat n <= 2 ^ 53)%Z -> unit_draw u ->
  last_point (inject_Z T) n u <= inject_Z T.
Proof.
  intros HT Hn HTn Hu. destruct (unit_range u Hu) as (U0 & U1 & _ & _).
  assert (N1 : (1 <= Z.of_nat n)%Z) by (rewrite Hn; assert (0 < 2 ^ Z.of_nat k)%Z by (apply Z.pow_pos_nonneg; lia); lia).
  assert (T53 : (T <= 2 ^ 53)%Z) by nia.
  destruct (Z.eq_dec T 0) as [->|T0].
  { unfold last_point. cbv zeta. setoid_replace (inject_Z 0 / inject_Z (Z.of_nat n)) with 0; [|unfold Qdiv; change (inject_Z 0) with 0; ring].
    rewrite rnd_0. rewrite Qmult_0_l, Qmult_0_r, rnd_0. change (rnd (0 + 0)) with 0. apply Qle_refl. }
  assert (K : (Z.of_nat k <= 53)%Z).
  { destruct (Z.le_gt_cases (Z.of_nat k) 53) as [L|L]; [exact L|]. exfalso.
    assert (2 ^ 53 < 2 ^ Z.of_nat k)%Z by (apply Z.pow_lt_mono_r; lia). nia. }
  set (sp := inject_Z T * pow2 (- Z.of_nat k)).
  assert (NN : inject_Z (Z.of_nat n) == pow2 (Z.of_nat k)) by (rewrite pow2_Z, Hn by lia; reflexivity).
  assert (P := pow2_pos (Z.of_nat k)).
  assert (PP : pow2 (Z.of_nat k) * pow2 (- Z.of_nat k) == 1) by (rewrite <- pow2_plus, Z.add_opp_diag_r; reflexivity).
  assert (E1 : inject_Z T / inject_Z (Z.of_nat n) == sp).
  { rewrite NN. transitivity (inject_Z T * (pow2 (Z.of_nat k) * pow2 (- Z.of_nat k)) / pow2 (Z.of_nat k)); [rewrite PP; field; lra|unfold sp; field; lra]. }
  assert (B1 : binary64 sp) by (apply b64_scaled; lia).
  assert (B2 : binary64 (inject_Z (Z.of_nat n - 1) * sp)).
  { apply (b64_comp (inject_Z ((Z.of_nat n - 1) * T) * pow2 (- Z.of_nat k))); [rewrite inject_Z_mult; unfold sp; ring|].
    apply b64_scaled; [nia|lia]. }
  assert (S0 : 0 <= sp).
  { unfold sp. apply Qmult_le_0_compat; [change 0 with (inject_Z 0); rewrite <- Zle_Qle; exact HT|apply Qlt_le_weak, pow2_pos]. }
  unfold last_point. cbv zeta. rewrite E1, (rnd_id sp B1), (rnd_id _ B2). apply rnd_le_b; [apply b64_int; lia|].
  assert (S1 : rnd (sp * u) <= sp).
  { apply rnd_le_b; [exact B1|]. assert (E0 := eps_pos). assert (sp * u <= sp * 1) by (rewrite !(Qmult_comm sp); apply Qmult_le_compat_r; lra). lra. }
  assert (E2 : inject_Z (Z.of_nat n - 1) * sp + sp == inject_Z T).
  { unfold Zminus. rewrite inject_Z_plus, NN. change (inject_Z (- (1))) with (- (1)). unfold sp.
    setoid_replace ((pow2 (Z.of_nat k) + - (1)) * (inject_Z T * pow2 (- Z.of_nat k)) + inject_Z T * pow2 (- Z.of_nat k))
      with (inject_Z T * (pow2 (Z.of_nat k) * pow2 (- Z.of_nat k))) by ring. rewrite PP. ring. }
  lra.
Qed.

Lemma last_rare T n u : (0 <= T <= 2 ^ 53)%Z -> (1 <= n)%nat -> (Z.of_nat n <= 2 ^ 53)%Z -> unit_draw u ->
  u <= 1 - 3 * inject_Z (Z.of_nat n) * eps -> last_point (inject_Z T) n u <= inject_Z T.
Proof.
  intros HT H1 H2 Hu Hu3. destruct (unit_range u Hu) as (U0 & U1 & U2 & _).
  set (N := inject_Z (Z.of_nat n)) in *. assert (N1 : 1 <= N) by (unfold N; change 1 with (inject_Z 1); rewrite <- Zle_Qle; lia).
  destruct (Z.eq_dec T 0) as [->|T0].
  { unfold last_point. cbv zeta. fold N. setoid_replace (inject_Z 0 / N) with 0; [|unfold Qdiv; change (inject_Z 0) with 0; ring].
    rewrite rnd_0. rewrite Qmult_0_l, Qmult_0_r, rnd_0. change (rnd (0 + 0)) with 0. apply Qle_refl. }
  unfold last_point. cbv zeta. fold N. set (t := inject_Z T) in *.
  assert (t1 : 1 <= t) by (unfold t; change 1 with (inject_Z 1); rewrite <- Zle_Qle; lia).
  apply rnd_le_b; [apply b64_int; lia|]. set (sp := rnd (t / N)).
  assert (EN : inject_Z (Z.of_nat n - 1) == N - 1) by (unfold N, Zminus; rewrite inject_Z_plus; reflexivity). rewrite EN.
  assert (E0 := eps_pos). assert (E1 := eps_small).
  assert (Q0 : eps <= t / N).
  { apply Qle_shift_div_l; [lra|]. assert (N <= inject_Z (2 ^ 53)) by (unfold N; rewrite <- Zle_Qle; exact H2).
    assert (eps * N <= eps * inject_Z (2 ^ 53)) by (rewrite !(Qmult_comm eps); apply Qmult_le_compat_r; lra).
    assert (EE : eps * inject_Z (2 ^ 53) == 1) by reflexivity. lra. }
  assert (P1 : pow2 (-1022) <= eps * eps) by discriminate.
  assert (Sp0 : eps <= sp) by (apply rnd_ge_b; [apply (b64_pow2 (-53)); lia|exact Q0]).
  assert (ee : eps * eps <= eps) by nra.
  assert (Sp1 : sp <= t / N * (1 + eps)) by (apply rnd_up; right; lra).
  assert (A : rnd (sp * u) <= sp * u * (1 + eps)).
  { apply rnd_up. destruct U2 as [U2|U2]; [left; rewrite U2; ring|right].
    assert (eps * eps <= sp * u) by (apply Qmult_le_compat_nonneg; split; lra). lra. }
  assert (B : rnd ((N - 1) * sp) <= (N - 1) * sp * (1 + eps)).
  { apply rnd_up. destruct (Nat.eq_dec n 1) as [E|E]; [left; unfold N; rewrite E; change (inject_Z (Z.of_nat 1)) with 1; ring|right].
    assert (2 <= N) by (unfold N; change 2 with (inject_Z 2); rewrite <- Zle_Qle; lia). nra. }
  assert (C : rnd (sp * u) + rnd ((N - 1) * sp) <= sp * ((N - 1 + u) * (1 + eps))) by lra.
  assert (D : (N - 1 + u) <= N * (1 - 3 * eps)) by lra.
  assert (D2 : sp * ((N - 1 + u) * (1 + eps)) <= (t / N * (1 + eps)) * ((N * (1 - 3 * eps)) * (1 + eps))).
  { apply Qmult_le_compat_nonneg; split; [lra|exact Sp1| |]; [nra|]. apply Qmult_le_compat_r; lra. }
  assert (D3 : (t / N * (1 + eps)) * ((N * (1 - 3 * eps)) * (1 + eps)) == t * ((1 + eps) * (1 + eps) * (1 - 3 * eps))) by (field; lra).
  assert (D4 : (1 + eps) * (1 + eps) * (1 - 3 * eps) <= 1) by (assert (0 <= eps * eps) by nra; assert (0 <= eps * eps * eps) by nra; nra).
  assert (D5 : t * ((1 + eps) * (1 + eps) * (1 - 3 * eps)) <= t * 1) by (rewrite !(Qmult_comm t); apply Qmult_le_compat_r; lra).
  lra.
Qed.

(** ** real decoders *)
Lemma bits_pos b : (1 <= b)%nat -> (1 <= 2 ^ Z.of_nat b - 1)%Z.
Proof. intros H. assert (2 ^ 1 <= 2 ^ Z.of_nat b)%Z by (apply Z.pow_le_mono_r; lia). lia. Qed.
Lemma of_int_pos z : (1 <= z)%Z -> 1 <= of_int z.
Proof. intros H. unfold of_int. apply rnd_ge_b; [apply (b64_int 1); lia|]. change 1 with (inject_Z 1). rewrite <- Zle_Qle. exact H. Qed.
Lemma increment_nonneg b l u : (1 <= b)%nat -> l <= u -> 0 <= increment_f b l u.
Proof.
  intros Hb H. unfold increment_f, fdiv, fsub. apply rnd_nonneg. assert (1 <= of_int (2 ^ Z.of_nat b - 1)) by (apply of_int_pos, bits_pos, Hb).
  apply Qle_shift_div_l; [lra|]. rewrite Qmult_0_l. apply rnd_nonneg. lra.
Qed.
Lemma decode_0 b l u : binary64 l -> decode_f b l u 0 == l.
Proof.
  intros B. unfold decode_f, fadd, fmul. change (of_int 0) with 0. rewrite Qmult_0_l, rnd_0, Qplus_0_r. apply rnd_id, B.
Qed.
Lemma decode_mono b l u c c' : (1 <= b)%nat -> l <= u -> (c <= c')%Z -> decode_f b l u c <= decode_f b l u c'.
Proof.
  intros Hb H L. unfold decode_f, fadd, fmul. apply rnd_mono. cut (rnd (of_int c * increment_f b l u) <= rnd (of_int c' * increment_f b l u)); [lra|].
  apply rnd_mono. apply Qmult_le_compat_r; [|apply increment_nonneg; assumption]. apply rnd_mono. rewrite <- Zle_Qle. exact L.
Qed.
Lemma decode_top b l u : (1 <= b <= 53)%nat -> binary64 u -> binary64 (u - l) ->
  binary64 ((u - l) / inject_Z (2 ^ Z.of_nat b - 1)) -> decode_f b l u (2 ^ Z.of_nat b - 1) == u.
Proof.
  intros Hb Bu B1 B2. assert (M1 := bits_pos b (proj1 Hb)). assert (M2 : (2 ^ Z.of_nat b <= 2 ^ 53)%Z) by (apply Z.pow_le_mono_r; lia).
  unfold decode_f, increment_f, fadd, fmul, fdiv, fsub. rewrite of_int_id by lia. set (m := inject_Z (2 ^ Z.of_nat b - 1)) in *.
  rewrite (rnd_id _ B1), (rnd_id _ B2). assert (1 <= m) by (unfold m; change 1 with (inject_Z 1); rewrite <- Zle_Qle; exact M1).
  setoid_replace (m * ((u - l) / m)) with (u - l) by (field; lra). rewrite (rnd_id _ B1).
  setoid_replace (l + (u - l)) with u by ring. apply rnd_id, Bu.
Qed.
Lemma decode_close b l u c : (1 <= b <= 53)%nat -> binary64 l -> binary64 u -> l <= u ->
  (u == l \/ pow2 (-900) <= u - l) -> (0 <= c < 2 ^ Z.of_nat b)%Z ->
  Qabs (decode_f b l u c - (l + inject_Z c * (u - l) / inject_Z (2 ^ Z.of_nat b - 1))) <= 8 * eps * (Qabs l + Qabs u).
Proof.
  intros Hb Bl Bu H HD Hc. assert (M1 := bits_pos b (proj1 Hb)). assert (M2 : (2 ^ Z.of_nat b <= 2 ^ 53)%Z) by (apply Z.pow_le_mono_r; lia).
  unfold decode_f, increment_f, fadd, fmul, fdiv, fsub. rewrite !of_int_id by lia. set (m := inject_Z (2 ^ Z.of_nat b - 1)) in *.
  assert (Hm1 : 1 <= m) by (unfold m; change 1 with (inject_Z 1); rewrite <- Zle_Qle; exact M1).
  assert (Hm2 : m <= pow2 53) by (rewrite pow2_Z by lia; unfold m; rewrite <- Zle_Qle; lia).
  set (k := inject_Z c) in *. assert (Hk0 : 0 <= k) by (unfold k; change 0 with (inject_Z 0); rewrite <- Zle_Qle; lia).
  assert (Hkm : k <= m) by (unfold k, m; rewrite <- Zle_Qle; lia).
  assert (Hk1 : k == 0 \/ 1 <= k).
  { destruct (Z.eq_dec c 0) as [E|E]; [left; unfold k; rewrite E; reflexivity|right; unfold k; change 1 with (inject_Z 1); rewrite <- Zle_Qle; lia]. }
  clearbody m k. clear M1 M2 Hc Hb c b. assert (E0 := eps_pos). assert (E1 := eps_small).
  set (D := u - l) in *. assert (HD' : D == 0 \/ pow2 (-900) <= D) by (destruct HD as [HD|HD]; [left; unfold D; lra|right; exact HD]). clear HD.
  assert (D0 : 0 <= D) by (unfold D; lra).
  assert (P1 : pow2 (-1022) <= pow2 (-900)) by (apply pow2_le; lia). assert (P9 := pow2_pos (-900)).
  assert (A1 : rnd D <= D * (1 + eps)) by (apply rnd_up; destruct HD'; [left; assumption|right; lra]).
  assert (A2 : D * (1 - eps) <= rnd D) by (apply rnd_down; destruct HD'; [left; assumption|right; lra]).
  set (D' := rnd D) in *.
  assert (N1 : D' / m == 0 \/ pow2 (-960) <= D' / m).
  { destruct HD' as [Z|Z]; [left; assert (Z' : D' == 0) by (unfold D'; rewrite Z; reflexivity); rewrite Z'; unfold Qdiv; ring|right].
    apply Qle_shift_div_l; [lra|]. assert (Y : pow2 (-960) * m <= pow2 (-960) * pow2 53) by (rewrite !(Qmult_comm (pow2 (-960))); apply Qmult_le_compat_r; [exact Hm2|apply Qlt_le_weak, pow2_pos]).
    rewrite <- pow2_plus in Y. assert (pow2 (-960 + 53) <= pow2 (-901)) by (apply pow2_le; lia).
    replace (-900)%Z with (-901 + 1)%Z in Z by lia. rewrite pow2_S in Z. assert (0 < pow2 (-901)) by apply pow2_pos.
    assert (D * (1 - eps) >= D * (1 # 2)) by (rewrite !(Qmult_comm D); apply Qmult_le_compat_r; lra). lra. }
  assert (P2 : pow2 (-1022) <= pow2 (-960)) by (apply pow2_le; lia).
  assert (B1 : rnd (D' / m) <= D' / m * (1 + eps)) by (apply rnd_up; destruct N1; [left; assumption|right; lra]).
  assert (B2 : D' / m * (1 - eps) <= rnd (D' / m)) by (apply rnd_down; destruct N1; [left; assumption|right; lra]).
  set (inc := rnd (D' / m)) in *.
  assert (I1 : inc == 0 \/ pow2 (-960) <= inc).
  { destruct N1 as [Z|Z]; [left; unfold inc; rewrite Z; reflexivity|right; apply rnd_ge_b; [apply b64_pow2; lia|exact Z]]. }
  assert (N2 : k * inc == 0 \/ pow2 (-1022) <= k * inc).
  { destruct I1 as [Z|Z]; [left; rewrite Z; ring|]. destruct Hk1 as [Y|Y]; [left; rewrite Y; ring|right].
    assert (0 < pow2 (-960)) by apply pow2_pos. assert (1 * inc <= k * inc) by (apply Qmult_le_compat_r; lra). lra. }
  assert (C1 := rnd_up _ N2). assert (C2 := rnd_down _ N2). set (p := rnd (k * inc)) in *.
  assert (S := add_rel l p Bl (rnd_b64 _)). unfold within in S. set (v := rnd (l + p)) in *.
  set (x := k * D / m).
  assert (X0 : 0 <= x) by (unfold x; apply Qle_shift_div_l; [lra|]; rewrite Qmult_0_l; apply Qmult_le_0_compat; assumption).
  assert (X1 : x <= D) by (unfold x; apply Qle_shift_div_r; [lra|]; rewrite (Qmult_comm D); apply Qmult_le_compat_r; assumption).
  assert (Km : 0 <= k / m) by (apply Qle_shift_div_l; [lra|]; lra).
  assert (T1 : p <= x * ((1 + eps) * (1 + eps) * (1 + eps))).
  { assert (k * inc <= k * (D' / m * (1 + eps))) by (rewrite !(Qmult_comm k); apply Qmult_le_compat_r; assumption).
    assert (Y : k * (D' / m * (1 + eps)) == D' * (k / m) * (1 + eps)) by (field; lra).
    assert (D' * (k / m) <= D * (1 + eps) * (k / m)) by (apply Qmult_le_compat_r; assumption).
    assert (D' * (k / m) * (1 + eps) <= D * (1 + eps) * (k / m) * (1 + eps)) by (apply Qmult_le_compat_r; [assumption|lra]).
    assert (k * inc * (1 + eps) <= D * (1 + eps) * (k / m) * (1 + eps) * (1 + eps)) by (apply Qmult_le_compat_r; lra).
    assert (Y2 : D * (1 + eps) * (k / m) * (1 + eps) * (1 + eps) == x * ((1 + eps) * (1 + eps) * (1 + eps))) by (unfold x; field; lra). lra. }
  assert (T2 : x * ((1 - eps) * (1 - eps) * (1 - eps)) <= p).
  { assert (k * (D' / m * (1 - eps)) <= k * inc) by (rewrite !(Qmult_comm k); apply Qmult_le_compat_r; assumption).
    assert (Y : k * (D' / m * (1 - eps)) == D' * (k / m) * (1 - eps)) by (field; lra).
    assert (D * (1 - eps) * (k / m) <= D' * (k / m)) by (apply Qmult_le_compat_r; assumption).
    assert (D * (1 - eps) * (k / m) * (1 - eps) <= D' * (k / m) * (1 - eps)) by (apply Qmult_le_compat_r; [assumption|lra]).
    assert (D * (1 - eps) * (k / m) * (1 - eps) * (1 - eps) <= k * inc * (1 - eps)) by (apply Qmult_le_compat_r; lra).
    assert (Y2 : D * (1 - eps) * (k / m) * (1 - eps) * (1 - eps) == x * ((1 - eps) * (1 - eps) * (1 - eps))) by (unfold x; field; lra). lra. }
  assert (G1 : (1 + eps) * (1 + eps) * (1 + eps) <= 1 + 4 * eps) by (clear - E0 E1; assert (0 <= eps * eps <= (1 # 1000) * eps) by (split; nra); nra).
  assert (G2 : 1 - 4 * eps <= (1 - eps) * (1 - eps) * (1 - eps)) by (clear - E0 E1; assert (0 <= eps * eps <= (1 # 1000) * eps) by (split; nra); nra).
  assert (T1' : p <= x + 4 * eps * x).
  { assert (x * ((1 + eps) * (1 + eps) * (1 + eps)) <= x * (1 + 4 * eps)) by (rewrite !(Qmult_comm x); apply Qmult_le_compat_r; assumption). lra. }
  assert (T2' : x - 4 * eps * x <= p).
  { assert (x * (1 - 4 * eps) <= x * ((1 - eps) * (1 - eps) * (1 - eps))) by (rewrite !(Qmult_comm x); apply Qmult_le_compat_r; assumption). lra. }
  assert (Ex : eps * x <= eps * D) by (rewrite !(Qmult_comm eps); apply Qmult_le_compat_r; lra).
  assert (Ex0 : 0 <= eps * x) by (apply Qmult_le_0_compat; lra).
  assert (Al := Qabs_nonneg l). assert (Au := Qabs_nonneg u).
  assert (Dl : D <= Qabs l + Qabs u) by (unfold D; assert (A := Qle_Qabs u); assert (B := Qle_Qabs (- l)); rewrite Qabs_opp in B; lra).
  assert (Lp : Qabs (l + p) <= Qabs l + 2 * D).
  { eapply Qle_trans; [apply Qabs_triangle|]. assert (p0 : 0 <= p) by (assert (eps * x <= (1 # 1000) * x) by (apply Qmult_le_compat_r; lra); lra).
    rewrite (Qabs_pos p p0). assert (eps * x <= (1 # 1000) * x) by (apply Qmult_le_compat_r; lra). lra. }
  assert (S' : Qabs (v - (l + p)) <= eps * (Qabs l + 2 * D)).
  { eapply Qle_trans; [exact S|]. rewrite !(Qmult_comm eps). apply Qmult_le_compat_r; lra. }
  assert (Tot : Qabs (v - (l + x)) <= Qabs (v - (l + p)) + Qabs (p - x)).
  { setoid_replace (v - (l + x)) with ((v - (l + p)) + (p - x)) by ring. apply Qabs_triangle. }
  assert (Px : Qabs (p - x) <= 4 * (eps * D)) by (apply Qabs_Qle_condition; lra).
  assert (F1 : eps * (Qabs l + 2 * D) + 4 * (eps * D) <= 8 * eps * (Qabs l + Qabs u)).
  { assert (eps * D <= eps * (Qabs l + Qabs u)) by (rewrite !(Qmult_comm eps); apply Qmult_le_compat_r; lra).
    assert (0 <= eps * Qabs l) by (apply Qmult_le_0_compat; lra). assert (0 <= eps * Qabs u) by (apply Qmult_le_0_compat; lra). lra. }
  lra.
Qed.

(** ** np.random.uniform for a whole genome *)
Lemma create_range bounds us : Forall (fun b => binary64 (fst b) /\ binary64 (snd b) /\ fst b <= snd b) bounds ->
  Forall unit_draw us -> length us = length bounds ->
  Forall2 (fun b x => fst b <= x /\ x <= snd b) bounds (create_real_f bounds us).
Proof.
  intros F. revert us. induction F as [|[l h] bounds (B1 & B2 & B3) F IH]; intros [|u us] Fu L; cbn in *; try discriminate; constructor.
  - apply uniform_range; try assumption. exact (Forall_inv Fu).
  - apply IH; [exact (Forall_inv_tail Fu)|lia].
Qed.

(** ** ScaledProblem *)
Lemma width_pos a b : binary64 a -> binary64 b -> a < b -> 0 < rnd (b - a).
Proof.
  intros A B H. destruct (b64_multiple a A) as (x & Ex). destruct (b64_multiple b B) as (y & Ey). assert (P := pow2_pos (-1074)).
  assert (E : b - a == inject_Z (y - x) * pow2 (-1074)) by (unfold Zminus; rewrite Ex, Ey, inject_Z_plus, inject_Z_opp; ring).
  assert (L : (1 <= y - x)%Z).
  { destruct (Z.le_gt_cases 1 (y - x)) as [L|L]; [exact L|]. exfalso. assert (inject_Z (y - x) <= 0) by (change 0 with (inject_Z 0); rewrite <- Zle_Qle; lia).
    assert (0 <= (- inject_Z (y - x)) * pow2 (-1074)) by (apply Qmult_le_0_compat; lra). lra. }
  rewrite Zle_Qle in L. change (inject_Z 1) with 1 in L.
  assert (1 * pow2 (-1074) <= inject_Z (y - x) * pow2 (-1074)) by (apply Qmult_le_compat_r; lra).
  apply Qlt_le_trans with (pow2 (-1074)); [exact P|]. apply rnd_ge_b; [apply b64_pow2; lia|lra].
Qed.
Lemma scaled_ratio b0 b1 x : binary64 b0 -> binary64 b1 -> b0 < b1 -> b0 <= x -> x <= b1 ->
  0 <= fdiv (fsub x b0) (fsub b1 b0) /\ fdiv (fsub x b0) (fsub b1 b0) <= 1.
Proof.
  intros A B H X0 X1. assert (W := width_pos b0 b1 A B H). unfold fdiv, fsub.
  assert (Y0 : 0 <= rnd (x - b0)) by (apply rnd_nonneg; lra). assert (Y1 : rnd (x - b0) <= rnd (b1 - b0)) by (apply rnd_mono; lra).
  split.
  - apply rnd_nonneg. apply Qle_shift_div_l; [exact W|lra].
  - apply rnd_le_b; [apply (b64_int 1); lia|]. apply Qle_shift_div_r; [exact W|lra].
Qed.
Lemma scaled_range o0 o1 b0 b1 x : binary64 o0 -> binary64 o1 -> o0 <= o1 -> binary64 (o1 - o0) ->
  binary64 b0 -> binary64 b1 -> b0 < b1 -> b0 <= x -> x <= b1 ->
  o0 <= scaled_point_f (o0, o1) (b0, b1) x /\ scaled_point_f (o0, o1) (b0, b1) x <= o1.
Proof.
  intros A0 A1 HA AW B0 B1 HB X0 X1. destruct (scaled_ratio b0 b1 x B0 B1 HB X0 X1) as [R0 R1].
  unfold scaled_point_f. cbn [fst snd]. set (r := fdiv _ _) in *. clearbody r. unfold fadd, fmul, fsub. rewrite (rnd_id _ AW).
  split.
  - apply rnd_ge_b; [exact A0|]. assert (0 <= rnd (r * (o1 - o0))) by (apply rnd_nonneg, Qmult_le_0_compat; lra). lra.
  - apply rnd_le_b; [exact A1|]. assert (rnd (r * (o1 - o0)) <= o1 - o0); [|lra]. apply rnd_le_b; [exact AW|].
    assert (r * (o1 - o0) <= 1 * (o1 - o0)) by (apply Qmult_le_compat_r; lra). lra.
Qed.
Lemma scaled_ends o0 o1 b0 b1 : binary64 o0 -> binary64 o1 -> binary64 (o1 - o0) -> binary64 b0 -> binary64 b1 -> b0 < b1 ->
  scaled_point_f (o0, o1) (b0, b1) b0 == o0 /\ scaled_point_f (o0, o1) (b0, b1) b1 == o1.
Proof.
  intros A0 A1 AW B0 B1 HB. assert (W := width_pos b0 b1 B0 B1 HB). unfold scaled_point_f, fadd, fmul, fdiv, fsub. cbn [fst snd].
  rewrite (rnd_id _ AW). split.
  - setoid_replace (b0 - b0) with 0 by ring. rewrite rnd_0. setoid_replace (0 / rnd (b1 - b0)) with 0 by (unfold Qdiv; ring).
    rewrite rnd_0, Qmult_0_l, rnd_0, Qplus_0_r. apply rnd_id, A0.
  - setoid_replace (rnd (b1 - b0) / rnd (b1 - b0)) with 1 by (field; lra). rewrite (rnd_id 1 (b64_int 1 ltac:(lia))), Qmult_1_l, (rnd_id _ AW).
    setoid_replace (o0 + (o1 - o0)) with o1 by ring. apply rnd_id, A1.
Qed.
Lemma double_b64 a : binary64 a -> binary64 (a - - a).
Proof.
  intros (m & f & A & B & C). exists m, (f + 1)%Z. split; [exact A|]. split; [lia|]. fold (pow2 (f + 1)). rewrite pow2_S. unfold pow2. rewrite C. ring.
Qed.

(** ** mutation rates *)
Lemma rate expected len : (1 <= len)%nat -> (Z.of_nat len <= 2 ^ 53)%Z -> 0 <= expected -> expected <= inject_Z (Z.of_nat len) ->
  exists p, expected_probability_f expected len = Ok p /\ 0 <= p /\ p <= 1 /\
    (expected == 0 \/ pow2 (-900) <= expected -> within (3 * eps) (expected / inject_Z (Z.of_nat len)) p).
Proof.
  intros H1 H2 X0 X1. unfold expected_probability_f. destruct (Nat.eqb_spec len 0) as [->|_]; [lia|].
  eexists. split; [reflexivity|]. set (N := inject_Z (Z.of_nat len)) in *.
  assert (Ep : fmul (fdiv 1 (of_int (Z.of_nat len))) expected == rnd (rnd (1 / N) * expected)).
  { unfold fmul, fdiv. rewrite of_int_id by lia. reflexivity. }
  set (p := fmul _ _) in *. clearbody p.
  assert (N1 : 1 <= N) by (unfold N; change 1 with (inject_Z 1); rewrite <- Zle_Qle; lia).
  assert (N2 : N <= pow2 53) by (rewrite pow2_Z by lia; unfold N; rewrite <- Zle_Qle; lia). clearbody N.
  assert (E0 := eps_pos). assert (E1 := eps_small).
  assert (L : pow2 (-53) <= 1 / N).
  { apply Qle_shift_div_l; [lra|]. assert (Y : pow2 (-53) * N <= pow2 (-53) * pow2 53) by (rewrite !(Qmult_comm (pow2 (-53))); apply Qmult_le_compat_r; [exact N2|apply Qlt_le_weak, pow2_pos]).
    rewrite <- pow2_plus in Y. exact Y. }
  assert (P1 : pow2 (-1022) <= pow2 (-53)) by (apply pow2_le; lia).
  assert (A1 : rnd (1 / N) <= 1 / N * (1 + eps)) by (apply rnd_up; right; lra).
  assert (A2 : 1 / N * (1 - eps) <= rnd (1 / N)) by (apply rnd_down; right; lra).
  assert (A3 : pow2 (-53) <= rnd (1 / N)) by (apply rnd_ge_b; [apply b64_pow2; lia|exact L]).
  assert (P53 := pow2_pos (-53)). set (i := rnd (1 / N)) in *.
  assert (S1 : i * expected <= 1 + eps).
  { assert (i * expected <= i * N) by (rewrite !(Qmult_comm i); apply Qmult_le_compat_r; lra).
    assert (i * N <= 1 / N * (1 + eps) * N) by (apply Qmult_le_compat_r; lra).
    assert (Y : 1 / N * (1 + eps) * N == 1 + eps) by (field; lra). lra. }
  split; [rewrite Ep; apply rnd_nonneg, Qmult_le_0_compat; lra|]. split.
  - rewrite Ep. apply Qle_trans with (rnd (1 + eps)); [apply rnd_mono, S1|]. vm_compute. discriminate.
  - intros HX. assert (N3 : i * expected == 0 \/ pow2 (-1022) <= i * expected).
    { destruct HX as [Z|Z]; [left; rewrite Z; ring|right]. assert (Y : pow2 (-53) * pow2 (-900) <= i * expected) by (apply Qmult_le_compat_nonneg; split; try assumption; apply Qlt_le_weak, pow2_pos).
      rewrite <- pow2_plus in Y. assert (pow2 (-1022) <= pow2 (-53 + -900)) by (apply pow2_le; lia). lra. }
    assert (C1 := rnd_up _ N3). assert (C2 := rnd_down _ N3). set (p0 := rnd (i * expected)) in *. set (x := expected / N).
    assert (X : 0 <= x) by (unfold x; apply Qle_shift_div_l; lra).
    assert (T1 : i * expected * (1 + eps) <= x * ((1 + eps) * (1 + eps))).
    { assert (i * expected <= 1 / N * (1 + eps) * expected) by (apply Qmult_le_compat_r; assumption).
      assert (i * expected * (1 + eps) <= 1 / N * (1 + eps) * expected * (1 + eps)) by (apply Qmult_le_compat_r; lra).
      assert (Y : 1 / N * (1 + eps) * expected * (1 + eps) == x * ((1 + eps) * (1 + eps))) by (unfold x; field; lra). lra. }
    assert (T2 : x * ((1 - eps) * (1 - eps)) <= i * expected * (1 - eps)).
    { assert (1 / N * (1 - eps) * expected <= i * expected) by (apply Qmult_le_compat_r; assumption).
      assert (1 / N * (1 - eps) * expected * (1 - eps) <= i * expected * (1 - eps)) by (apply Qmult_le_compat_r; lra).
      assert (Y : 1 / N * (1 - eps) * expected * (1 - eps) == x * ((1 - eps) * (1 - eps))) by (unfold x; field; lra). lra. }
    assert (ee : 0 <= eps * eps <= eps) by (clear - E0 E1; split; nra).
    assert (U1 : x * ((1 + eps) * (1 + eps)) <= x * (1 + 3 * eps)) by (rewrite !(Qmult_comm x); apply Qmult_le_compat_r; lra).
    assert (U2 : x * (1 - 3 * eps) <= x * ((1 - eps) * (1 - eps))) by (rewrite !(Qmult_comm x); apply Qmult_le_compat_r; lra).
    unfold within. rewrite (Qabs_pos x X). apply Qabs_Qle_condition. lra.
Qed.
Lemma rate_all k len : (Z.of_nat len = 2 ^ Z.of_nat k)%Z -> (Z.of_nat len <= 2 ^ 53)%Z ->
  exists p, expected_probability_f (inject_Z (Z.of_nat len)) len = Ok p /\ p == 1.
Proof.
  intros Hn H2. unfold expected_probability_f.
  assert (H0 : (0 < 2 ^ Z.of_nat k)%Z) by (apply Z.pow_pos_nonneg; lia).
  destruct (Nat.eqb_spec len 0) as [->|_]; [lia|]. eexists. split; [reflexivity|]. unfold fmul, fdiv. rewrite of_int_id by lia.
  assert (K : (Z.of_nat k <= 53)%Z).
  { destruct (Z.le_gt_cases (Z.of_nat k) 53) as [L|L]; [exact L|]. exfalso. assert (2 ^ 53 < 2 ^ Z.of_nat k)%Z by (apply Z.pow_lt_mono_r; lia). lia. }
  assert (NN : inject_Z (Z.of_nat len) == pow2 (Z.of_nat k)) by (rewrite pow2_Z, Hn by lia; reflexivity). rewrite NN.
  assert (P := pow2_pos (Z.of_nat k)).
  assert (PP : pow2 (Z.of_nat k) * pow2 (- Z.of_nat k) == 1) by (rewrite <- pow2_plus, Z.add_opp_diag_r; reflexivity).
  assert (E1 : 1 / pow2 (Z.of_nat k) == pow2 (- Z.of_nat k)).
  { transitivity (1 * (pow2 (Z.of_nat k) * pow2 (- Z.of_nat k)) / pow2 (Z.of_nat k)); [rewrite PP; field; lra|field; lra]. }
  rewrite E1, (rnd_id (pow2 (- Z.of_nat k))) by (apply b64_pow2; lia). rewrite Qmult_comm, PP. reflexivity.
Qed.

(** ** means *)
Lemma fold_mono l l' s s' : Forall2 Qle l l' -> s <= s' -> fold_left fadd l s <= fold_left fadd l' s'.
Proof. intros F. revert s s'. induction F as [|x y l l' H F IH]; intros s s' L; [exact L|]. apply IH, rnd_mono. lra. Qed.
Lemma mean_mono l l' : l <> [] -> Forall2 Qle l l' -> mean_f l <= mean_f l'.
Proof.
  intros N F. unfold mean_f, fdiv. assert (E : length l = length l') by (clear N; induction F; cbn; congruence). rewrite E. apply rnd_mono.
  assert (1 <= of_int (Z.of_nat (length l'))) by (apply of_int_pos; rewrite <- E; destruct l; [congruence|cbn; lia]).
  unfold Qdiv. apply Qmult_le_compat_r; [apply fold_mono; [exact F|apply Qle_refl]|]. apply Qlt_le_weak, Qinv_lt_0_compat. lra.
Qed.
Lemma mean_int zs : zs <> [] -> Forall (fun z => (0 <= z)%Z) zs -> (Zsum zs <= 2 ^ 53)%Z -> (Z.of_nat (length zs) <= 2 ^ 53)%Z ->
  mean_f (map inject_Z zs) == rnd (inject_Z (Zsum zs) / inject_Z (Z.of_nat (length zs))).
Proof.
  intros N F H L. unfold mean_f, fdiv. rewrite map_length, of_int_id by lia.
  assert (E := total_int zs F H). change (float_total (map inject_Z zs)) with (fold_left fadd (map inject_Z zs) 0) in E. rewrite E. reflexivity.
Qed.
