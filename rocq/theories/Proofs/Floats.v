From Verif Require Import Model.Base Model.Rules Model.Floats Spec.Rules Spec.Floats Proofs.Order Proofs.Rules.
From Coq Require Import QArith Qabs Qpower Qround Lia Lqa Qfield Setoid Morphisms.
Local Open Scope Q_scope.

Lemma two_nz : ~ (2 # 1) == 0. Proof. discriminate. Qed.
Lemma pow2_pos e : 0 < pow2 e. Proof. unfold pow2. apply Qpower_0_lt. reflexivity. Qed.
Lemma pow2_plus a b : pow2 (a + b) == pow2 a * pow2 b. Proof. unfold pow2. apply Qpower_plus, two_nz. Qed.
Lemma pow2_Z a : (0 <= a)%Z -> pow2 a == inject_Z (2 ^ a).
Proof. intros H. unfold pow2. rewrite Zpower_Qpower by exact H. reflexivity. Qed.
Lemma pow2_le a b : (a <= b)%Z -> pow2 a <= pow2 b.
Proof.
  intros H. replace b with (a + (b - a))%Z by lia. rewrite pow2_plus.
  assert (P := pow2_pos a). assert (1 <= pow2 (b - a)).
  { rewrite pow2_Z by lia. change 1 with (inject_Z 1). rewrite <- Zle_Qle. assert (0 < 2 ^ (b - a))%Z by (apply Z.pow_pos_nonneg; lia). lia. }
  nra.
Qed.
Lemma pow2_lt_inv a b : pow2 a < pow2 b -> (a < b)%Z.
Proof. intros H. destruct (Z.lt_ge_cases a b) as [L|L]; [exact L|]. apply pow2_le in L. lra. Qed.
Lemma pow2_S a : pow2 (a + 1) == 2 * pow2 a.
Proof. rewrite pow2_plus. change (pow2 1) with (2 # 1). ring. Qed.

Lemma expo_bounds q : ~ q == 0 -> pow2 (expo q) <= Qabs q /\ Qabs q < pow2 (expo q + 1).
Proof.
  intros Hq. set (n := Z.abs (Qnum q)). set (d := Z.pos (Qden q)).
  assert (Hn : (0 < n)%Z).
  { unfold n. assert (Qnum q <> 0)%Z by (intros E; apply Hq; unfold Qeq; rewrite E; reflexivity). lia. }
  assert (Hd : (0 < d)%Z) by (unfold d; lia).
  assert (E : Qabs q * inject_Z d == inject_Z n).
  { unfold n, d. destruct q as [a b]. unfold Qabs, Qeq, Qmult, inject_Z. cbn. rewrite Pos.mul_1_r. lia. }
  destruct (Z.log2_spec n Hn) as [A1 A2]. destruct (Z.log2_spec d Hd) as [B1 B2].
  assert (La := Z.log2_nonneg n). assert (Lb := Z.log2_nonneg d).
  set (a := Z.log2 n) in *. set (b := Z.log2 d) in *.
  assert (A1' : pow2 a <= inject_Z n) by (rewrite pow2_Z by lia; rewrite <- Zle_Qle; exact A1).
  assert (A2' : inject_Z n < pow2 (a + 1)) by (rewrite pow2_Z by lia; rewrite <- Zlt_Qlt; exact A2).
  assert (B1' : pow2 b <= inject_Z d) by (rewrite pow2_Z by lia; rewrite <- Zle_Qle; exact B1).
  assert (B2' : inject_Z d < pow2 (b + 1)) by (rewrite pow2_Z by lia; rewrite <- Zlt_Qlt; exact B2).
  assert (Pq : 0 < Qabs q).
  { assert (Z0 := Qabs_nonneg q). assert (0 < inject_Z n) by (assert (P := pow2_pos a); lra). assert (0 < inject_Z d) by (assert (P := pow2_pos b); lra). nra. }
  assert (Lo : pow2 (a - b - 1) <= Qabs q).
  { replace (pow2 a) with (pow2 ((a - b - 1) + (b + 1))) in A1' by (f_equal; lia). rewrite pow2_plus in A1'.
    assert (P := pow2_pos (b + 1)). assert (P' := pow2_pos (a - b - 1)). apply Qnot_lt_le. intros C. nra. }
  assert (Hi : Qabs q < pow2 (a - b + 1)).
  { replace (pow2 (a + 1)) with (pow2 ((a - b + 1) + b)) in A2' by (f_equal; lia). rewrite pow2_plus in A2'.
    assert (P := pow2_pos b). assert (P' := pow2_pos (a - b + 1)). apply Qnot_le_lt. intros C. nra. }
  unfold expo. fold n d a b. cbv zeta. destruct (Qle_bool (pow2 (a - b)) (Qabs q)) eqn:D.
  - apply Qle_bool_iff in D. split; assumption.
  - assert (~ pow2 (a - b) <= Qabs q) by (intros C; apply Qle_bool_iff in C; congruence).
    split; [exact Lo|]. replace (a - b - 1 + 1)%Z with (a - b)%Z by lia. lra.
Qed.

Lemma expo_unique q e : ~ q == 0 -> pow2 e <= Qabs q -> Qabs q < pow2 (e + 1) -> expo q = e.
Proof.
  intros Hq A B. destruct (expo_bounds q Hq) as [C D].
  assert (expo q < e + 1)%Z by (apply pow2_lt_inv; lra). assert (e < expo q + 1)%Z by (apply pow2_lt_inv; lra). lia.
Qed.
Lemma round_even_comp a b : a == b -> round_even a = round_even b.
Proof.
  intros E. unfold round_even. rewrite (Qfloor_comp _ _ E).
  assert (Ex : forall x y, x == y -> forall z, Qltb x z = Qltb y z /\ Qltb z x = Qltb z y).
  { intros x y Exy z. split; apply eq_true_iff_eq; rewrite !Qltb_lt, Exy; reflexivity. }
  assert (E2 : a - inject_Z (Qfloor b) == b - inject_Z (Qfloor b)) by (rewrite E; reflexivity).
  destruct (Ex _ _ E2 (1 # 2)) as [-> ->]. reflexivity.
Qed.
Global Instance rnd_comp : Proper (Qeq ==> Qeq) rnd.
Proof.
  intros a b E. unfold rnd. destruct (Qeq_bool a 0) eqn:A; destruct (Qeq_bool b 0) eqn:B.
  - reflexivity.
  - apply Qeq_bool_iff in A. apply Qeq_bool_neq in B. rewrite <- E in B. contradiction.
  - apply Qeq_bool_iff in B. apply Qeq_bool_neq in A. rewrite E in A. contradiction.
  - apply Qeq_bool_neq in A, B. assert (X : expo a = expo b).
    { destruct (expo_bounds b B). apply expo_unique; [exact A| |]; rewrite E; assumption. }
    cbv zeta. rewrite X, !Qred_correct. rewrite (round_even_comp (a / pow2 (Z.max (expo b - 52) (-1074))) (b / pow2 (Z.max (expo b - 52) (-1074)))); [reflexivity|]. rewrite E. reflexivity.
Qed.
Lemma near_int q z : Qabs (inject_Z (round_even q) - q) <= Qabs (inject_Z z - q).
Proof.
  destruct (round_even_spec q) as [H _]. set (r := round_even q) in *. apply Qabs_Qle_condition in H.
  destruct (Z.eq_dec z r) as [->|N]; [apply Qle_refl|].
  assert (L : (z + 1 <= r \/ r + 1 <= z)%Z) by lia.
  destruct L as [L|L]; rewrite Zle_Qle, inject_Z_plus in L; change (inject_Z 1) with 1 in L.
  - rewrite (Qabs_neg (inject_Z z - q)) by lra. apply Qabs_Qle_condition. lra.
  - rewrite (Qabs_pos (inject_Z z - q)) by lra. apply Qabs_Qle_condition. lra.
Qed.
Lemma half_int q : Qabs (inject_Z (round_even q) - q) <= 1 # 2.
Proof. destruct (round_even_spec q) as [H _]. apply Qabs_Qle_condition in H. apply Qabs_Qle_condition. lra. Qed.

(** the exponent of the last bit *)
Definition lsb (q : Q) : Z := Z.max (expo q - 52) (-1074).
Lemma rnd_0 : rnd 0 = 0. Proof. reflexivity. Qed.
Lemma rnd_eq q : ~ q == 0 -> rnd q == inject_Z (round_even (q / pow2 (lsb q))) * pow2 (lsb q).
Proof.
  intros H. unfold rnd. destruct (Qeq_bool q 0) eqn:E; [apply Qeq_bool_iff in E; contradiction|].
  cbv zeta. rewrite Qred_correct. reflexivity.
Qed.
Lemma scale_abs (a q p : Q) : 0 < p -> Qabs (a * p - q) == Qabs (a - q / p) * p.
Proof.
  intros P. rewrite <- (Qabs_pos p) at 3 by lra. rewrite <- Qabs_Qmult. apply Qabs_wd. field. lra.
Qed.
Lemma rnd_best q z : ~ q == 0 -> Qabs (rnd q - q) <= Qabs (inject_Z z * pow2 (lsb q) - q).
Proof.
  intros H. assert (P := pow2_pos (lsb q)). rewrite (rnd_eq q H), !scale_abs by exact P.
  assert (N := near_int (q / pow2 (lsb q)) z). nra.
Qed.
Lemma rnd_half q : ~ q == 0 -> Qabs (rnd q - q) <= (1 # 2) * pow2 (lsb q).
Proof.
  intros H. assert (P := pow2_pos (lsb q)). rewrite (rnd_eq q H), !scale_abs by exact P.
  assert (N := half_int (q / pow2 (lsb q))). nra.
Qed.
Lemma lsb_small q : ~ q == 0 -> Qabs q < pow2 (lsb q + 53).
Proof.
  intros H. destruct (expo_bounds q H) as [_ B]. eapply Qlt_le_trans; [exact B|]. apply pow2_le. unfold lsb. lia.
Qed.
Lemma b64_comp x y : x == y -> binary64 x -> binary64 y.
Proof. intros E (m & f & A & B & C). exists m, f. rewrite <- E. auto. Qed.
Lemma b64_0 : binary64 0. Proof. exists 0%Z, 0%Z. repeat split; try lia; reflexivity || discriminate. Qed.
Lemma rnd_b64 q : binary64 (rnd q).
Proof.
  destruct (Qeq_dec q 0) as [E|H].
  - apply (b64_comp 0); [rewrite E; reflexivity|apply b64_0].
  - apply (b64_comp _ _ (Qeq_sym _ _ (rnd_eq q H))). exists (round_even (q / pow2 (lsb q))), (lsb q).
    split; [|split; [unfold lsb; lia|reflexivity]].
    set (x := q / pow2 (lsb q)). assert (P := pow2_pos (lsb q)). assert (S := lsb_small q H). rewrite pow2_plus in S.
    assert (Ex : Qabs q == Qabs x * pow2 (lsb q)).
    { setoid_replace (Qabs x * pow2 (lsb q)) with (Qabs x * Qabs (pow2 (lsb q))) by (rewrite (Qabs_pos (pow2 (lsb q))) by lra; reflexivity). rewrite <- Qabs_Qmult. apply Qabs_wd. unfold x. field. lra. }
    rewrite Ex in S. assert (Sx : Qabs x < pow2 53) by nra. rewrite pow2_Z in Sx by lia.
    assert (A := near_int x (2 ^ 53)). assert (B := near_int x (- 2 ^ 53)). rewrite inject_Z_opp in B.
    apply Qabs_Qlt_condition in Sx. destruct Sx as [S1 S2].
    rewrite (Qabs_pos (inject_Z (2 ^ 53) - x)) in A by lra. rewrite (Qabs_neg (- inject_Z (2 ^ 53) - x)) in B by lra.
    apply Qabs_Qle_condition in A, B. set (r := round_even x) in *.
    assert (inject_Z r <= inject_Z (2 ^ 53)) by lra. assert (inject_Z (- 2 ^ 53) <= inject_Z r) by (rewrite inject_Z_opp; lra).
    rewrite <- Zle_Qle in *. lia.
Qed.
(** a float other than zero that is no finer than [f] is a multiple of 2^f *)
Lemma multiple m g f : (f <= g)%Z -> exists z, inject_Z m * pow2 g == inject_Z z * pow2 f.
Proof.
  intros H. exists (m * 2 ^ (g - f))%Z. rewrite inject_Z_mult, <- pow2_Z by lia. replace g with ((g - f) + f)%Z at 1 by lia.
  rewrite pow2_plus. ring.
Qed.
Lemma rnd_nearest q : nearest q (rnd q).
Proof.
  split; [apply rnd_b64|]. intros z (m & g & Hm & Hg & Ez).
  destruct (Qeq_dec q 0) as [E|H].
  - rewrite E. rewrite rnd_0. apply Qabs_nonneg.
  - rewrite Ez. fold (pow2 g). destruct (Z.le_gt_cases (lsb q) g) as [L|L].
    + destruct (multiple m g (lsb q) L) as (w & ->). apply rnd_best, H.
    + assert (Le : lsb q = (expo q - 52)%Z) by (unfold lsb in *; lia).
      destruct (expo_bounds q H) as [B1 B2].
      assert (Sm : Qabs (inject_Z m * pow2 g) <= pow2 (expo q)).
      { rewrite Qabs_Qmult, (Qabs_pos (pow2 g)) by (assert (P := pow2_pos g); lra).
        assert (A : Qabs (inject_Z m) <= pow2 53).
        { rewrite pow2_Z by lia. change (Qabs (inject_Z m)) with (inject_Z (Z.abs m)). rewrite <- Zle_Qle. exact Hm. }
        apply Qle_trans with (pow2 53 * pow2 g); [assert (P := pow2_pos g); nra|]. rewrite <- pow2_plus. apply pow2_le. lia. }
      assert (W : exists w, inject_Z w * pow2 (lsb q) == pow2 (expo q)).
      { destruct (multiple 1 (expo q) (lsb q)) as (w & Ew); [lia|]. exists w. rewrite <- Ew. change (inject_Z 1) with 1. ring. }
      destruct W as (w & Ew). apply Qabs_Qle_condition in Sm. destruct Sm as [S1 S2].
      destruct (Qlt_le_dec q 0) as [N|N].
      * apply Qle_trans with (Qabs (inject_Z (- w) * pow2 (lsb q) - q)); [apply rnd_best, H|].
        assert (Ew' : inject_Z (- w) * pow2 (lsb q) == - pow2 (expo q)) by (rewrite inject_Z_opp, <- Ew; ring). rewrite Ew'.
        rewrite (Qabs_neg q) in B1 by lra. rewrite !Qabs_pos by lra. lra.
      * apply Qle_trans with (Qabs (inject_Z w * pow2 (lsb q) - q)); [apply rnd_best, H|]. rewrite Ew.
        rewrite (Qabs_pos q) in B1 by lra. rewrite !Qabs_neg by lra. lra.
Qed.
Lemma rnd_id q : binary64 q -> rnd q == q.
Proof.
  intros H. destruct (rnd_nearest q) as [_ N]. specialize (N q H). setoid_replace (q - q) with 0 in N by ring. change (Qabs 0) with 0 in N.
  apply Qabs_Qle_condition in N. lra.
Qed.
Lemma rnd_mono p q : p <= q -> rnd p <= rnd q.
Proof.
  intros H. destruct (Qlt_le_dec (rnd q) (rnd p)) as [L|L]; [|exact L]. exfalso.
  destruct (Qeq_dec p q) as [E|E]; [rewrite E in L; lra|].
  destruct (rnd_nearest p) as [_ Np]. destruct (rnd_nearest q) as [_ Nq].
  specialize (Np _ (rnd_b64 q)). specialize (Nq _ (rnd_b64 p)).
  set (a := rnd p) in *. set (b := rnd q) in *.
  assert (p < q) by (destruct (Qle_lt_or_eq _ _ H); [assumption|contradiction]).
  revert Np Nq. apply Qabs_case; apply Qabs_case; intros; revert Nq; apply Qabs_case; apply Qabs_case; intros; lra.
Qed.
Lemma rnd_rel q : pow2 (-1022) <= Qabs q -> within eps q (rnd q).
Proof.
  intros H. assert (Hq : ~ q == 0). { intros E. rewrite E in H. change (Qabs 0) with 0 in H. assert (P := pow2_pos (-1022)). lra. }
  unfold within. eapply Qle_trans; [apply rnd_half, Hq|]. destruct (expo_bounds q Hq) as [B1 B2].
  assert (-1022 < expo q + 1)%Z by (apply pow2_lt_inv; lra). replace (lsb q) with (expo q + -52)%Z by (unfold lsb; lia).
  rewrite pow2_plus. unfold eps. fold (pow2 (-53)). replace (-52)%Z with (-53 + 1)%Z by lia. rewrite pow2_S.
  assert (P := pow2_pos (-53)). nra.
Qed.

(** ** Consequences *)
Lemma rnd_le_b q b : binary64 b -> q <= b -> rnd q <= b.
Proof. intros B H. rewrite <- (rnd_id b B). apply rnd_mono, H. Qed.
Lemma rnd_ge_b q b : binary64 b -> b <= q -> b <= rnd q.
Proof. intros B H. rewrite <- (rnd_id b B). apply rnd_mono, H. Qed.
Lemma rnd_nonneg q : 0 <= q -> 0 <= rnd q. Proof. apply rnd_ge_b, b64_0. Qed.
Lemma b64_scaled m f : (Z.abs m <= 2 ^ 53)%Z -> (-1074 <= f)%Z -> binary64 (inject_Z m * pow2 f).
Proof. intros A B. exists m, f. split; [exact A|]. split; [exact B|reflexivity]. Qed.
Lemma b64_int z : (Z.abs z <= 2 ^ 53)%Z -> binary64 (inject_Z z).
Proof. intros A. apply (b64_comp (inject_Z z * pow2 0)); [change (pow2 0) with 1; ring|]. apply b64_scaled; [exact A|lia]. Qed.
Lemma b64_pow2 f : (-1074 <= f)%Z -> binary64 (pow2 f).
Proof. intros A. apply (b64_comp (inject_Z 1 * pow2 f)); [change (inject_Z 1) with 1; ring|]. apply b64_scaled; [lia|exact A]. Qed.
Lemma of_int_id z : (Z.abs z <= 2 ^ 53)%Z -> of_int z == inject_Z z.
Proof. intros A. apply rnd_id, b64_int, A. Qed.
Lemma eps_pos : 0 < eps. Proof. reflexivity. Qed.
Lemma eps_small : eps <= 1 # 1000. Proof. discriminate. Qed.
Lemma rnd_up q : q == 0 \/ pow2 (-1022) <= q -> rnd q <= q * (1 + eps).
Proof.
  intros [H|H]; [rewrite H, rnd_0, Qmult_0_l; apply Qle_refl|].
  assert (P := pow2_pos (-1022)). assert (W : within eps q (rnd q)) by (apply rnd_rel; rewrite Qabs_pos by lra; exact H).
  unfold within in W. rewrite (Qabs_pos q) in W by lra. apply Qabs_Qle_condition in W. lra.
Qed.
Lemma rnd_down q : q == 0 \/ pow2 (-1022) <= q -> q * (1 - eps) <= rnd q.
Proof.
  intros [H|H]; [rewrite H, rnd_0, Qmult_0_l; apply Qle_refl|].
  assert (P := pow2_pos (-1022)). assert (W : within eps q (rnd q)) by (apply rnd_rel; rewrite Qabs_pos by lra; exact H).
  unfold within in W. rewrite (Qabs_pos q) in W by lra. apply Qabs_Qle_condition in W. lra.
Qed.
Lemma unit_range u : unit_draw u -> 0 <= u /\ u <= 1 - eps /\ (u == 0 \/ eps <= u) /\ binary64 u.
Proof.
  intros (k & Hk & E). fold (pow2 (-53)) in E. unfold eps. fold (pow2 (-53)). assert (P := pow2_pos (-53)).
  assert (E1 : inject_Z (2 ^ 53) * pow2 (-53) == 1) by reflexivity.
  assert (K0 : 0 <= inject_Z k) by (change 0 with (inject_Z 0); rewrite <- Zle_Qle; lia).
  assert (K1 : inject_Z k + 1 <= inject_Z (2 ^ 53)) by (change 1 with (inject_Z 1); rewrite <- inject_Z_plus, <- Zle_Qle; lia).
  assert (B : binary64 (inject_Z k * pow2 (-53))) by (apply b64_scaled; lia).
  apply (b64_comp _ u) in B; [|symmetry; exact E]. assert (D : (k = 0 \/ 1 <= k)%Z) by lia.
  set (p := pow2 (-53)) in *. clearbody p. set (T := inject_Z (2 ^ 53)) in *. clearbody T.
  assert (Kp : (inject_Z k + 1) * p <= T * p) by (apply Qmult_le_compat_r; lra). assert (Kp0 : 0 <= inject_Z k * p) by (apply Qmult_le_0_compat; lra).
  split; [lra|]. split; [lra|]. split; [|exact B].
  destruct D as [->|D]; [left; rewrite E; change (inject_Z 0) with 0; ring|right].
  rewrite Zle_Qle in D. change (inject_Z 1) with 1 in D.
  assert (1 * p <= inject_Z k * p) by (apply Qmult_le_compat_r; lra). lra.
Qed.

(** the difference and the sum of two floats that is small is exact *)
Lemma b64_multiple x : binary64 x -> exists z, x == inject_Z z * pow2 (-1074).
Proof. intros (m & f & A & B & C). fold (pow2 f) in C. destruct (multiple m f (-1074) B) as (z & E). exists z. rewrite C. exact E. Qed.
Lemma small_sum x y : binary64 x -> binary64 y -> Qabs (x + y) <= pow2 (-1021) -> binary64 (x + y).
Proof.
  intros X Y H. destruct (b64_multiple x X) as (a & Ea). destruct (b64_multiple y Y) as (b & Eb).
  assert (E : x + y == inject_Z (a + b) * pow2 (-1074)) by (rewrite Ea, Eb, inject_Z_plus; ring).
  apply (b64_comp (inject_Z (a + b) * pow2 (-1074))); [symmetry; exact E|]. apply b64_scaled; [|lia].
  rewrite E, Qabs_Qmult in H. change (Qabs (inject_Z (a + b))) with (inject_Z (Z.abs (a + b))) in H.
  assert (P := pow2_pos (-1074)). rewrite (Qabs_pos (pow2 (-1074))) in H by lra.
  replace (-1021)%Z with (53 + -1074)%Z in H by lia. rewrite pow2_plus in H. rewrite (pow2_Z 53) in H by lia.
  rewrite Zle_Qle. nra.
Qed.
Lemma b64_opp x : binary64 x -> binary64 (- x).
Proof. intros (m & f & A & B & C). exists (- m)%Z, f. split; [lia|]. split; [exact B|]. rewrite C, inject_Z_opp. ring. Qed.
Lemma add_rel x y : binary64 x -> binary64 y -> within eps (x + y) (rnd (x + y)).
Proof.
  intros X Y. destruct (Qlt_le_dec (Qabs (x + y)) (pow2 (-1022))) as [L|L]; [|apply rnd_rel, L].
  assert (B : binary64 (x + y)).
  { apply small_sum; try assumption. assert (pow2 (-1022) <= pow2 (-1021)) by (apply pow2_le; lia). lra. }
  unfold within. rewrite (rnd_id _ B). setoid_replace (x + y - (x + y)) with 0 by ring. change (Qabs 0) with 0.
  assert (N := Qabs_nonneg (x + y)). assert (E := eps_pos). nra.
Qed.

(** ** np.random.uniform *)
Lemma uniform_range l h u : binary64 l -> binary64 h -> l <= h -> unit_draw u -> l <= uniform l h u /\ uniform l h u <= h.
Proof.
  intros Bl Bh Hlh Hu. destruct (unit_range u Hu) as (U0 & U1 & _ & _). unfold uniform, fadd, fmul, fsub.
  assert (W0 : 0 <= rnd (h - l)) by (apply rnd_nonneg; lra). assert (E0 := eps_pos). assert (E1 := eps_small).
  split; [apply rnd_ge_b; [exact Bl|]; assert (0 <= rnd (rnd (h - l) * u)) by (apply rnd_nonneg; nra); lra|].
  apply rnd_le_b; [exact Bh|]. cut (rnd (rnd (h - l) * u) <= h - l); [lra|].
  set (W := h - l) in *. set (W' := rnd W) in *.
  assert (S : rnd (W' * u) <= W') by (apply rnd_le_b; [apply rnd_b64|nra]).
  destruct (Qlt_le_dec W W') as [G|G]; [|lra].
  assert (L : pow2 (-1021) < W).
  { apply Qnot_le_lt. intros C. assert (BW : binary64 W).
    { apply (b64_comp (h + - l)); [unfold W; ring|]. apply small_sum; [exact Bh|apply b64_opp, Bl|].
      setoid_replace (h + - l) with W by (unfold W; ring). rewrite Qabs_pos; [exact C|unfold W; lra]. }
    unfold W' in G. rewrite (rnd_id _ BW) in G. lra. }
  set (q := W' * (1 - eps)).
  assert (Q1 : pow2 (-1022) <= q).
  { replace (-1021)%Z with (-1022 + 1)%Z in L by lia. rewrite pow2_S in L. unfold q. assert (P := pow2_pos (-1022)). nra. }
  assert (R : rnd (W' * u) <= rnd q) by (apply rnd_mono; unfold q; nra).
  assert (P := pow2_pos (-1022)). assert (N := rnd_rel q). rewrite Qabs_pos in N by lra. specialize (N Q1). unfold within in N. rewrite (Qabs_pos q) in N by lra.
  apply Qabs_Qle_condition in N. destruct N as [_ N].
  assert (T : rnd q < W').
  { assert (Wp : 0 < eps * W') by (apply Qmult_lt_0_compat; [exact E0|assert (P' := pow2_pos (-1021)); lra]). assert (q < W') by (unfold q; lra). assert (eps * q < eps * W') by (apply Qmult_lt_l; assumption).
    assert (q + eps * W' == W') by (unfold q; ring). lra. }
  apply Qnot_lt_le. intros C. destruct (rnd_nearest W) as [_ Nw]. specialize (Nw (rnd q) (rnd_b64 q)). fold W' in Nw.
  rewrite (Qabs_pos (W' - W)), (Qabs_pos (rnd q - W)) in Nw by lra. lra.
Qed.
