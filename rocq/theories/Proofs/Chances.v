From Coq Require Import Lia Lqa Permutation Qfield Qround.
From Verif Require Import Model.Base Model.Proportional Model.Variation Spec.Proportional Spec.Variation Spec.Odds Spec.Chances
  Proofs.Proportional Proofs.Variation Proofs.Odds.
Local Open Scope nat_scope.
Local Open Scope list_scope.

(** ** Roulette wheel *)
Lemma choices_between weights u : nonneg weights -> (0 < Qsum weights)%Q -> (0 <= u < 1)%Q ->
  exists i, choices_index weights u = Ok i /\ i < length weights /\
    (csum weights i <= u * Qsum weights)%Q /\ (u * Qsum weights < csum weights (S i))%Q.
Proof.
  intros Hn Ht Hu. unfold choices_index. destruct weights as [|w0 ws] eqn:Ew; [cbn in Ht; lra|].
  rewrite <- Ew in *. assert (Hlen : 1 <= length weights) by (rewrite Ew; cbn; lia).
  set (cum := accumulate 0 weights). assert (Hcl : length cum = length weights) by apply accumulate_length.
  assert (Hlast : (last cum 0 == Qsum weights)%Q).
  { assert (E : nth_error cum (length cum - 1) = Some (last cum 0%Q)).
    { assert (Hc : cum <> []) by (intros E; rewrite E in Hcl; cbn in Hcl; lia).
      destruct (exists_last Hc) as (a & b & ->). rewrite last_last, app_length. cbn [length].
      rewrite nth_error_app2 by lia. replace (length a + 1 - 1 - length a)%nat with 0%nat by lia. reflexivity. }
    rewrite (accumulate_nth _ _ _ _ E), csum_all by lia. lra. }
  destruct (Qle_bool (last cum 0%Q) 0) eqn:E; [apply Qle_bool_iff in E; lra|]. clear E.
  set (x := (u * last cum 0)%Q).
  assert (Exx : (x == u * Qsum weights)%Q) by (unfold x; rewrite Hlast; reflexivity).
  assert (Hx : (0 <= x < Qsum weights)%Q).
  { unfold x. split.
    - apply Qmult_le_0_compat; lra.
    - apply Qlt_le_trans with (1 * last cum 0)%Q; [apply Qmult_lt_compat_r; lra|lra]. }
  destruct (bisect_right_spec (firstn (length weights - 1) cum) x 0) as (H1 & H2 & H3).
  set (i := bisect_right (firstn (length weights - 1) cum) x 0) in *.
  rewrite firstn_length, Hcl in *.
  exists i. split; [reflexivity|]. split; [lia|]. rewrite <- Exx. split.
  - destruct (Nat.eq_dec i 0) as [E0|E0]; [rewrite E0; unfold csum; cbn; lra|].
    destruct (nth_error (firstn (length weights - 1) cum) (i - 0 - 1)) as [y|] eqn:Ey.
    + assert (G := H2 y ltac:(lia) eq_refl).
      assert (Ey' : nth_error cum (i - 1) = Some y).
      { rewrite <- (firstn_skipn (length weights - 1) cum). rewrite nth_error_app1.
        - replace (i - 1)%nat with (i - 0 - 1)%nat by lia. exact Ey.
        - rewrite firstn_length. lia. }
      apply accumulate_nth in Ey'. replace (S (i - 1)) with i in Ey' by lia. lra.
    + apply nth_error_None in Ey. rewrite firstn_length in Ey. lia.
  - destruct (Nat.eq_dec i (length weights - 1)) as [E0|E0].
    + rewrite csum_all by lia. lra.
    + destruct (H3 ltac:(lia)) as (y & Ey & Hy). rewrite Nat.sub_0_r in Ey.
      assert (Ey' : nth_error cum i = Some y).
      { rewrite <- (firstn_skipn (length weights - 1) cum). rewrite nth_error_app1; [exact Ey|]. rewrite firstn_length. lia. }
      apply accumulate_nth in Ey'. lra.
Qed.

Lemma csum_div values t j : ~ (t == 0)%Q -> (csum (map (fun v => v / t)%Q values) j == csum values j / t)%Q.
Proof.
  intros Ht. unfold csum. rewrite firstn_map. apply Qsum_div, Ht.
Qed.

Lemma roulette {A} (population : list A) keys off exponent values i x v :
  NoDup population -> length population = length keys ->
  compute_population_values keys off exponent = Ok values ->
  Forall (fun v => 0 <= v)%Q values -> (0 < total values)%Q ->
  nth_error population i = Some x -> nth_error values i = Some v ->
  exists a b, exactly_between (fun u => proportional_turn population keys off exponent u = Ok x) a b /\
    (b - a == v / total values)%Q.
Proof.
  intros HN Hlen Hv Hnn Ht Hx Hvi. change (total values) with (Qsum values) in *.
  assert (Hl : length values = length keys).
  { unfold compute_population_values in Hv.
    destruct off; [destruct (np_min keys); cbn [bind] in Hv; [|discriminate]|cbn [bind] in Hv]; injection Hv as <-; apply map_length. }
  set (t := Qsum values) in *. set (ws := map (fun v => v / t)%Q values).
  assert (Hws : nonneg ws).
  { unfold ws, nonneg. rewrite Forall_map. eapply Forall_impl; [|exact Hnn]. intros y H0. cbv beta in *. apply Qle_shift_div_l; lra. }
  assert (Hsum : (Qsum ws == 1)%Q).
  { unfold ws. rewrite Qsum_div by lra. fold t. field. lra. }
  assert (Hiv : i < length ws) by (unfold ws; rewrite map_length; apply nth_error_Some; congruence).
  assert (Hwi : nth_error ws i = Some (v / t)%Q) by (unfold ws; rewrite nth_error_map, Hvi; reflexivity).
  exists (csum ws i), (csum ws (S i)). assert (HS := csum_S ws i _ Hwi). split; [|lra].
  split. { apply Qle_trans with (csum ws 0); [unfold csum; cbn; lra|apply csum_mono; [exact Hws|lia]]. }
  split; [apply csum_mono; [exact Hws|lia]|]. split.
  { apply Qle_trans with (csum ws (length ws)); [apply csum_mono; [exact Hws|lia]|]. rewrite csum_all by lia. lra. }
  intros u Hu. unfold proportional_turn. rewrite Hv. cbn [bind].
  rewrite (proj2 (any_negative_spec values) Hnn). fold t.
  destruct (Qeq_bool t 0) eqn:E0; [apply Qeq_bool_iff in E0; lra|]. fold ws.
  destruct (choices_between ws u Hws ltac:(lra) Hu) as (j & Ej & Hj & B1 & B2).
  rewrite Hsum, Qmult_1_r in B1. rewrite Hsum, Qmult_1_r in B2.
  rewrite Ej. cbn [bind]. split.
  - intros E. assert (Eji : j = i).
    { destruct (nth_error population j) as [y|] eqn:Ey; [|discriminate]. injection E as ->.
      apply (proj1 (NoDup_nth_error population) HN); [apply nth_error_Some; congruence|congruence]. }
    subst j. split; assumption.
  - intros [C1 C2]. assert (Eji : j = i).
    { destruct (Nat.lt_trichotomy j i) as [L|[L|L]]; [|exact L|].
      - assert (csum ws (S j) <= csum ws i)%Q by (apply csum_mono; [exact Hws|lia]). lra.
      - assert (csum ws (S i) <= csum ws j)%Q by (apply csum_mono; [exact Hws|lia]). lra. }
    subst j. rewrite Hx. reflexivity.
Qed.

(** ** The mean number of flips *)
Definition nsum (l : list nat) : nat := fold_right Nat.add 0 l.

Lemma nsum_app l m : nsum (l ++ m) = nsum l + nsum m.
Proof. unfold nsum. induction l as [|x l IH]; cbn; [auto|]. rewrite IH. lia. Qed.

Lemma nsum_perm l m : Permutation l m -> nsum l = nsum m.
Proof. unfold nsum. induction 1; cbn in *; lia. Qed.

Lemma nsum_shift {A} (f : A -> nat) c t : nsum (map (fun d => c + f d) t) = c * length t + nsum (map f t).
Proof. unfold nsum. induction t as [|d t IH]; cbn; [lia|]. rewrite IH. lia. Qed.

Lemma tuples_sum {A} (p : A -> bool) u n :
  nsum (map (fun d => length (filter p d)) (tuples u n)) = n * length (filter p u) * length u ^ (n - 1).
Proof.
  induction n as [|n IH]; [reflexivity|]. cbn [tuples].
  assert (G : forall w, nsum (map (fun d => length (filter p d)) (flat_map (fun i => map (cons i) (tuples u n)) w))
     = length (filter p w) * length (tuples u n) + length w * nsum (map (fun d => length (filter p d)) (tuples u n))).
  { induction w as [|i w IHw]; [reflexivity|]. cbn [flat_map]. rewrite map_app, nsum_app, IHw, map_map.
    cbn [filter length]. destruct (p i).
    - change (nsum (map (fun x => S (length (filter p x))) (tuples u n)) +
        (length (filter p w) * length (tuples u n) + length w * nsum (map (fun d => length (filter p d)) (tuples u n)))
        = S (length (filter p w)) * length (tuples u n) + S (length w) * nsum (map (fun d => length (filter p d)) (tuples u n))).
      rewrite (nsum_shift (fun x => length (filter p x)) 1). lia.
    - lia. }
  rewrite G, IH, tuples_length. replace (S n - 1) with n by lia. destruct n as [|n]; [cbn; lia|].
  replace (S n - 1) with n by lia. cbn [Nat.pow]. nia.
Qed.

Lemma diff_assign p : forall us (g : list Z), length us = length g -> binary g ->
  differences g (assign_mask (map (fun u => Qltb u p) us) g
     (map (fun x => Z.modulo (x + 1) 2) (select_mask (map (fun u => Qltb u p) us) g)))
  = length (filter (fun u => Qltb u p) us).
Proof.
  unfold differences. induction us as [|u us IH]; intros [|x g] L Hb; try discriminate; [reflexivity|].
  cbn in L. inversion Hb as [|? ? Hx Hg]; subst. cbn [map select_mask assign_mask filter].
  destruct (Qltb u p) eqn:E; cbn [map assign_mask combine filter fst snd].
  - assert (F : (x =? (x + 1) mod 2)%Z = false) by (destruct Hx as [-> | ->]; reflexivity).
    rewrite F. cbn [negb length]. f_equal. apply IH; [lia|exact Hg].
  - rewrite Z.eqb_refl. cbn [negb]. apply IH; [lia|exact Hg].
Qed.

Lemma below_count N p : 1 <= N -> (0 <= p)%Q -> (p <= 1)%Q ->
  Z.of_nat (length (filter (fun k => Qltb (inject_Z (Z.of_nat k) / inject_Z (Z.of_nat N)) p) (seq 0 N)))
  = Qceiling (p * inject_Z (Z.of_nat N)).
Proof.
  intros HN H0 H1. set (q := (p * inject_Z (Z.of_nat N))%Q).
  assert (HNq : (0 < inject_Z (Z.of_nat N))%Q) by (change 0%Q with (inject_Z 0); rewrite <- Zlt_Qlt; lia).
  assert (Hq0 : (0 <= q)%Q) by (apply Qmult_le_0_compat; lra).
  assert (Hq1 : (q <= inject_Z (Z.of_nat N))%Q).
  { unfold q. apply Qle_trans with (1 * inject_Z (Z.of_nat N))%Q; [apply Qmult_le_compat_r; lra|lra]. }
  assert (C0 : (0 <= Qceiling q)%Z) by (change 0%Z with (Qceiling 0); apply Qceiling_resp_le, Hq0).
  assert (C1 : (Qceiling q <= Z.of_nat N)%Z) by (rewrite <- (Qceiling_Z (Z.of_nat N)); apply Qceiling_resp_le, Hq1).
  rewrite (filter_ext_length _ (fun i => Z.leb (Z.of_nat i) (Qceiling q - 1))).
  - rewrite count_le_seq by lia. lia.
  - intros k _. apply bool_iff. rewrite Qltb_spec, Z.leb_le.
    assert (Hk : (inject_Z (Z.of_nat k) / inject_Z (Z.of_nat N) < p)%Q <-> (inject_Z (Z.of_nat k) < q)%Q).
    { unfold q. split; intros H.
      - apply (Qmult_lt_compat_r _ _ (inject_Z (Z.of_nat N))) in H; [|exact HNq].
        assert (E : (inject_Z (Z.of_nat k) / inject_Z (Z.of_nat N) * inject_Z (Z.of_nat N) == inject_Z (Z.of_nat k))%Q) by (field; lra).
        lra.
      - apply Qlt_shift_div_r; [exact HNq|exact H]. }
    rewrite Hk. split; intros H.
    + assert (inject_Z (Z.of_nat k) < inject_Z (Qceiling q))%Q by (eapply Qlt_le_trans; [exact H|apply Qle_ceiling]).
      rewrite <- Zlt_Qlt in *. lia.
    + assert (A := Qceiling_lt q). assert (B : (inject_Z (Z.of_nat k) <= inject_Z (Qceiling q - 1))%Q) by (rewrite <- Zle_Qle; lia).
      lra.
Qed.

Lemma mean_flips expected probability p N g l :
  1 <= N -> rate_is expected probability (length g) p -> (0 <= p)%Q -> (p <= 1)%Q -> binary g ->
  all_draws N (length g) l ->
  exists total, adds_up (fun d m => exists h, genome_mutate_bitflip expected probability (grid N d) g = Ok h /\ m = differences g h) l total /\
    (p * inject_Z (Z.of_nat (length g)) * inject_Z (Z.of_nat (length l)) <= inject_Z (Z.of_nat total))%Q /\
    (inject_Z (Z.of_nat total) * inject_Z (Z.of_nat N) <=
       inject_Z (Z.of_nat (length g)) * (p * inject_Z (Z.of_nat N) + 1) * inject_Z (Z.of_nat (length l)))%Q /\
    ((exists a, p * inject_Z (Z.of_nat N) == inject_Z a)%Q ->
     (inject_Z (Z.of_nat total) == p * inject_Z (Z.of_nat (length g)) * inject_Z (Z.of_nat (length l)))%Q).
Proof.
  intros HN Hr H0 H1 Hb Hl.
  set (below := fun k => Qltb (inject_Z (Z.of_nat k) / inject_Z (Z.of_nat N)) p).
  exists (nsum (map (fun d => length (filter below d)) l)). split.
  { exists (map (fun d => length (filter below d)) l). split; [|reflexivity].
    assert (HF : Forall (fun d => length d = length g) l) by (apply Forall_forall; intros d Hd; apply Hl in Hd; tauto).
    clear Hl. induction HF as [|d l Hd HF IH]; cbn [map]; constructor; [|exact IH].
    unfold genome_mutate_bitflip.
    destruct (@mask_of_rate AssertionError expected probability (grid N d) (length g) p Hr H0 H1) as [-> ->].
    cbn [bind]. eexists. split; [reflexivity|].
    rewrite diff_assign by (unfold grid; rewrite ?map_length; auto). unfold grid. rewrite filter_map_length. reflexivity. }
  assert (HP := draws_perm _ _ _ Hl).
  rewrite (nsum_perm _ _ (Permutation_map _ HP)), (Permutation_length HP), tuples_length, tuples_sum, seq_length.
  set (c := length (filter below (seq 0 N))). assert (Hc : Z.of_nat c = Qceiling (p * inject_Z (Z.of_nat N))) by (apply below_count; auto).
  set (n := length g).
  assert (Hpow : n * c * N ^ (n - 1) * N = n * c * N ^ n).
  { destruct n as [|n']; [reflexivity|]. replace (S n' - 1) with n' by lia. cbn [Nat.pow]. nia. }
  set (T := n * c * N ^ (n - 1)) in *.
  assert (HNq : (0 < inject_Z (Z.of_nat N))%Q) by (change 0%Q with (inject_Z 0); rewrite <- Zlt_Qlt; lia).
  assert (HT : (inject_Z (Z.of_nat T) * inject_Z (Z.of_nat N) == inject_Z (Z.of_nat n) * inject_Z (Z.of_nat c) * inject_Z (Z.of_nat (N ^ n)))%Q).
  { rewrite <- !inject_Z_mult, <- !Nat2Z.inj_mul, Hpow. reflexivity. }
  assert (Hnn : (0 <= inject_Z (Z.of_nat n))%Q) by (change 0%Q with (inject_Z 0); rewrite <- Zle_Qle; lia).
  assert (Hpn : (0 <= inject_Z (Z.of_nat (N ^ n)))%Q) by (change 0%Q with (inject_Z 0); rewrite <- Zle_Qle; lia).
  assert (Hlow : (p * inject_Z (Z.of_nat N) <= inject_Z (Z.of_nat c))%Q) by (rewrite Hc; apply Qle_ceiling).
  assert (Hhigh : (inject_Z (Z.of_nat c) <= p * inject_Z (Z.of_nat N) + 1)%Q).
  { rewrite Hc. assert (A := Qceiling_lt (p * inject_Z (Z.of_nat N))).
    unfold Z.sub in A. rewrite inject_Z_plus in A. change (inject_Z (-(1))) with (-1)%Q in A. lra. }
  assert (Hprod : (0 <= inject_Z (Z.of_nat n) * inject_Z (Z.of_nat (N ^ n)))%Q) by (apply Qmult_le_0_compat; auto).
  assert (Hex : (exists a, p * inject_Z (Z.of_nat N) == inject_Z a)%Q -> (inject_Z (Z.of_nat c) == p * inject_Z (Z.of_nat N))%Q).
  { intros (a & Ha). rewrite Hc, (Qceiling_comp _ _ Ha), Qceiling_Z. symmetry. exact Ha. }
  clear Hc. revert HT Hlow Hhigh Hprod HNq Hex. generalize (inject_Z (Z.of_nat T)) (inject_Z (Z.of_nat c)) (inject_Z (Z.of_nat n)) (inject_Z (Z.of_nat (N ^ n))).
  intros t cq nq w HT Hlow Hhigh Hprod HNq Hex. set (Nq := inject_Z (Z.of_nat N)) in *.
  assert (Hl1 : (p * Nq * (nq * w) <= cq * (nq * w))%Q) by (apply Qmult_le_compat_r; auto).
  assert (Hl2 : (cq * (nq * w) <= (p * Nq + 1) * (nq * w))%Q) by (apply Qmult_le_compat_r; auto).
  split; [|split].
  - apply (Qmult_le_r _ _ Nq HNq). lra.
  - lra.
  - intros Ha. specialize (Hex Ha). apply (Qmult_inj_r _ _ Nq); [lra|]. rewrite HT, Hex. ring.
Qed.

(** ** Uniform integers *)
Lemma randint_even low high v M : (low <= v <= high)%Z ->
  counts (fun d => randint_gene (Z.of_nat d) low (high + 1) = Ok v) (seq 0 (M * Z.to_nat (high + 1 - low))) M.
Proof.
  intros Hv. set (R := Z.to_nat (high + 1 - low)).
  exists (fun d => Z.eqb (Z.of_nat d mod (high + 1 - low)) (v - low)). split.
  - intros d _. unfold randint_gene. destruct (Z.leb_spec (high + 1) low); [lia|]. rewrite Z.eqb_eq. split; intros H1.
    + f_equal. lia.
    + injection H1 as H1. lia.
  - assert (HR : Z.of_nat R = (high + 1 - low)%Z) by (unfold R; lia).
    induction M as [|M IH]; [reflexivity|]. cbn [Nat.mul]. rewrite Nat.add_comm, seq_app, filter_app, app_length, IH.
    cbn [Nat.add].
    assert (E : filter (fun d => (Z.of_nat d mod (high + 1 - low) =? v - low)%Z) (seq (M * R) R) = [M * R + Z.to_nat (v - low)]).
    { rewrite <- HR. assert (G : forall r, r <= R -> filter (fun d => (Z.of_nat d mod Z.of_nat R =? v - low)%Z) (seq (M * R) r)
         = if Z.to_nat (v - low) <? r then [M * R + Z.to_nat (v - low)] else []).
      { induction r as [|r IHr]; intros Hr; [destruct (Nat.ltb_spec (Z.to_nat (v - low)) 0); [lia|reflexivity]|].
        rewrite seq_S, filter_app, IHr by lia. cbn [filter].
        assert (Em : (Z.of_nat (M * R + r) mod Z.of_nat R = Z.of_nat r)%Z).
        { rewrite Nat2Z.inj_add, Nat2Z.inj_mul, Z.add_comm, Z.mod_add, Z.mod_small by lia. reflexivity. }
        rewrite Em. destruct (Nat.ltb_spec (Z.to_nat (v - low)) r), (Nat.ltb_spec (Z.to_nat (v - low)) (S r)),
          (Z.eqb_spec (Z.of_nat r) (v - low)); try lia; try reflexivity.
        cbn. f_equal. lia. }
      rewrite G by lia. destruct (Nat.ltb_spec (Z.to_nat (v - low)) R); [reflexivity|lia]. }
    rewrite E. cbn. lia.
Qed.

(** ** The chance of each mutant *)
Definition bools_eqb (a b : list bool) : bool := if list_eq_dec Bool.bool_dec a b then true else false.

Lemma bools_eqb_true a b : bools_eqb a b = true <-> a = b.
Proof. unfold bools_eqb. destruct (list_eq_dec Bool.bool_dec a b); intuition congruence. Qed.

Lemma bools_eqb_cons x a y b : bools_eqb (x :: a) (y :: b) = Bool.eqb x y && bools_eqb a b.
Proof. apply bool_iff. rewrite andb_true_iff, !bools_eqb_true, Bool.eqb_true_iff. intuition congruence. Qed.

Lemma filter_none {A} (t : list A) : filter (fun _ => false) t = [].
Proof. induction t; auto. Qed.

Lemma filter_neg {A} (p : A -> bool) u : length (filter (fun k => negb (p k)) u) = length u - length (filter p u).
Proof.
  assert (E : length (filter p u) + length (filter (fun k => negb (p k)) u) = length u).
  { induction u as [|x u IH]; [reflexivity|]. cbn. destruct (p x); cbn; lia. }
  lia.
Qed.

Lemma tuples_pattern {A} (p : A -> bool) u : forall bs,
  length (filter (fun d => bools_eqb (map p d) bs) (tuples u (length bs)))
  = length (filter p u) ^ length (filter (fun b => b) bs) * (length u - length (filter p u)) ^ length (filter negb bs).
Proof.
  induction bs as [|b bs IH]; [reflexivity|]. cbn [length tuples]. rewrite filter_flat_map.
  assert (G : forall w, length (flat_map (fun i => filter (fun d => bools_eqb (map p d) (b :: bs)) (map (cons i) (tuples u (length bs)))) w)
    = length (filter (fun k => Bool.eqb (p k) b) w) * length (filter (fun d => bools_eqb (map p d) bs) (tuples u (length bs)))).
  { induction w as [|i w IHw]; [reflexivity|]. cbn [flat_map]. rewrite app_length, IHw, filter_map_comp, map_length.
    cbn [map]. rewrite (filter_ext_in _ (fun d => Bool.eqb (p i) b && bools_eqb (map p d) bs))
      by (intros; apply bools_eqb_cons).
    cbn [filter]. destruct (Bool.eqb (p i) b); cbn [andb length]; [reflexivity|]. rewrite filter_none. reflexivity. }
  rewrite G, IH. destruct b; cbn [filter negb length Nat.pow].
  - rewrite (filter_ext_len (fun k => Bool.eqb (p k) true) p) by (intros a _; destruct (p a); reflexivity). ring.
  - rewrite (filter_ext_len (fun k => Bool.eqb (p k) false) (fun k => negb (p k))) by (intros a _; destruct (p a); reflexivity).
    rewrite filter_neg. ring.
Qed.

Lemma mutant_pattern p : forall us (g h : list Z), length us = length g -> length h = length g -> binary g -> binary h ->
  (assign_mask (map (fun u => Qltb u p) us) g (map (fun x => Z.modulo (x + 1) 2) (select_mask (map (fun u => Qltb u p) us) g)) = h <->
   map (fun u => Qltb u p) us = map (fun xy => negb (Z.eqb (fst xy) (snd xy))) (combine g h)).
Proof.
  induction us as [|u us IH]; intros [|x g] [|y h] L1 L2 Hg Hh; try discriminate; [split; reflexivity|].
  cbn in L1, L2. inversion Hg as [|? ? Hx Hg']; subst. inversion Hh as [|? ? Hy Hh']; subst.
  specialize (IH g h ltac:(lia) ltac:(lia) Hg' Hh'). cbn [map select_mask assign_mask combine fst snd].
  destruct (Qltb u p) eqn:E; cbn [map assign_mask].
  - assert (F : ((x + 1) mod 2 = 1 - x)%Z) by (destruct Hx as [-> | ->]; reflexivity). rewrite F. split; intros H.
    + apply (f_equal (fun l => (hd 0%Z l, tl l))) in H. cbn [hd tl] in H. apply pair_equal_spec in H. destruct H as [H1 H2].
      f_equal; [|apply IH, H2]. destruct (Z.eqb_spec x y); [lia|reflexivity].
    + injection H as H1 H2. f_equal; [|apply IH, H2]. destruct (Z.eqb_spec x y); [discriminate|].
      destruct Hx, Hy; lia.
  - split; intros H.
    + injection H as H1 H2. f_equal; [|apply IH, H2]. subst. rewrite Z.eqb_refl. reflexivity.
    + injection H as H1 H2. f_equal; [|apply IH, H2]. destruct (Z.eqb_spec x y); [auto|discriminate].
Qed.

Lemma mutant_odds expected probability p N c g h l :
  rate_is expected probability (length g) p -> (0 <= p)%Q -> (p <= 1)%Q -> binary g -> binary h -> length h = length g ->
  all_draws N (length g) l ->
  counts (fun k => inject_Z (Z.of_nat k) / inject_Z (Z.of_nat N) < p)%Q (seq 0 N) c ->
  counts (fun d => genome_mutate_bitflip expected probability (grid N d) g = Ok h) l
    (c ^ differences g h * (N - c) ^ (length g - differences g h)).
Proof.
  intros Hr H0 H1 Hg Hh L Hl (b & Hb & <-).
  set (below := fun k => Qltb (inject_Z (Z.of_nat k) / inject_Z (Z.of_nat N)) p).
  assert (Ec : length (filter b (seq 0 N)) = length (filter below (seq 0 N))).
  { apply filter_ext_len. intros k Hk. apply bool_iff. rewrite (Hb k Hk). unfold below. symmetry. apply Qltb_spec. }
  set (bs := map (fun xy => negb (Z.eqb (fst xy) (snd xy))) (combine g h)).
  assert (Lb : length bs = length g) by (unfold bs; rewrite map_length, combine_length; lia).
  exists (fun d => bools_eqb (map below d) bs). split.
  - intros d Hd. apply Hl in Hd. destruct Hd as [Ld _]. rewrite bools_eqb_true.
    unfold genome_mutate_bitflip.
    destruct (@mask_of_rate AssertionError expected probability (grid N d) (length g) p Hr H0 H1) as [-> ->]. cbn [bind].
    assert (Em : map below d = map (fun u => Qltb u p) (grid N d)) by (unfold grid; rewrite map_map; reflexivity).
    rewrite Em. unfold bs. rewrite <- (mutant_pattern p (grid N d) g h) by (unfold grid; rewrite ?map_length; auto).
    split; intros E; congruence.
  - rewrite (perm_filter_length _ _ _ (draws_perm _ _ _ Hl)), <- Lb, tuples_pattern, seq_length, Ec.
    assert (E1 : length (filter (fun b => b) bs) = differences g h).
    { unfold bs, differences. rewrite filter_map_comp, map_length. reflexivity. }
    assert (E2 : length (filter negb bs) = length bs - differences g h).
    { rewrite <- E1. apply (filter_neg (fun b : bool => b)). }
    rewrite E1, E2. reflexivity.
Qed.
