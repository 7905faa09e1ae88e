From Verif Require Import Model.Base Model.Decoders Spec.Decoders.
From Coq Require Import Lia Lqa ZifyBool ZifyNat.
Local Open Scope Z_scope.
Local Arguments Z.mul : simpl never.
Local Arguments Z.pow : simpl never.
Local Arguments Z.add : simpl never.

Ltac Zpow := rewrite ?Nat2Z.inj_succ, ?Z.pow_succ_r by lia.

Lemma wrap64_small z : - 2 ^ 63 <= z < 2 ^ 63 -> wrap64 z = z.
Proof. intros H. unfold wrap64. rewrite Z.mod_small by lia. lia. Qed.

Lemma pow63 n : (n <= 62)%nat -> 2 ^ Z.of_nat n < 2 ^ 63.
Proof. intros. apply Z.pow_lt_mono_r; lia. Qed.

(** ** Positional value *)
Lemma be_acc l : forall a, fold_left (fun v b => 2 * v + b) l a = a * 2 ^ Z.of_nat (length l) + big_endian l.
Proof.
  unfold big_endian. induction l as [|b l IH]; intros a.
  - cbn. lia.
  - cbn [fold_left length]. rewrite IH, (IH (2 * 0 + b)). Zpow. lia.
Qed.

Lemma be_cons b l : big_endian (b :: l) = b * 2 ^ Z.of_nat (length l) + big_endian l.
Proof. unfold big_endian at 1. cbn [fold_left]. rewrite be_acc. lia. Qed.

Lemma be_snoc l b : big_endian (l ++ [b]) = 2 * big_endian l + b.
Proof. unfold big_endian. rewrite fold_left_app. reflexivity. Qed.

Lemma be_range l : bits l -> 0 <= big_endian l < 2 ^ Z.of_nat (length l).
Proof.
  induction l as [|b l IH]; intros H.
  - cbn. lia.
  - inversion H as [|? ? Hb Hl]; subst. specialize (IH Hl). rewrite be_cons. cbn [length]. Zpow.
    destruct Hb as [-> | ->]; lia.
Qed.

Lemma be_inj a : forall b, bits a -> bits b -> length a = length b -> big_endian a = big_endian b -> a = b.
Proof.
  induction a as [|x a IH]; intros [|y b] Ha Hb HL HE; try discriminate; auto.
  injection HL as HL. inversion Ha as [|? ? Hx Ha']; subst. inversion Hb as [|? ? Hy Hb']; subst.
  rewrite !be_cons, HL in HE. pose proof (be_range _ Ha'). pose proof (be_range _ Hb'). rewrite HL in *.
  assert (x = y) by (destruct Hx as [-> | ->]; destruct Hy as [-> | ->]; lia). subst y.
  f_equal. apply IH; auto. lia.
Qed.

Lemma be_onto n : forall v, 0 <= v < 2 ^ Z.of_nat n -> exists l, bits l /\ length l = n /\ big_endian l = v.
Proof.
  induction n as [|n IH]; intros v Hv.
  - exists []. cbn in *. repeat split; try constructor. lia.
  - rewrite Nat2Z.inj_succ, Z.pow_succ_r in Hv by lia. destruct (Z.lt_ge_cases v (2 ^ Z.of_nat n)) as [H|H].
    + destruct (IH v) as (l & B & L & E); [lia|]. exists (0 :: l). split; [constructor; auto|].
      split; [cbn; congruence|]. rewrite be_cons. lia.
    + destruct (IH (v - 2 ^ Z.of_nat n)) as (l & B & L & E); [lia|]. exists (1 :: l). split; [constructor; auto|].
      split; [cbn; congruence|]. rewrite be_cons, L. lia.
Qed.

(** ** The powers table and the cache *)
Lemma powers_length n : length (powers_of_2 n) = n.
Proof. unfold powers_of_2. rewrite map_length, rev_length, seq_length. auto. Qed.

Lemma powers_succ n : powers_of_2 (S n) = wrap64 (2 ^ Z.of_nat n) :: powers_of_2 n.
Proof. unfold powers_of_2. rewrite seq_S, rev_app_distr. reflexivity. Qed.

Lemma powers_skip n k : skipn k (powers_of_2 (k + n)) = powers_of_2 n.
Proof. induction k as [|k IH]; auto. cbn [Nat.add]. rewrite powers_succ. exact IH. Qed.

Lemma last_powers n m : (0 < n <= m)%nat -> last_n n (powers_of_2 m) = powers_of_2 n.
Proof.
  intros H. unfold last_n. destruct (Nat.eqb_spec n 0); [lia|]. rewrite powers_length.
  replace m with ((m - n) + n)%nat at 2 by lia. apply powers_skip.
Qed.

Definition table (c : cache) : Prop := c = None \/ exists m, c = Some (powers_of_2 m).

Lemma cache_table c n : table c -> exists m, cache_or_new c n = powers_of_2 m /\ (n <= m)%nat.
Proof.
  intros [-> |(m & ->)]; unfold cache_or_new; [exists n; split; auto|]. rewrite powers_length.
  destruct (Nat.ltb_spec m n); [exists n|exists m]; split; auto; lia.
Qed.

Lemma dot_powers b : bits b -> (length b <= 63)%nat ->
  fold_right Z.add 0 (map (fun x => fst x * snd x) (combine b (powers_of_2 (length b)))) = big_endian b.
Proof.
  induction b as [|x b IH]; intros HB HL; auto.
  cbn [length] in *. rewrite powers_succ. cbn [combine map fold_right fst snd]. inversion HB; subst.
  rewrite IH by (auto; lia). rewrite be_cons, wrap64_small; auto.
  pose proof (pow63 (length b) ltac:(lia)). pose proof (Z.pow_pos_nonneg 2 (Z.of_nat (length b))). lia.
Qed.

Lemma wrap_be b : bits b -> (length b <= 63)%nat -> wrap64 (big_endian b) = big_endian b.
Proof.
  intros HB HL. apply wrap64_small. pose proof (be_range b HB).
  assert (2 ^ Z.of_nat (length b) <= 2 ^ 63) by (apply Z.pow_le_mono_r; lia). lia.
Qed.

Lemma b2i_spec b c : table c -> bits b -> (1 <= length b <= 63)%nat ->
  binary_to_int b (cache_or_new c (length b)) = Ok (big_endian b) /\ table (Some (cache_or_new c (length b))).
Proof.
  intros HT HB HL. destruct (cache_table c (length b) HT) as (m & -> & Hm).
  split; [|right; eauto]. unfold binary_to_int, cache_or_new. rewrite powers_length.
  destruct (Nat.ltb_spec m (length b)); [lia|]. rewrite last_powers by lia.
  unfold dot. rewrite powers_length, Nat.eqb_refl. rewrite dot_powers, wrap_be by (auto; lia). auto.
Qed.

Lemma segs_table ds : forall c offset g, table c -> table (snd (decode_segments c ds offset g)).
Proof.
  induction ds as [|d ds IH]; intros c offset g HT; cbn; auto.
  destruct (cache_table c (length (firstn d (skipn offset g))) HT) as (m & -> & _).
  destruct (binary_to_int _ _); cbn; [|right; eauto].
  destruct (decode_segments (Some (powers_of_2 m)) ds (offset + d) g) as [r c'] eqn:E. cbn.
  specialize (IH (Some (powers_of_2 m)) (offset + d)%nat g). rewrite E in IH. apply IH. right; eauto.
Qed.

Lemma history_table ds gs : table (decoder_history ds gs).
Proof.
  unfold decoder_history. assert (H : forall c, table c -> table (fold_left (fun c g => snd (decode_int ds c g)) gs c)).
  { induction gs as [|g gs IH]; intros c HT; cbn; auto. apply IH. apply segs_table; auto. }
  apply H. left; auto.
Qed.

Lemma segs_spec ds : forall c offset pre g ps, table c -> length pre = offset ->
  Forall (fun d => 1 <= d <= 63)%nat ds -> bits g -> pieces ds g ps ->
  exists c', decode_segments c ds offset (pre ++ g) = (Ok (map big_endian ps), c') /\ table c'.
Proof.
  induction ds as [|d ds IH]; intros c offset pre g ps HT HO HD HB HP; inversion HP; subst.
  - exists c. cbn. auto.
  - inversion HD as [|? ? Hd HD']; subst. cbn [decode_segments].
    apply Forall_app in HB. destruct HB as [HBp HBg].
    assert (EC : firstn (length p) (skipn (length pre) (pre ++ p ++ g0)) = p).
    { rewrite skipn_app, skipn_all, Nat.sub_diag. cbn [skipn app].
      rewrite firstn_app, firstn_all, Nat.sub_diag. cbn. apply app_nil_r. }
    rewrite EC. destruct (b2i_spec p c HT HBp Hd) as [-> HT'].
    destruct (IH (Some (cache_or_new c (length p))) (length pre + length p)%nat (pre ++ p) g0 ps0) as (c' & E & HT2); auto.
    { rewrite app_length. auto. }
    rewrite <- app_assoc in E. rewrite E. cbn. eauto.
Qed.

Lemma decode_int_spec ds history g ps :
  Forall (fun d => 1 <= d <= 63)%nat ds -> bits g -> pieces ds g ps ->
  fst (decode_int ds (decoder_history ds history) g) = Ok (map big_endian ps).
Proof.
  intros HD HB HP.
  destruct (segs_spec ds (decoder_history ds history) 0 [] g ps (history_table ds history) eq_refl HD HB HP) as (c' & E & _).
  unfold decode_int. cbn [app] in E. rewrite E. auto.
Qed.

Lemma pieces_exist ds : forall g, (fold_right Nat.add 0 ds <= length g)%nat -> exists ps, pieces ds g ps.
Proof.
  induction ds as [|d ds IH]; intros g H; cbn in H; [eexists; constructor|].
  destruct (IH (skipn d g)) as (ps & E). { rewrite skipn_length. lia. }
  exists (firstn d g :: ps). rewrite <- (firstn_skipn d g) at 1. constructor; auto.
  rewrite firstn_length. lia.
Qed.

Lemma pieces_bits ds g ps : pieces ds g ps -> bits g -> Forall bits ps /\ map (@length Z) ps = ds.
Proof.
  induction 1; intros HB; [split; auto|]. apply Forall_app in HB. destruct HB as [H1 H2].
  destruct (IHpieces H2). split; [constructor; auto|]. cbn. congruence.
Qed.

(** ** Gray code: the xor loop *)
Fixpoint xall (fuel : nat) (m : Z) : Z :=
  match fuel with
  | O => 0
  | S f => if m =? 0 then 0 else Z.lxor m (xall f (Z.shiftr m 1))
  end.

Lemma shiftr1 m : Z.shiftr m 1 = m / 2.
Proof. rewrite Z.shiftr_div_pow2 by lia. reflexivity. Qed.

Lemma xall_fuel f : forall f' m, (f <= f')%nat -> 0 <= m < 2 ^ Z.of_nat f -> xall f' m = xall f m.
Proof.
  induction f as [|f IH]; intros f' m Hf Hm.
  - replace m with 0 by (cbn in Hm; lia). destruct f'; reflexivity.
  - destruct f' as [|f']; [lia|]. cbn [xall]. destruct (m =? 0); auto. f_equal. apply IH; [lia|].
    rewrite Nat2Z.inj_succ, Z.pow_succ_r in Hm by lia. rewrite shiftr1. split; [apply Z.div_pos; lia|].
    apply Z.div_lt_upper_bound; lia.
Qed.

Lemma loop_xall f : forall num mask, 0 <= mask < 2 ^ Z.of_nat f ->
  gray_loop f num mask = Some (Z.lxor num (xall f mask)).
Proof.
  induction f as [|f IH]; intros num mask Hm.
  - replace mask with 0 by (cbn in Hm; lia). cbn. rewrite Z.lxor_0_r. auto.
  - cbn [gray_loop xall]. destruct (Z.eqb_spec mask 0) as [E|E]; [rewrite Z.lxor_0_r; auto|].
    rewrite IH, Z.lxor_assoc; auto.
    rewrite Nat2Z.inj_succ, Z.pow_succ_r in Hm by lia. rewrite shiftr1. split; [apply Z.div_pos; lia|].
    apply Z.div_lt_upper_bound; lia.
Qed.

Lemma xall_step f m : 0 <= m < 2 ^ Z.of_nat f -> xall f m = Z.lxor m (xall f (Z.shiftr m 1)).
Proof.
  intros H. destruct f as [|f].
  - replace m with 0 by (cbn in H; lia). reflexivity.
  - assert (H2 : 0 <= Z.shiftr m 1 < 2 ^ Z.of_nat f).
    { rewrite Nat2Z.inj_succ, Z.pow_succ_r in H by lia. rewrite shiftr1. split; [apply Z.div_pos; lia|].
      apply Z.div_lt_upper_bound; lia. }
    rewrite (xall_fuel f (S f) (Z.shiftr m 1)) by (auto; lia).
    cbn [xall]. destruct (Z.eqb_spec m 0) as [-> |E]; auto.
    destruct f; reflexivity.
Qed.

Lemma xall_shift f : forall m, 0 <= m < 2 ^ Z.of_nat f -> xall f (Z.shiftr m 1) = Z.shiftr (xall f m) 1.
Proof.
  intros m H. rewrite (xall_step f m) by auto. rewrite Z.shiftr_lxor.
  assert (G : forall k f m, (k <= f)%nat -> 0 <= m < 2 ^ Z.of_nat k -> xall f m = Z.lxor m (Z.shiftr (xall f m) 1)).
  { clear. induction k as [|k IH]; intros f m Hk Hm.
    - replace m with 0 by (cbn in Hm; lia). destruct f; reflexivity.
    - assert (Hm' : 0 <= m < 2 ^ Z.of_nat f).
      { assert (2 ^ Z.of_nat (S k) <= 2 ^ Z.of_nat f) by (apply Z.pow_le_mono_r; lia). lia. }
      assert (H2 : 0 <= Z.shiftr m 1 < 2 ^ Z.of_nat k).
      { rewrite Nat2Z.inj_succ, Z.pow_succ_r in Hm by lia. rewrite shiftr1. split; [apply Z.div_pos; lia|].
        apply Z.div_lt_upper_bound; lia. }
      rewrite (xall_step f m) at 1 by auto. rewrite (xall_step f m) by auto. f_equal.
      rewrite Z.shiftr_lxor. apply IH; auto; lia. }
  apply (G f f); auto. rewrite shiftr1. split; [apply Z.div_pos; lia|]. apply Z.div_lt_upper_bound; lia.
Qed.

Lemma encode_xall f num : 0 <= num < 2 ^ Z.of_nat f -> gray_encode num = Some (xall f num).
Proof.
  intros H. unfold gray_encode.
  assert (HL : 0 <= Z.shiftr num 1 < 2 ^ Z.of_nat (S (Z.to_nat (Z.log2 num)))).
  { rewrite shiftr1. split; [apply Z.div_pos; lia|].
    destruct (Z.eq_dec num 0) as [-> |E]; [cbn; lia|].
    pose proof (Z.log2_spec num ltac:(lia)) as [_ HS]. pose proof (Z.log2_nonneg num).
    rewrite Nat2Z.inj_succ, Z2Nat.id by lia.
    apply Z.div_lt_upper_bound; lia. }
  rewrite loop_xall by auto. f_equal. rewrite (xall_step f num) by auto. f_equal.
  set (k := S (Z.to_nat (Z.log2 num))) in *.
  assert (H2 : 0 <= Z.shiftr num 1 < 2 ^ Z.of_nat f).
  { rewrite shiftr1. split; [apply Z.div_pos; lia|]. apply Z.div_lt_upper_bound; lia. }
  destruct (Nat.le_ge_cases k f); [symmetry|]; apply xall_fuel; auto.
Qed.

(** ** Gray code: the value of a code word *)
Lemma gray_bits_bits l : forall a, bits (gray_bits a l).
Proof.
  induction l as [|b l IH]; intros a; [constructor|]. cbn [gray_bits]. constructor; [|apply IH].
  pose proof (Z.mod_pos_bound (a + b) 2). lia.
Qed.
Lemma gray_bits_length l : forall a, length (gray_bits a l) = length l.
Proof. induction l; intros a0; cbn; auto. Qed.

Lemma gray_snoc l : forall a b, gray_bits a (l ++ [b]) = gray_bits a l ++ [(last (gray_bits a l) a + b) mod 2].
Proof.
  induction l as [|x l IH]; intros a b; cbn [gray_bits app]; auto.
  rewrite IH. cbn [app]. f_equal. f_equal. f_equal. f_equal. f_equal.
  destruct (gray_bits ((a + x) mod 2) l) eqn:E; auto. cbn.
  clear. revert z. induction l0; intros; cbn; auto.
Qed.

Lemma be_mod2 l : bits l -> l <> [] -> big_endian l mod 2 = last l 0.
Proof.
  intros HB HN. destruct (exists_last HN) as (l' & b & ->). rewrite be_snoc, last_last.
  rewrite <- (Z.mod_unique (2 * big_endian l' + b) 2 (big_endian l') b); auto.
  unfold bits in HB. rewrite Forall_app in HB. destruct HB as [_ HB]. inversion HB; subst. lia.
Qed.

Lemma odd_mod2 z : (Z.odd z = true /\ z mod 2 = 1) \/ (Z.odd z = false /\ z mod 2 = 0).
Proof. rewrite Zmod_odd. destruct (Z.odd z); auto. Qed.

Lemma encode_be f : forall l, bits l -> (length l <= f)%nat -> xall f (big_endian l) = gray_value l.
Proof.
  unfold gray_value. induction l as [|b l IH] using rev_ind; intros HB HL.
  - destruct f; reflexivity.
  - pose proof HB as HB0. apply Forall_app in HB. destruct HB as [HB Hb]. inversion Hb as [|? ? Hb' _]; subst.
    rewrite app_length in HL. cbn in HL. specialize (IH HB ltac:(lia)).
    rewrite gray_snoc, !be_snoc, <- IH.
    set (x := big_endian l) in *. set (y := xall f x) in *.
    assert (Hx : 0 <= x < 2 ^ Z.of_nat (length l)) by (apply be_range; auto).
    assert (H2 : 0 <= 2 * x + b < 2 ^ Z.of_nat f).
    { pose proof (be_range _ HB0) as R. rewrite be_snoc, app_length in R. fold x in R. cbn [length] in R.
      assert (2 ^ Z.of_nat (length l + 1) <= 2 ^ Z.of_nat f) by (apply Z.pow_le_mono_r; lia). lia. }
    assert (ES : Z.shiftr (2 * x + b) 1 = x).
    { rewrite shiftr1. symmetry. apply (Z.div_unique (2 * x + b) 2 x b); lia. }
    pose proof (xall_shift f _ H2) as A. rewrite ES in A. fold y in A. rewrite shiftr1 in A.
    pose proof (xall_step f _ H2) as B. rewrite ES in B. fold y in B.
    set (z := xall f (2 * x + b)) in *.
    assert (C : Z.odd z = xorb (Z.odd b) (Z.odd y)).
    { rewrite B. rewrite <- !Z.bit0_odd, Z.lxor_spec, !Z.bit0_odd. f_equal.
      rewrite Z.odd_add, Z.odd_mul. cbn [Z.odd andb xorb]. destruct (Z.odd b); auto. }
    assert (D : (last (gray_bits 0 l) 0 + b) mod 2 = z mod 2).
    { assert (HLy : last (gray_bits 0 l) 0 = y mod 2).
      { destruct l as [|c l']; [subst y x; destruct f; reflexivity|].
        rewrite <- be_mod2; [|apply gray_bits_bits|discriminate]. rewrite <- IH. auto. }
      rewrite HLy, Z.add_mod_idemp_l by lia. rewrite !Zmod_odd, Z.odd_add, C, (xorb_comm (Z.odd b)). auto. }
    rewrite D. rewrite A. apply Z.div_mod. lia.
Qed.

Lemma gray_encode_bits l : bits l -> gray_encode (big_endian l) = Some (gray_value l).
Proof.
  intros HB. rewrite (encode_xall (length l)) by (apply be_range; auto). f_equal. apply encode_be; auto.
Qed.

Lemma gray_range l : 0 <= gray_value l < 2 ^ Z.of_nat (length l).
Proof.
  unfold gray_value. pose proof (be_range _ (gray_bits_bits l 0)) as H. rewrite gray_bits_length in H. auto.
Qed.

Lemma mod2_small b : b = 0 \/ b = 1 -> (0 + b) mod 2 = b.
Proof. intros [-> | ->]; reflexivity. Qed.

(** complementing the bits above complements the value *)
Lemma gray_complement l : bits l ->
  big_endian (gray_bits 1 l) = 2 ^ Z.of_nat (length l) - 1 - big_endian (gray_bits 0 l).
Proof.
  intros HB.
  assert (H : forall l a, bits l -> a = 0 \/ a = 1 ->
    big_endian (gray_bits (1 - a) l) = 2 ^ Z.of_nat (length l) - 1 - big_endian (gray_bits a l)).
  { clear. induction l as [|b l IH]; intros a HB Ha; [cbn; lia|].
    inversion HB as [|? ? Hb HB']; subst. cbn [gray_bits length].
    assert (E : (1 - a + b) mod 2 = 1 - (a + b) mod 2).
    { destruct Ha as [-> | ->]; destruct Hb as [-> | ->]; reflexivity. }
    assert (Hx : (a + b) mod 2 = 0 \/ (a + b) mod 2 = 1) by (pose proof (Z.mod_pos_bound (a + b) 2); lia).
    rewrite E, !be_cons, IH by auto. rewrite !gray_bits_length. Zpow.
    destruct Hx as [-> | ->]; lia. }
  apply (H l 0); auto.
Qed.

Lemma gray_cons b l : bits (b :: l) ->
  gray_value (b :: l) = if b =? 0 then gray_value l else 2 ^ Z.of_nat (S (length l)) - 1 - gray_value l.
Proof.
  intros HB. inversion HB as [|? ? Hb HB']; subst. unfold gray_value. cbn [gray_bits].
  rewrite mod2_small by auto. rewrite be_cons, gray_bits_length. destruct Hb as [-> | ->]; cbn [Z.eqb].
  - lia.
  - rewrite gray_complement by auto. Zpow. lia.
Qed.

Lemma gray_inj a : forall b, bits a -> bits b -> length a = length b -> gray_value a = gray_value b -> a = b.
Proof.
  induction a as [|x a IH]; intros [|y b] Ha Hb HL HE; try discriminate; auto.
  injection HL as HL. rewrite !gray_cons in HE by auto.
  pose proof (gray_range a). pose proof (gray_range b). rewrite HL in *.
  inversion Ha as [|? ? Hx Ha']; subst. inversion Hb as [|? ? Hy Hb']; subst.
  rewrite Nat2Z.inj_succ, Z.pow_succ_r in HE by lia.
  destruct Hx as [-> | ->]; destruct Hy as [-> | ->]; cbn [Z.eqb] in HE; try lia; f_equal; apply IH; auto; lia.
Qed.

Lemma gray_onto n : forall v, 0 <= v < 2 ^ Z.of_nat n -> exists l, bits l /\ length l = n /\ gray_value l = v.
Proof.
  induction n as [|n IH]; intros v Hv.
  - exists []. cbn in *. repeat split; try constructor. lia.
  - pose proof Hv as Hv0. rewrite Nat2Z.inj_succ, Z.pow_succ_r in Hv by lia.
    destruct (Z.lt_ge_cases v (2 ^ Z.of_nat n)) as [H|H].
    + destruct (IH v) as (l & B & L & E); [lia|]. exists (0 :: l).
      assert (HB : bits (0 :: l)) by (constructor; auto). split; auto.
      split; [cbn; congruence|]. rewrite gray_cons by auto. auto.
    + destruct (IH (2 ^ Z.of_nat (S n) - 1 - v)) as (l & B & L & E). { Zpow. lia. }
      exists (1 :: l). assert (HB : bits (1 :: l)) by (constructor; auto). split; auto.
      split; [cbn; congruence|]. rewrite gray_cons by auto. cbn [Z.eqb]. rewrite L. lia.
Qed.

Lemma distance_cons x y a b : distance (x :: a) (y :: b) = ((if Z.eqb x y then 0 else 1) + distance a b)%nat.
Proof. unfold distance. cbn. destruct (x =? y); reflexivity. Qed.
Lemma distance_same a : distance a a = 0%nat.
Proof. induction a as [|x a IH]; auto. rewrite distance_cons, Z.eqb_refl, IH. auto. Qed.

Lemma gray_adjacent a : forall b, bits a -> bits b -> length a = length b ->
  gray_value b = gray_value a + 1 \/ gray_value a = gray_value b + 1 -> distance a b = 1%nat.
Proof.
  induction a as [|x a IH]; intros [|y b] Ha Hb HL HE; try discriminate; [cbn in HE; lia|].
  injection HL as HL. rewrite !gray_cons, distance_cons in * by auto.
  pose proof (gray_range a) as Ra. pose proof (gray_range b) as Rb. rewrite HL in *.
  inversion Ha as [|? ? Hx Ha']; subst. inversion Hb as [|? ? Hy Hb']; subst.
  rewrite Nat2Z.inj_succ, Z.pow_succ_r in HE by lia.
  destruct Hx as [-> | ->]; destruct Hy as [-> | ->]; cbn [Z.eqb] in *.
  - apply IH; auto.
  - assert (a = b) by (apply gray_inj; auto; lia). subst b. rewrite distance_same. reflexivity.
  - assert (a = b) by (apply gray_inj; auto; lia). subst b. rewrite distance_same. reflexivity.
  - apply IH; auto. lia.
Qed.

Lemma all_some_gray ps : Forall bits ps -> all_some (map gray_encode (map big_endian ps)) = Some (map gray_value ps).
Proof.
  induction ps as [|p ps IH]; intros H; auto. cbn [map all_some]. inversion H; subst.
  rewrite gray_encode_bits, IH by auto. auto.
Qed.

Lemma gray_fst ds c g : snd (decode_gray ds c g) = snd (decode_int ds c g).
Proof. unfold decode_gray. destruct (decode_int ds c g). auto. Qed.

Lemma decode_gray_spec ds history g ps :
  Forall (fun d => 1 <= d <= 63)%nat ds -> bits g -> pieces ds g ps ->
  fst (decode_gray ds (decoder_history ds history) g) = Ok (map gray_value ps).
Proof.
  intros HD HB HP. pose proof (decode_int_spec ds history g ps HD HB HP) as E.
  unfold decode_gray. destruct (decode_int ds (decoder_history ds history) g) as [r c]. cbn in E. subst r. cbn.
  destruct (pieces_bits _ _ _ HP HB) as [HBp _]. rewrite all_some_gray by auto. auto.
Qed.

(** ** Reals *)
Lemma card_ok n : (1 <= n <= 63)%nat -> wrap64 (wrap64 (2 ^ Z.of_nat n) - 1) = 2 ^ Z.of_nat n - 1.
Proof.
  intros H. destruct (Nat.eq_dec n 63) as [-> |E]; [reflexivity|].
  pose proof (pow63 n ltac:(lia)). pose proof (Z.pow_pos_nonneg 2 (Z.of_nat n)).
  rewrite (wrap64_small (2 ^ Z.of_nat n)) by lia. apply wrap64_small. lia.
Qed.

Lemma real_value_spec n lower upper v : (1 <= n <= 63)%nat ->
  exists x, real_value (n, lower, upper) v = Some x /\
    ((x - lower) * inject_Z (2 ^ Z.of_nat n - 1) == inject_Z v * (upper - lower))%Q.
Proof.
  intros H. unfold real_value, increment. rewrite card_ok by auto.
  assert (HP : 1 < 2 ^ Z.of_nat n) by (apply Z.pow_gt_1; lia).
  destruct (Z.eqb_spec (2 ^ Z.of_nat n - 1) 0); [lia|]. eexists. split; [reflexivity|]. cbn [fst snd].
  assert (~ (inject_Z (2 ^ Z.of_nat n - 1) == 0)%Q).
  { change 0%Q with (inject_Z 0). rewrite inject_Z_injective. auto. }
  field. auto.
Qed.

(** ** Statements used by Props/Decoders.v *)
Lemma real_segs segs : forall ps (value : list Z -> Z), map (@length Z) ps = map (fun s => fst (fst s)) segs ->
  Forall (fun s => 1 <= fst (fst s) <= 63)%nat segs ->
  exists xs, map (fun sv => real_value (fst sv) (snd sv)) (combine segs (map value ps)) = map Some xs /\
    Forall2 (fun sp x => ((x - snd (fst (fst sp))) * inject_Z (2 ^ Z.of_nat (length (snd sp)) - 1)
                          == inject_Z (value (snd sp)) * (snd (fst sp) - snd (fst (fst sp))))%Q)
            (combine segs ps) xs.
Proof.
  induction segs as [|[[n lower] upper] segs IH]; intros ps value HL HF.
  - exists []. destruct ps; [|discriminate]. split; auto; constructor.
  - destruct ps as [|p ps]; [discriminate|]. cbn in HL. injection HL as HL1 HL2.
    inversion HF as [|? ? Hn HF']; subst. cbn [fst snd] in *.
    destruct (IH ps value HL2 HF') as (xs & E & F2).
    destruct (real_value_spec (length p) lower upper (value p) Hn) as (x & Ex & Hx).
    exists (x :: xs). cbn [map combine fst snd]. rewrite Ex, E. split; auto.
Qed.

Lemma decode_real_spec gray segments history g ps :
  Forall (fun s => 1 <= fst (fst s) <= 63)%nat segments -> bits g ->
  pieces (map (fun s => fst (fst s)) segments) g ps ->
  exists xs,
    fst (decode_real gray segments (decoder_history (map (fun s => fst (fst s)) segments) history) g) = Ok (map Some xs) /\
    Forall2 (fun sp x => ((x - snd (fst (fst sp))) * inject_Z (2 ^ Z.of_nat (length (snd sp)) - 1)
                          == inject_Z ((if gray then gray_value else big_endian) (snd sp))
                             * (snd (fst sp) - snd (fst (fst sp))))%Q)
            (combine segments ps) xs.
Proof.
  intros HF HB HP.
  assert (HD : Forall (fun d => 1 <= d <= 63)%nat (map (fun s : nat * Q * Q => fst (fst s)) segments)).
  { apply Forall_map. auto. }
  destruct (pieces_bits _ _ _ HP HB) as [_ HL].
  unfold decode_real. destruct gray.
  - pose proof (decode_gray_spec _ history g ps HD HB HP) as E. destruct (decode_gray _ _ g) as [r c]. cbn in E.
    subst r. cbn [bind fst]. destruct (real_segs segments ps gray_value HL HF) as (xs & E & F2).
    exists xs. rewrite E. auto.
  - pose proof (decode_int_spec _ history g ps HD HB HP) as E. destruct (decode_int _ _ g) as [r c]. cbn in E.
    subst r. cbn [bind fst]. destruct (real_segs segments ps big_endian HL HF) as (xs & E & F2).
    exists xs. rewrite E. auto.
Qed.

Lemma Qmul_cancel_le a b c : (0 < c)%Q -> (a * c <= b * c)%Q -> (a <= b)%Q.
Proof. intros H H2. apply Qmult_le_r in H2; auto. Qed.

Lemma inject_lt a b : a < b -> (inject_Z a < inject_Z b)%Q.
Proof. intros. rewrite <- Zlt_Qlt. auto. Qed.

(** what the equation of [decode_real_spec] means for one value *)
Lemma scaled_in_interval n lower upper v x : (1 <= n)%nat -> (lower <= upper)%Q ->
  0 <= v < 2 ^ Z.of_nat n ->
  ((x - lower) * inject_Z (2 ^ Z.of_nat n - 1) == inject_Z v * (upper - lower))%Q ->
  (lower <= x /\ x <= upper)%Q /\ (v = 0 -> (x == lower)%Q) /\ (v = 2 ^ Z.of_nat n - 1 -> (x == upper)%Q).
Proof.
  intros Hn Hlu Hv E. assert (HP : 1 < 2 ^ Z.of_nat n) by (apply Z.pow_gt_1; lia).
  set (c := 2 ^ Z.of_nat n - 1) in *.
  assert (Hc : (0 < inject_Z c)%Q) by (change 0%Q with (inject_Z 0); apply inject_lt; lia).
  assert (Hv0 : (0 <= inject_Z v)%Q) by (change 0%Q with (inject_Z 0); rewrite <- Zle_Qle; lia).
  assert (Hvc : (inject_Z v <= inject_Z c)%Q) by (rewrite <- Zle_Qle; lia).
  assert (Hd : (0 <= upper - lower)%Q) by lra.
  split; [split|split].
  - assert (0 <= x - lower)%Q; [|lra]. apply (Qmul_cancel_le _ _ (inject_Z c)); auto. rewrite E.
    pose proof (Qmult_le_0_compat _ _ Hv0 Hd). lra.
  - assert (x - lower <= upper - lower)%Q; [|lra]. apply (Qmul_cancel_le _ _ (inject_Z c)); auto. rewrite E.
    rewrite (Qmult_comm (upper - lower)). apply Qmult_le_compat_r; auto.
  - intros ->. assert (x - lower == 0)%Q; [|lra]. change (inject_Z 0) with 0%Q in E.
    destruct (Qmult_integral (x - lower) (inject_Z c)) as [H|H]; [rewrite E; ring|auto|lra].
  - intros ->. assert (x - lower == upper - lower)%Q; [|lra].
    apply (Qmult_inj_r _ _ (inject_Z c)); [lra|]. rewrite E. ring.
Qed.

Lemma scaled_monotone n lower upper v1 v2 x1 x2 : (1 <= n)%nat -> (lower <= upper)%Q -> v1 <= v2 ->
  ((x1 - lower) * inject_Z (2 ^ Z.of_nat n - 1) == inject_Z v1 * (upper - lower))%Q ->
  ((x2 - lower) * inject_Z (2 ^ Z.of_nat n - 1) == inject_Z v2 * (upper - lower))%Q ->
  (x1 <= x2)%Q /\ ((x2 - x1) * inject_Z (2 ^ Z.of_nat n - 1) == inject_Z (v2 - v1) * (upper - lower))%Q.
Proof.
  intros Hn Hlu Hv E1 E2. assert (HP : 1 < 2 ^ Z.of_nat n) by (apply Z.pow_gt_1; lia).
  set (c := 2 ^ Z.of_nat n - 1) in *.
  assert (Hc : (0 < inject_Z c)%Q) by (change 0%Q with (inject_Z 0); apply inject_lt; lia).
  assert (E : ((x2 - x1) * inject_Z c == inject_Z (v2 - v1) * (upper - lower))%Q).
  { unfold Zminus. rewrite inject_Z_plus, inject_Z_opp.
    transitivity ((x2 - lower) * inject_Z c - (x1 - lower) * inject_Z c)%Q; [ring|]. rewrite E1, E2. ring. }
  split; auto. assert (0 <= x2 - x1)%Q; [|lra]. apply (Qmul_cancel_le _ _ (inject_Z c)); auto. rewrite E.
  assert (Hv0 : (0 <= inject_Z (v2 - v1))%Q) by (change 0%Q with (inject_Z 0); rewrite <- Zle_Qle; lia).
  assert (Hd : (0 <= upper - lower)%Q) by lra.
  pose proof (Qmult_le_0_compat _ _ Hv0 Hd). lra.
Qed.

Lemma be_zeros n : big_endian (repeat 0 n) = 0.
Proof. induction n; [reflexivity|]. cbn [repeat]. rewrite be_cons. lia. Qed.
Lemma be_ones n : big_endian (repeat 1 n) = 2 ^ Z.of_nat n - 1.
Proof. induction n; auto. cbn [repeat]. rewrite be_cons, repeat_length, IHn. Zpow. lia. Qed.
Lemma gray_zeros n : gray_value (repeat 0 n) = 0.
Proof.
  unfold gray_value. assert (E : gray_bits 0 (repeat 0 n) = repeat 0 n).
  { induction n; cbn [repeat gray_bits]; auto. cbn. f_equal. auto. }
  rewrite E. apply be_zeros.
Qed.

Lemma segmented_spec {S G P} (dec : S -> G -> result P * S) (good : S -> Prop) (f : G -> P) genome : forall s,
  (forall s g, good s -> In g genome -> fst (dec s g) = Ok (f g) /\ good (snd (dec s g))) -> good s ->
  fst (decode_segmented dec s genome) = Ok (map f genome).
Proof.
  induction genome as [|g r IH]; intros s HD HG; cbn; auto.
  destruct (HD s g HG (or_introl eq_refl)) as [E1 E2]. destruct (dec s g) as [v s']. cbn in E1, E2. subst v.
  specialize (IH s' (fun s g H1 H2 => HD s g H1 (or_intror H2)) E2).
  destruct (decode_segmented dec s' r) as [vs s'']. cbn in IH. subst vs. auto.
Qed.

Lemma segmented_int ds genome split : Forall (fun d => 1 <= d <= 63)%nat ds -> Forall bits genome ->
  (forall g, In g genome -> pieces ds g (split g)) ->
  fst (decode_segmented (decode_int ds) None genome) = Ok (map (fun g => map big_endian (split g)) genome).
Proof.
  intros HD HB HP. apply (segmented_spec (decode_int ds) table (fun g => map big_endian (split g))).
  - intros c g HT Hg. rewrite Forall_forall in HB.
    destruct (segs_spec ds c 0 [] g (split g) HT eq_refl HD (HB g Hg) (HP g Hg)) as (c' & E & HT').
    unfold decode_int. cbn [app] in E. rewrite E. auto.
  - left. auto.
Qed.

Lemma one_segment history n : (1 <= n <= 63)%nat ->
  injective_onto big_endian n /\
  forall g, bits g -> length g = n -> fst (decode_int [n] (decoder_history [n] history) g) = Ok [big_endian g].
Proof.
  intros Hn. split.
  - split; [intros l HB <-; apply be_range; auto|]. split; [|apply be_onto].
    intros a b Ha Hb La Lb. apply be_inj; auto. congruence.
  - intros g HB HL. rewrite (decode_int_spec [n] history g [g]); auto.
    replace g with (g ++ []) at 1 by apply app_nil_r. constructor; auto. constructor.
Qed.

Lemma one_gray_segment history n : (1 <= n <= 63)%nat ->
  injective_onto gray_value n /\
  (forall a b, bits a -> bits b -> length a = n -> length b = n -> gray_value b = gray_value a + 1 ->
     distance a b = 1%nat) /\
  forall g, bits g -> length g = n -> fst (decode_gray [n] (decoder_history [n] history) g) = Ok [gray_value g].
Proof.
  intros Hn. split; [|split].
  - split; [intros l HB <-; apply gray_range; auto|]. split; [|apply gray_onto].
    intros a b Ha Hb La Lb. apply gray_inj; auto. congruence.
  - intros a b Ha Hb La Lb HE. apply gray_adjacent; auto. congruence.
  - intros g HB HL. rewrite (decode_gray_spec [n] history g [g]); auto.
    replace g with (g ++ []) at 1 by apply app_nil_r. constructor; auto. constructor.
Qed.

Lemma gray_loop_negative fuel : forall num mask, mask < 0 -> gray_loop fuel num mask = None.
Proof.
  induction fuel as [|fuel IH]; intros num mask H; cbn [gray_loop]; destruct (Z.eqb_spec mask 0); try lia; auto.
  apply IH. rewrite shiftr1. apply Z.div_lt_upper_bound; lia.
Qed.

(** the decoder of a single real segment *)
Lemma one_real_segment gray history n lower upper : (1 <= n <= 63)%nat -> (lower <= upper)%Q ->
  let value := if gray : bool then gray_value else big_endian in
  exists real : Z -> Q,
  (forall g, bits g -> length g = n ->
     fst (decode_real gray [(n, lower, upper)] (decoder_history [n] history) g) = Ok [Some (real (value g))] /\
     (lower <= real (value g) /\ real (value g) <= upper)%Q) /\
  (real 0%Z == lower)%Q /\ (real (2 ^ Z.of_nat n - 1)%Z == upper)%Q /\
  (forall v w : Z, v <= w -> (real v <= real w)%Q) /\
  (forall v w, (real (v + 1)%Z - real v == real (w + 1)%Z - real w)%Q).
Proof.
  intros Hn Hlu value.
  assert (HP : 1 < 2 ^ Z.of_nat n) by (apply Z.pow_gt_1; lia).
  exists (fun v => match real_value (n, lower, upper) v with Some x => x | None => 0%Q end).
  assert (R : forall v, exists x, real_value (n, lower, upper) v = Some x /\
    ((x - lower) * inject_Z (2 ^ Z.of_nat n - 1) == inject_Z v * (upper - lower))%Q).
  { intros v. apply real_value_spec; auto. }
  assert (VR : forall g, bits g -> length g = n -> 0 <= value g < 2 ^ Z.of_nat n).
  { intros g HB HL. rewrite <- HL. unfold value. destruct gray; [apply gray_range|apply be_range; auto]. }
  split.
  { intros g HB HL.
    assert (HP1 : pieces [n] g [g]).
    { replace g with (g ++ []) at 1 by apply app_nil_r. constructor; auto. constructor. }
    assert (HF1 : Forall (fun d => 1 <= d <= 63)%nat [n]) by (constructor; [lia|constructor]).
    destruct (R (value g)) as (x & Ex & Hx). rewrite Ex. split.
    - unfold decode_real. cbn [map fst snd].
      destruct gray; unfold value in Ex.
      + pose proof (decode_gray_spec [n] history g [g] HF1 HB HP1) as E.
        destruct (decode_gray [n] _ g) as [r k]. cbn in E. subst r. cbn [bind fst combine map snd]. rewrite Ex. auto.
      + pose proof (decode_int_spec [n] history g [g] HF1 HB HP1) as E.
        destruct (decode_int [n] _ g) as [r k]. cbn in E. subst r. cbn [bind fst combine map snd]. rewrite Ex. auto.
    - apply (scaled_in_interval n lower upper (value g) x); auto; lia. }
  destruct (R 0) as (x0 & E0 & H0). destruct (R (2 ^ Z.of_nat n - 1)) as (x1 & E1 & H1).
  split; [rewrite E0; apply (scaled_in_interval n lower upper 0 x0); auto; lia|].
  split; [rewrite E1; apply (scaled_in_interval n lower upper (2 ^ Z.of_nat n - 1) x1); auto; lia|].
  split.
  - intros v w Hvw. destruct (R v) as (xv & -> & Hv). destruct (R w) as (xw & -> & Hw).
    apply (scaled_monotone n lower upper v w xv xw); auto; lia.
  - intros v w. destruct (R v) as (a & -> & Ha). destruct (R (v + 1)) as (a' & -> & Ha').
    destruct (R w) as (b & -> & Hb). destruct (R (w + 1)) as (b' & -> & Hb').
    destruct (scaled_monotone n lower upper v (v + 1) a a') as [_ A]; auto; try lia.
    destruct (scaled_monotone n lower upper w (w + 1) b b') as [_ B]; auto; try lia.
    replace (v + 1 - v) with 1 in A by lia. replace (w + 1 - w) with 1 in B by lia.
    assert (Hc : (0 < inject_Z (2 ^ Z.of_nat n - 1))%Q) by (change 0%Q with (inject_Z 0); apply inject_lt; lia).
    apply (Qmult_inj_r _ _ (inject_Z (2 ^ Z.of_nat n - 1))); [lra|]. rewrite A, B. reflexivity.
Qed.
