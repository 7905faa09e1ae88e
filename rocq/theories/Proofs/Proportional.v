(** Proofs about proportional selection and stochastic universal sampling. *)
From Coq Require Import Lia Lqa Sorted Permutation Qround Qpower.
From Verif Require Import Model.Base Model.Proportional Spec.Proportional.
Local Open Scope Q_scope.

Lemma Qltb_spec a b : Qltb a b = true <-> a < b.
Proof.
  unfold Qltb. rewrite negb_true_iff. split; intros H.
  - destruct (Qlt_le_dec a b) as [|L]; [assumption|]. apply Qle_bool_iff in L. congruence.
  - destruct (Qle_bool b a) eqn:E; [|reflexivity]. apply Qle_bool_iff in E. lra.
Qed.
Lemma Qltb_false a b : Qltb a b = false <-> b <= a.
Proof.
  split; intros H.
  - destruct (Qlt_le_dec a b) as [L|]; [|assumption]. apply Qltb_spec in L. congruence.
  - destruct (Qltb a b) eqn:E; [|reflexivity]. apply Qltb_spec in E. lra.
Qed.

Definition csum (values : list Q) (j : nat) : Q := Qsum (firstn j values).

Lemma csum_S values j v : nth_error values j = Some v -> csum values (S j) == csum values j + v.
Proof.
  revert j. induction values as [|x l IH]; intros [|j] H; try discriminate.
  - injection H as ->. unfold csum. simpl. lra.
  - unfold csum in *. cbn [firstn Qsum fold_right]. fold (Qsum (firstn (S j) l)). fold (Qsum (firstn j l)).
    rewrite (IH j H). lra.
Qed.

Definition nonneg (values : list Q) := Forall (fun v => 0 <= v) values.

Lemma csum_mono values i j : nonneg values -> (i <= j)%nat -> csum values i <= csum values j.
Proof.
  intros Hn Hij. induction Hij as [|j Hij IH]; [lra|].
  destruct (nth_error values j) as [v|] eqn:E.
  - rewrite (csum_S _ _ _ E). apply nth_error_In in E. unfold nonneg in Hn. rewrite Forall_forall in Hn.
    specialize (Hn v E). lra.
  - apply nth_error_None in E. unfold csum in *. rewrite (firstn_all2 values (n:=S j)) by lia.
    rewrite (firstn_all2 values (n:=j)) in IH by lia. exact IH.
Qed.

Lemma csum_all values j : (length values <= j)%nat -> csum values j = Qsum values.
Proof. intros H. unfold csum. rewrite firstn_all2 by lia. reflexivity. Qed.

(** the interval (csum k, csum (k+1)] *)
Definition chosen (values : list Q) (pt : Q) (k : nat) : Prop :=
  (k < length values)%nat /\ csum values k < pt /\ pt <= csum values (S k).

Lemma advance_spec values pt : pt <= Qsum values -> forall rest idx sum,
  rest = skipn idx values -> (idx <= length values)%nat -> sum == csum values idx ->
  exists idx' sum', sus_advance rest idx sum pt = Ok (idx', sum') /\ sum' == csum values idx' /\
    (idx <= idx' <= length values)%nat /\ pt <= csum values idx' /\
    forall i, (idx <= i < idx')%nat -> csum values i < pt.
Proof.
  intros Hpt. induction rest as [|v rest IH]; intros idx sum Hr Hl Hs; cbn [sus_advance];
    destruct (Qltb sum pt) eqn:E.
  - apply Qltb_spec in E. assert (L : (length values <= idx)%nat).
    { assert (length (skipn idx values) = 0%nat) by (rewrite <- Hr; reflexivity). rewrite skipn_length in H. lia. }
    rewrite csum_all in Hs by lia. lra.
  - apply Qltb_false in E. exists idx, sum. split; [reflexivity|]. split; [exact Hs|].
    split; [lia|]. split; [lra|]. intros i Hi. lia.
  - apply Qltb_spec in E.
    assert (Hv : nth_error values idx = Some v).
    { rewrite <- (firstn_skipn idx values) at 1. rewrite <- Hr.
      rewrite nth_error_app2; rewrite firstn_length_le by lia; [|lia]. rewrite Nat.sub_diag. reflexivity. }
    assert (Hlt : (idx < length values)%nat) by (apply nth_error_Some; congruence).
    destruct (IH (S idx) (sum + v)) as (idx' & sum' & H1 & H2 & H3 & H4 & H5).
    + change (S idx) with (1 + idx)%nat.
      assert (Hsk : forall (l : list Q) n, skipn (1 + n) l = skipn 1 (skipn n l)).
      { clear. induction l as [|x l IH]; intros [|n]; try reflexivity. cbn [Nat.add skipn]. apply (IH n). }
      rewrite Hsk, <- Hr. reflexivity.
    + lia.
    + rewrite (csum_S _ _ _ Hv), Hs. lra.
    + exists idx', sum'. split; [exact H1|]. split; [exact H2|]. split; [lia|]. split; [exact H4|].
      intros i Hi. destruct (Nat.eq_dec i idx) as [->|]; [rewrite <- Hs; exact E|]. apply H5. lia.
  - apply Qltb_false in E. exists idx, sum. split; [reflexivity|]. split; [exact Hs|].
    split; [lia|]. split; [lra|]. intros i Hi. lia.
Qed.

Section Pass.
Context {A : Type}.
Variable population : list A.
Variable values : list Q.
Variable shuffle : bool.
Variable n : nat.
Hypothesis Hlen : length population = length values.
Hypothesis Hnn : nonneg values.

Lemma pass_from pts : StronglySorted Qle pts ->
  forall draws j idx sum, Forall (fun p => 0 < p <= Qsum values) (skipn j pts) ->
  (length draws + j = length pts)%nat -> (idx <= length values)%nat -> sum == csum values idx ->
  (forall p i, In p (skipn j pts) -> (i < idx)%nat -> csum values i < p) ->
  exists idxs out s',
    sus_pulls population shuffle draws (mk_sus values n pts j idx sum) = Ok (out, s') /\
    at_positions population idxs out /\ Forall2 (chosen values) (skipn j pts) idxs /\
    sus_values s' = values /\ sus_n s' = n /\ sus_points s' = pts /\ sus_sel s' = length pts.
Proof.
  intros Hsort. induction draws as [|d draws IH]; intros j idx sum Hpts Hj Hi Hs Hlow.
  - exists [], [], (mk_sus values n pts j idx sum). simpl in Hj. split; [reflexivity|].
    split; [constructor|]. split; [|simpl; repeat split; lia].
    rewrite skipn_all2 by lia. constructor.
  - simpl in Hj. cbn [sus_pulls]. unfold sus_pull. cbn [sus_sel sus_points sus_values sus_n sus_pop sus_sum].
    destruct (Nat.eqb_spec j (length pts)); [lia|].
    cbn [sus_sel sus_points sus_values sus_n sus_pop sus_sum].
    destruct (nth_error pts j) as [pt|] eqn:Ep; [|apply nth_error_None in Ep; lia].
    destruct (nth_error_split _ _ Ep) as (l1 & l2 & El & Ll).
    assert (Esk : skipn j pts = pt :: l2).
    { rewrite El, skipn_app, Ll, Nat.sub_diag, skipn_all2 by lia. reflexivity. }
    assert (Esk' : skipn (S j) pts = l2).
    { rewrite El, skipn_app, skipn_all2 by lia. rewrite Ll. replace (S j - j)%nat with 1%nat by lia. reflexivity. }
    assert (Hpt : 0 < pt <= Qsum values) by (rewrite Forall_forall in Hpts; apply Hpts; rewrite Esk; left; reflexivity).
    destruct (advance_spec values pt (proj2 Hpt) (skipn idx values) idx sum eq_refl Hi Hs)
      as (idx' & sum' & Ea & Hs' & Hi' & Hge & Hlt).
    rewrite Ea. cbn [bind].
    assert (Hall : forall i, (i < idx')%nat -> csum values i < pt).
    { intros i Hi2. destruct (Nat.lt_ge_cases i idx) as [L|L]; [apply Hlow; [rewrite Esk; left; reflexivity|exact L]|].
      apply Hlt. lia. }
    assert (Hpos : exists k, idx' = S k).
    { destruct idx' as [|k]; [|eauto]. unfold csum in Hge. simpl in Hge. lra. }
    destruct Hpos as [k ->].
    assert (Hk : (k < length population)%nat) by lia.
    unfold py_prev. destruct (nth_error population k) as [x|] eqn:Ex; [|apply nth_error_None in Ex; lia].
    cbn [bind].
    destruct (IH (S j) (S k) sum') as (idxs & out & s' & Hrun & Hat & Hch & Hfin).
    + rewrite Esk in Hpts. rewrite Esk'. inversion Hpts. assumption.
    + lia.
    + lia.
    + exact Hs'.
    + intros p i Hp Hi2. rewrite Esk' in Hp.
      assert (Hle : pt <= p).
      { assert (Hss : StronglySorted Qle (pt :: l2)).
        { rewrite El in Hsort. clear - Hsort. induction l1 as [|y l1 IHl]; [exact Hsort|].
          inversion Hsort; subst. apply IHl. assumption. }
        inversion Hss as [|? ? _ Hf]; subst. rewrite Forall_forall in Hf. apply Hf, Hp. }
      specialize (Hall i Hi2). lra.
    + rewrite Hrun. cbn [bind]. exists (k :: idxs), (x :: out), s'.
      split; [reflexivity|]. split; [constructor; assumption|]. split; [|exact Hfin].
      rewrite Esk. constructor; [|rewrite <- Esk'; exact Hch].
      split; [lia|]. split; [apply Hall; lia|exact Hge].
Qed.
End Pass.

(** counting points in an interval *)
Lemma count_le_seq (z : Z) (n : nat) : (-1 <= z < Z.of_nat n)%Z ->
  Z.of_nat (length (filter (fun i => Z.leb (Z.of_nat i) z) (seq 0 n))) = (z + 1)%Z.
Proof.
  induction n as [|n IH]; intros Hz; [simpl; lia|].
  rewrite seq_S, filter_app, app_length. cbn [filter Nat.add].
  destruct (Z.leb_spec (Z.of_nat n) z).
  - assert (E : filter (fun i => Z.leb (Z.of_nat i) z) (seq 0 n) = seq 0 n).
    { assert (F : forall i, In i (seq 0 n) -> Z.leb (Z.of_nat i) z = true).
      { intros i Hi. apply in_seq in Hi. apply Z.leb_le. lia. }
      revert F. generalize (seq 0 n). intros l. induction l as [|y l IHl]; intros F; [reflexivity|].
      cbn [filter]. rewrite (F y (or_introl eq_refl)). f_equal. apply IHl. intros i Hi. apply F. right. exact Hi. }
    rewrite E, seq_length. cbn [length]. lia.
  - cbn [length]. rewrite Nat.add_0_r. apply IH. lia.
Qed.

Lemma count_between (x y : Z) (n : nat) : (-1 <= x <= y)%Z -> (y < Z.of_nat n)%Z ->
  Z.of_nat (length (filter (fun i => Z.ltb x (Z.of_nat i) && Z.leb (Z.of_nat i) y)%bool (seq 0 n))) = (y - x)%Z.
Proof.
  intros Hx Hy.
  assert (E : forall l : list nat,
    (length (filter (fun i => Z.leb (Z.of_nat i) x) l) +
     length (filter (fun i => Z.ltb x (Z.of_nat i) && Z.leb (Z.of_nat i) y)%bool l))%nat =
     length (filter (fun i => Z.leb (Z.of_nat i) y) l)).
  { induction l as [|i l IH]; [reflexivity|]. cbn [filter].
    destruct (Z.leb_spec (Z.of_nat i) x), (Z.ltb_spec x (Z.of_nat i)), (Z.leb_spec (Z.of_nat i) y);
      cbn [andb length]; lia. }
  specialize (E (seq 0 n)). assert (H1 := count_le_seq x n ltac:(lia)). assert (H2 := count_le_seq y n ltac:(lia)).
  lia.
Qed.

Lemma floor_le_iff q z : inject_Z z <= q <-> (z <= Qfloor q)%Z.
Proof.
  split; intros H.
  - assert (G := Qfloor_resp_le _ _ H). rewrite Qfloor_Z in G. exact G.
  - apply Qle_trans with (inject_Z (Qfloor q)); [rewrite <- Zle_Qle; exact H|apply Qfloor_le].
Qed.
Lemma floor_lt_iff q z : q < inject_Z z <-> (Qfloor q < z)%Z.
Proof.
  split; intros H.
  - destruct (Z.lt_ge_cases (Qfloor q) z) as [|G]; [assumption|]. apply floor_le_iff in G. lra.
  - destruct (Qlt_le_dec q (inject_Z z)) as [|G]; [assumption|]. apply floor_le_iff in G. lia.
Qed.

Lemma floor_diff x y d : y == x + d ->
  (Qfloor y - Qfloor x = Qfloor d \/ Qfloor y - Qfloor x = Qceiling d)%Z.
Proof.
  intros E.
  assert (L1 : (Qfloor d + Qfloor x <= Qfloor y)%Z).
  { apply floor_le_iff. rewrite inject_Z_plus. assert (A := Qfloor_le d). assert (B := Qfloor_le x). lra. }
  assert (L2 : (Qfloor y <= Qceiling d + Qfloor x)%Z).
  { assert (G : (Qfloor y < Qceiling d + Qfloor x + 1)%Z); [|lia].
    apply floor_lt_iff. rewrite !inject_Z_plus. assert (A := Qle_ceiling d). assert (B := Qlt_floor x).
    rewrite inject_Z_plus in B. lra. }
  assert (L3 : (Qceiling d <= Qfloor d + 1)%Z).
  { unfold Qceiling. assert (G : (Qfloor (-d) > - (Qfloor d + 1) - 1)%Z); [|lia].
    apply Z.lt_gt. apply Z.lt_le_trans with (- (Qfloor d + 1))%Z; [lia|]. apply floor_le_iff.
    rewrite inject_Z_opp, inject_Z_plus. assert (A := Qlt_floor d). rewrite inject_Z_plus in A. lra. }
  lia.
Qed.

Lemma chosen_unique values pt k k' : nonneg values ->
  csum values k < pt -> pt <= csum values (S k) -> chosen values pt k' -> k = k'.
Proof.
  intros Hn H1 H2 (_ & H3 & H4).
  destruct (Nat.lt_trichotomy k k') as [L|[L|L]]; [|exact L|].
  - assert (csum values (S k) <= csum values k') by (apply csum_mono; [assumption|lia]). lra.
  - assert (csum values (S k') <= csum values k) by (apply csum_mono; [assumption|lia]). lra.
Qed.

Lemma copies_filter values : nonneg values -> forall pts idxs k, Forall2 (chosen values) pts idxs ->
  count_occ Nat.eq_dec idxs k =
  length (filter (fun p => Qltb (csum values k) p && Qle_bool p (csum values (S k)))%bool pts).
Proof.
  intros Hn pts idxs k H. induction H as [|p i pts idxs Hc H IH]; [reflexivity|].
  cbn [count_occ filter]. destruct (Nat.eq_dec i k) as [->|Hne].
  - destruct Hc as (H1 & H2 & H3). apply Qltb_spec in H2. apply Qle_bool_iff in H3. rewrite H2, H3.
    cbn [andb length]. rewrite IH. reflexivity.
  - destruct (Qltb (csum values k) p) eqn:E1; [|exact IH].
    destruct (Qle_bool p (csum values (S k))) eqn:E2; [|exact IH].
    apply Qltb_spec in E1. apply Qle_bool_iff in E2. exfalso. apply Hne. symmetry.
    eapply chosen_unique; eassumption.
Qed.

Lemma filter_map_length {A B} (f : A -> B) (g : B -> bool) l :
  length (filter g (map f l)) = length (filter (fun x => g (f x)) l).
Proof. induction l as [|x l IH]; [reflexivity|]. simpl. destruct (g (f x)); simpl; rewrite IH; reflexivity. Qed.

Lemma filter_ext_length {A} (f g : A -> bool) l : (forall x, In x l -> f x = g x) ->
  length (filter f l) = length (filter g l).
Proof.
  intros H. induction l as [|x l IH]; [reflexivity|]. simpl.
  rewrite (H x (or_introl eq_refl)). destruct (g x); simpl; rewrite IH; auto; intros y Hy; apply H; right; exact Hy.
Qed.

Lemma points_between start s n a b : 0 < s -> 0 < start <= s -> 0 <= a -> a <= b -> b <= inject_Z (Z.of_nat n) * s ->
  Z.of_nat (length (filter (fun p => Qltb a p && Qle_bool p b)%bool (sus_mk_points start s n)))
  = (Qfloor ((b - start) / s) - Qfloor ((a - start) / s))%Z.
Proof.
  intros Hs Hst Ha Hab Hb.
  assert (Hi : forall c i, (start + inject_Z (Z.of_nat i) * s <= c <-> (Z.of_nat i <= Qfloor ((c - start) / s))%Z)).
  { intros c i. rewrite <- floor_le_iff. split; intros H.
    - apply Qle_shift_div_l; [exact Hs|]. lra.
    - assert (G : inject_Z (Z.of_nat i) * s <= (c - start) / s * s) by (apply Qmult_le_compat_r; lra).
      assert (E : (c - start) / s * s == c - start) by (field; lra). lra. }
  unfold sus_mk_points. rewrite filter_map_length.
  assert (H1 : (-1 <= Qfloor ((a - start) / s))%Z).
  { apply floor_le_iff. apply Qle_shift_div_l; [exact Hs|]. change (inject_Z (-1)) with (-(1)). lra. }
  assert (H2 : (Qfloor ((a - start) / s) <= Qfloor ((b - start) / s))%Z).
  { apply Qfloor_resp_le. apply Qmult_le_compat_r; [lra|]. apply Qlt_le_weak, Qinv_lt_0_compat, Hs. }
  assert (H3 : (Qfloor ((b - start) / s) < Z.of_nat n)%Z).
  { apply floor_lt_iff. apply Qlt_shift_div_r; [exact Hs|]. lra. }
  rewrite <- (count_between _ _ n (conj H1 H2) H3). f_equal. apply filter_ext_length. intros i _.
  f_equal.
  - destruct (Qltb a (start + inject_Z (Z.of_nat i) * s)) eqn:E.
    + symmetry. apply Z.ltb_lt. apply Qltb_spec in E.
      destruct (Z.lt_ge_cases (Qfloor ((a - start) / s)) (Z.of_nat i)) as [|G]; [assumption|].
      apply Hi in G. lra.
    + symmetry. apply Z.ltb_ge. apply Qltb_false in E. apply Hi. exact E.
  - destruct (Qle_bool (start + inject_Z (Z.of_nat i) * s) b) eqn:E.
    + symmetry. apply Z.leb_le. apply Qle_bool_iff in E. apply Hi. exact E.
    + symmetry. apply Z.leb_gt. destruct (Z.lt_ge_cases (Qfloor ((b - start) / s)) (Z.of_nat i)) as [|G]; [assumption|].
      apply Hi in G. apply Qle_bool_iff in G. congruence.
Qed.

Lemma points_sorted start s n : 0 <= s -> StronglySorted Qle (sus_mk_points start s n).
Proof.
  intros Hs. unfold sus_mk_points. generalize 0%nat. induction n as [|n IH]; intros k; [constructor|].
  cbn [seq map]. constructor; [apply IH|]. rewrite Forall_forall. intros p Hp. apply in_map_iff in Hp.
  destruct Hp as (i & <- & Hi). apply in_seq in Hi.
  assert (G : inject_Z (Z.of_nat k) <= inject_Z (Z.of_nat i)) by (rewrite <- Zle_Qle; lia).
  assert (inject_Z (Z.of_nat k) * s <= inject_Z (Z.of_nat i) * s) by (apply Qmult_le_compat_r; lra). lra.
Qed.

Lemma spacing_facts values n : 0 < Qsum values -> (1 <= n)%nat ->
  0 < sus_spacing values n /\ inject_Z (Z.of_nat n) * sus_spacing values n == Qsum values.
Proof.
  intros Ht Hn. unfold sus_spacing.
  assert (Hp : 0 < inject_Z (Z.of_nat n)) by (change 0 with (inject_Z 0); rewrite <- Zlt_Qlt; lia).
  split; [apply Qlt_shift_div_l; [exact Hp|]; lra|]. field. lra.
Qed.

Lemma points_bounds values n start : 0 < Qsum values -> (1 <= n)%nat -> 0 < start <= sus_spacing values n ->
  Forall (fun p => 0 < p <= Qsum values) (sus_mk_points start (sus_spacing values n) n).
Proof.
  intros Ht Hn Hs. destruct (spacing_facts values n Ht Hn) as [Hsp Hmul].
  unfold sus_mk_points. rewrite Forall_forall. intros p Hp. apply in_map_iff in Hp.
  destruct Hp as (i & <- & Hi). apply in_seq in Hi.
  set (s := sus_spacing values n) in *.
  assert (G0 : 0 <= inject_Z (Z.of_nat i)) by (change 0 with (inject_Z 0); rewrite <- Zle_Qle; lia).
  assert (G : inject_Z (Z.of_nat i) + 1 <= inject_Z (Z.of_nat n)).
  { change 1 with (inject_Z 1). rewrite <- inject_Z_plus, <- Zle_Qle. lia. }
  assert (H1 : 0 <= inject_Z (Z.of_nat i) * s) by (apply Qmult_le_0_compat; lra).
  assert (H2 : (inject_Z (Z.of_nat i) + 1) * s <= inject_Z (Z.of_nat n) * s) by (apply Qmult_le_compat_r; lra).
  split; [lra|]. assert (E : (inject_Z (Z.of_nat i) + 1) * s == inject_Z (Z.of_nat i) * s + s) by ring. lra.
Qed.

Lemma F2_length {A B} (R : A -> B -> Prop) l l' : Forall2 R l l' -> length l = length l'.
Proof. induction 1; simpl; congruence. Qed.

Lemma total_Qsum values : total values = Qsum values.
Proof. reflexivity. Qed.

Lemma chosen_fair values n start idxs : nonneg values -> 0 < Qsum values -> (1 <= n)%nat ->
  0 < start <= sus_spacing values n ->
  Forall2 (chosen values) (sus_mk_points start (sus_spacing values n) n) idxs ->
  fair_pass n values idxs.
Proof.
  intros Hn Ht H1 Hst Hc.
  destruct (spacing_facts values n Ht H1) as [Hsp Hmul].
  split; [|split].
  - rewrite <- (F2_length _ _ _ Hc). unfold sus_mk_points. rewrite map_length, seq_length. reflexivity.
  - assert (Hss := points_sorted start (sus_spacing values n) n ltac:(lra)).
    revert idxs Hc Hss. generalize (sus_mk_points start (sus_spacing values n) n). clear - Hn.
    intros pts idxs H. induction H as [|p i pts idxs Hc H IH]; intros Hss; [constructor|].
    inversion Hss as [|? ? Hss' Hf]; subst. constructor; [apply IH, Hss'|].
    rewrite Forall_forall in *. intros j Hj.
    assert (Hex : exists q, In q pts /\ chosen values q j).
    { clear - H Hj. induction H as [|q k pts idxs Hq H IH]; [destruct Hj|].
      destruct Hj as [->|Hj]; [exists q; split; [left; reflexivity|exact Hq]|].
      destruct (IH Hj) as (r & Hr & Hrj). exists r. split; [right; exact Hr|exact Hrj]. }
    destruct Hex as (q & Hq & (_ & J1 & J2)). specialize (Hf q Hq). destruct Hc as (_ & K1 & K2).
    destruct (Nat.le_gt_cases i j) as [|G]; [assumption|].
    assert (csum values (S j) <= csum values i) by (apply csum_mono; [assumption|lia]). lra.
  - intros k Hk.
    assert (Hk' : exists v, nth_error values k = Some v /\ nth k values 0 = v).
    { destruct (nth_error values k) as [v|] eqn:E; [|apply nth_error_None in E; lia].
      exists v. split; [reflexivity|]. apply nth_error_nth, E. }
    destruct Hk' as (v & Ev & Env).
    assert (Hc0 : 0 <= csum values k) by (assert (G := csum_mono values 0 k Hn ltac:(lia)); exact G).
    assert (Hle : csum values k <= csum values (S k)) by (apply csum_mono; [assumption|lia]).
    assert (Hmax : csum values (S k) <= inject_Z (Z.of_nat n) * sus_spacing values n).
    { rewrite Hmul, <- (csum_all values (length values)) by lia. apply csum_mono; [assumption|lia]. }
    assert (Hcnt : copies k idxs =
      (Qfloor ((csum values (S k) - start) / sus_spacing values n) - Qfloor ((csum values k - start) / sus_spacing values n))%Z).
    { unfold copies. rewrite (copies_filter values Hn _ _ k Hc). apply points_between; assumption. }
    assert (Hexp : (csum values (S k) - start) / sus_spacing values n ==
      (csum values k - start) / sus_spacing values n + expected_copies n values k).
    { unfold expected_copies. rewrite total_Qsum, Env, (csum_S _ _ _ Ev), <- Hmul. field. split; [lra|].
      assert (0 < inject_Z (Z.of_nat n)) by (change 0 with (inject_Z 0); rewrite <- Zlt_Qlt; lia). lra. }
    assert (Hfd := floor_diff _ _ _ Hexp).
    rewrite Hcnt. split; [exact Hfd|]. rewrite Env. intros Hv0.
    assert (E0 : expected_copies n values k == 0).
    { unfold expected_copies. rewrite Env, Hv0. unfold Qdiv. ring. }
    rewrite E0 in Hfd. exact (match Hfd with or_introl H => H | or_intror H => H end).
Qed.

Lemma any_negative_spec values : any_negative values = false <-> nonneg values.
Proof.
  unfold any_negative, nonneg. rewrite Forall_forall. split.
  - intros H v Hv. apply Qltb_false. destruct (Qltb v 0) eqn:E; [|reflexivity].
    assert (existsb (fun v => Qltb v 0) values = true) by (apply existsb_exists; eauto). congruence.
  - intros H. destruct (existsb (fun v => Qltb v 0) values) eqn:E; [|reflexivity].
    apply existsb_exists in E. destruct E as (v & Hv & Hlt). apply Qltb_spec in Hlt. specialize (H v Hv). lra.
Qed.

Lemma sus_pulls_app {A} (population : list A) shuffle d1 : forall d2 s,
  sus_pulls population shuffle (d1 ++ d2) s =
  bind (sus_pulls population shuffle d1 s) (fun '(x, s') =>
  bind (sus_pulls population shuffle d2 s') (fun '(y, s'') => Ok (x ++ y, s''))).
Proof.
  induction d1 as [|d d1 IH]; intros d2 s; cbn [sus_pulls app bind].
  - destruct (sus_pulls population shuffle d2 s) as [[y s'']|e]; reflexivity.
  - destruct (sus_pull population shuffle d s) as [[x s']|e]; cbn [bind]; [|reflexivity].
    rewrite IH. destruct (sus_pulls population shuffle d1 s') as [[x' s2]|e]; cbn [bind]; [|reflexivity].
    destruct (sus_pulls population shuffle d2 s2) as [[y s3]|e]; reflexivity.
Qed.

(** the first pull of a new pass behaves as in a reset state *)
Lemma sus_pulls_reset {A} (population : list A) shuffle d draws s :
  sus_sel s = length (sus_points s) -> (1 <= sus_n s)%nat -> length (sus_points s) = sus_n s ->
  sus_pulls population shuffle (d :: draws) s =
  sus_pulls population shuffle (d :: draws)
    (mk_sus (sus_values s) (sus_n s)
       (if shuffle then sus_mk_points d (sus_spacing (sus_values s) (sus_n s)) (sus_n s) else sus_points s)
       0 0 0).
Proof.
  intros Hsel Hn Hlen. cbn [sus_pulls]. f_equal. unfold sus_pull. rewrite Hsel, Nat.eqb_refl.
  cbn [sus_sel sus_points sus_values sus_n sus_pop sus_sum].
  destruct (Nat.eqb_spec 0 (length (if shuffle then sus_mk_points d (sus_spacing (sus_values s) (sus_n s)) (sus_n s) else sus_points s))) as [E|_].
  - destruct shuffle; [unfold sus_mk_points in E; rewrite map_length, seq_length in E|]; lia.
  - reflexivity.
Qed.

(** a pass that starts at 0: population[-1], then the points of the pass that starts at the spacing, without its last one *)
Lemma chosen_eq values p q k : p == q -> chosen values p k -> chosen values q k.
Proof. intros E (H1 & H2 & H3). split; [exact H1|]. rewrite <- E. split; assumption. Qed.
Lemma zero_pass {A} (population : list A) shuffle values n start ds : length population = length values ->
  nonneg values -> 0 < Qsum values -> (1 <= n)%nat -> start == 0 -> length ds = n ->
  exists idxs out s',
    sus_pulls population shuffle ds (mk_sus values n (sus_mk_points start (sus_spacing values n) n) 0 0 0) = Ok (out, s') /\
    at_positions population idxs out /\ last_first n values idxs /\
    sus_values s' = values /\ sus_n s' = n /\ sus_points s' = sus_mk_points start (sus_spacing values n) n /\ sus_sel s' = n.
Proof.
  intros Hlen Hnn Ht Hn Hz Hds. destruct (spacing_facts values n Ht Hn) as [Hsp Hmul]. set (sp := sus_spacing values n) in *.
  destruct n as [|m]; [lia|]. destruct ds as [|d ds]; [discriminate|]. set (pts := sus_mk_points start sp (S m)).
  assert (Hpl : length pts = S m) by (unfold pts, sus_mk_points; rewrite map_length, seq_length; reflexivity).
  assert (P1 : pts = (start + inject_Z (Z.of_nat 0) * sp) :: map (fun i => start + inject_Z (Z.of_nat i) * sp) (seq 1 m)) by reflexivity.
  assert (V : values <> []) by (intros E; rewrite E in Ht; cbn in Ht; lra).
  assert (Lv : (1 <= length values)%nat) by (destruct values; [contradiction|cbn; lia]).
  cbn [sus_pulls]. unfold sus_pull. cbn [sus_sel sus_points sus_values sus_n sus_pop sus_sum]. rewrite Hpl. cbn [Nat.eqb]. cbn [sus_sel sus_points sus_values sus_n sus_pop sus_sum].
  replace (nth_error pts 0) with (Some (start + inject_Z (Z.of_nat 0) * sp)) by (rewrite P1; reflexivity).
  assert (Q0 : Qltb 0 (start + inject_Z (Z.of_nat 0) * sp) = false) by (apply Qltb_false; rewrite Hz; change (inject_Z (Z.of_nat 0)) with 0; lra).
  assert (E0 : forall rest, sus_advance rest 0 0 (start + inject_Z (Z.of_nat 0) * sp) = Ok (0%nat, 0)) by (intros [|v r]; cbn [sus_advance]; rewrite Q0; reflexivity).
  rewrite E0. cbn [bind]. unfold py_prev. destruct (nth_error population (length population - 1)) as [x|] eqn:Ex; [|apply nth_error_None in Ex; lia]. cbn [bind].
  assert (N : forall i, (1 <= i <= m)%nat -> 0 < start + inject_Z (Z.of_nat i) * sp <= Qsum values).
  { intros i Hi. assert (G1 : 1 <= inject_Z (Z.of_nat i)) by (change 1 with (inject_Z 1); rewrite <- Zle_Qle; lia).
    assert (G2 : inject_Z (Z.of_nat i) <= inject_Z (Z.of_nat (S m))) by (rewrite <- Zle_Qle; lia).
    assert (1 * sp <= inject_Z (Z.of_nat i) * sp) by (apply Qmult_le_compat_r; lra).
    assert (inject_Z (Z.of_nat i) * sp <= inject_Z (Z.of_nat (S m)) * sp) by (apply Qmult_le_compat_r; lra). rewrite Hz. lra. }
  destruct (pass_from population values shuffle (S m) Hlen pts (points_sorted _ _ _ (Qlt_le_weak _ _ Hsp)) ds 1 0 0) as (idxs & out & s' & Hrun & Hat & Hch & Hv & Hn1 & Hp1 & Hs1).
  - rewrite P1. cbn [skipn]. apply Forall_forall. intros p Hp. apply in_map_iff in Hp. destruct Hp as (i & <- & Hi). apply in_seq in Hi. apply N. lia.
  - cbn [length] in Hds. lia.
  - lia.
  - reflexivity.
  - intros p i _ Hi. lia.
  - rewrite Hrun. cbn [bind]. exists ((length values - 1)%nat :: idxs), (x :: out), s'. split; [reflexivity|].
    split; [constructor; [rewrite <- Hlen; exact Ex|exact Hat]|]. split; [|rewrite Hs1; auto].
    destruct (advance_spec values (Qsum values) (Qle_refl _) values 0 0 eq_refl ltac:(lia) ltac:(reflexivity)) as (idx & sum & _ & _ & Hi & Hge & Hlt).
    destruct idx as [|k]; [unfold csum in Hge; cbn in Hge; lra|].
    exists idxs, k. split; [reflexivity|].
    assert (Hk : csum values (S k) == csum values k + nth k values 0) by (apply csum_S; apply nth_error_nth'; lia).
    assert (Hkt : csum values k < Qsum values) by (apply Hlt; lia).
    assert (Hall : csum values (length values) == Qsum values) by (rewrite csum_all by lia; reflexivity).
    split; [lra|]. split.
    { intros j Hj. assert (Hs : csum values (S j) == csum values j + nth j values 0) by (apply csum_S; apply nth_error_nth'; lia).
      pose proof (csum_mono values (S k) j Hnn ltac:(lia)). pose proof (csum_mono values (S j) (length values) Hnn ltac:(lia)).
      assert (0 <= nth j values 0) by (unfold nonneg in Hnn; rewrite Forall_forall in Hnn; apply Hnn; apply nth_In; lia). lra. }
    apply (chosen_fair values (S m) sp); [assumption|assumption|lia|fold sp; lra|]. fold sp.
    unfold sus_mk_points. rewrite seq_S, map_app. cbn [Nat.add map]. apply Forall2_app.
    + rewrite P1 in Hch. cbn [skipn] in Hch. clear - Hch Hz. revert idxs Hch.
      assert (K : forall c a idxs, Forall2 (chosen values) (map (fun i => start + inject_Z (Z.of_nat i) * sp) (seq (S a) c)) idxs ->
        Forall2 (chosen values) (map (fun i => sp + inject_Z (Z.of_nat i) * sp) (seq a c)) idxs).
      { clearbody sp. clear m. induction c as [|c IH]; intros a idxs H; cbn [seq map] in *; inversion H as [|? ? ? ? Hc Hcs]; subst; constructor; [|apply IH; assumption].
        refine (chosen_eq _ _ _ _ _ Hc). rewrite Hz. replace (Z.pos (Pos.of_succ_nat a)) with (Z.of_nat a + 1)%Z by lia. rewrite inject_Z_plus. change (inject_Z 1) with 1. ring. }
      intros idxs. apply K.
    + constructor; [|constructor]. refine (chosen_eq _ (Qsum values) _ _ _ _).
      * rewrite <- Hmul. replace (Z.of_nat (S m)) with (Z.of_nat m + 1)%Z by lia. rewrite inject_Z_plus. change (inject_Z 1) with 1. ring.
      * split; [lia|]. split; [apply Hlt; lia|exact Hge].
Qed.

Lemma sus_passes {A} (population : list A) shuffle values n : length population = length values ->
  nonneg values -> 0 < Qsum values -> (1 <= n)%nat ->
  forall passes start,
  0 <= start < sus_spacing values n ->
  Forall (fun ds => length ds = n /\ Forall (fun d => 0 <= d < sus_spacing values n) ds) passes ->
  exists out s' idxss,
    sus_pulls population shuffle (concat passes)
      (mk_sus values n (sus_mk_points start (sus_spacing values n) n) 0 0 0) = Ok (out, s') /\
    Forall2 (fun st idxs => (0 < st -> fair_pass n values idxs) /\ (st == 0 -> last_first n values idxs)) (starts_used shuffle start passes) idxss /\
    at_positions population (concat idxss) out.
Proof.
  intros Hlen Hnn Ht Hn. destruct (spacing_facts values n Ht Hn) as [Hsp _].
  induction passes as [|ds passes IH]; intros start Hst Hp.
  - exists [], (mk_sus values n (sus_mk_points start (sus_spacing values n) n) 0 0 0), [].
    split; [reflexivity|]. split; constructor.
  - inversion Hp as [|? ? [Hds Hd] Hps]. subst x l.
    set (pts := sus_mk_points start (sus_spacing values n) n).
    assert (Hpl : length pts = n) by (unfold pts, sus_mk_points; rewrite map_length, seq_length; reflexivity).
    assert (Hfirst : exists idxs out s1, sus_pulls population shuffle ds (mk_sus values n pts 0 0 0) = Ok (out, s1) /\ at_positions population idxs out /\
      ((0 < start -> fair_pass n values idxs) /\ (start == 0 -> last_first n values idxs)) /\
      sus_values s1 = values /\ sus_n s1 = n /\ sus_points s1 = pts /\ sus_sel s1 = n).
    { destruct (Qlt_le_dec 0 start) as [H0 | H0].
      - destruct (pass_from population values shuffle n Hlen pts
                (points_sorted _ _ _ (Qlt_le_weak _ _ Hsp)) ds 0 0 0)
          as (idxs & out & s1 & Hrun & Hat & Hch & Hv & Hn1 & Hp1 & Hs1).
        + apply (points_bounds values n start); [assumption|assumption|lra].
        + lia.
        + lia.
        + reflexivity.
        + intros p i _ Hi. lia.
        + exists idxs, out, s1. split; [exact Hrun|]. split; [exact Hat|]. split; [|rewrite Hs1; auto]. split; [|lra]. intros _. apply (chosen_fair values n start); try assumption. lra.
      - assert (Hz : start == 0) by lra. destruct (zero_pass population shuffle values n start ds Hlen Hnn Ht Hn Hz Hds) as (idxs & out & s1 & Hrun & Hat & Hl & Hrest).
        exists idxs, out, s1. split; [exact Hrun|]. split; [exact Hat|]. split; [|exact Hrest]. split; [lra|auto]. }
    destruct Hfirst as (idxs & out & s1 & Hrun & Hat & Hfair & Hv & Hn1 & Hp1 & Hs1).
    cbn [concat]. rewrite sus_pulls_app, Hrun. cbn [bind].
    assert (Hrest : exists out' s' idxss, sus_pulls population shuffle (concat passes) s1 = Ok (out', s') /\
       Forall2 (fun st idxs => (0 < st -> fair_pass n values idxs) /\ (st == 0 -> last_first n values idxs))
         (if shuffle then map (hd 0) passes else map (fun _ => start) passes) idxss /\ at_positions population (concat idxss) out').
    { destruct passes as [|ds2 passes]; [exists [], s1, []; split; [reflexivity|]; destruct shuffle; split; constructor|].
      inversion Hps as [|? ? [Hds2 Hd2] _].
      destruct ds2 as [|d2 ds2]; [simpl in Hds2; lia|].
      cbn [concat app]. rewrite sus_pulls_reset by (rewrite ?Hs1, ?Hp1, ?Hn1; lia || reflexivity).
      rewrite Hv, Hn1, Hp1. destruct shuffle.
      - apply IH; [inversion Hd2; assumption|exact Hps].
      - apply IH; [exact Hst|exact Hps]. }
    destruct Hrest as (out' & s' & idxss & Hrun' & Hf' & Hat').
    rewrite Hrun'. cbn [bind]. exists (out ++ out'), s', (idxs :: idxss).
    split; [reflexivity|]. split.
    + cbn [starts_used]. constructor; assumption.
    + cbn [concat]. apply Forall2_app; assumption.
Qed.

Lemma sus_all {A} (population : list A) keys nopt off exponent start shuffle values n passes :
  length population = length keys ->
  compute_population_values keys off exponent = Ok values ->
  Forall (fun v => 0 <= v) values -> 0 < total values ->
  n = Z.to_nat (match nopt with None => Z.of_nat (length keys) | Some z => z end) -> (1 <= n)%nat ->
  let spacing := total values / inject_Z (Z.of_nat n) in
  0 <= start < spacing ->
  Forall (fun ds => length ds = n /\ Forall (fun d => 0 <= d < spacing) ds) passes ->
  exists s out s' idxss,
    sus_init keys nopt off exponent start = Ok s /\
    sus_pulls population shuffle (concat passes) s = Ok (out, s') /\
    Forall2 (fun st idxs => (0 < st -> fair_pass n values idxs) /\ (st == 0 -> last_first n values idxs)) (starts_used shuffle start passes) idxss /\
    at_positions population (concat idxss) out.
Proof.
  intros Hlen Hv Hnn Ht En Hn spacing Hst Hp.
  assert (Hl : length values = length keys).
  { unfold compute_population_values in Hv.
    destruct off; [destruct (np_min keys); cbn [bind] in Hv; [|discriminate]|cbn [bind] in Hv]; injection Hv as <-; apply map_length. }
  destruct (sus_passes population shuffle values n ltac:(lia) Hnn Ht Hn passes start Hst Hp)
    as (out & s' & idxss & Hrun & H).
  eexists _, out, s', idxss. split; [|split; [exact Hrun|exact H]].
  unfold sus_init. cbn zeta.
  destruct (Z.leb_spec (match nopt with None => Z.of_nat (length keys) | Some z => z end) 0) as [L|L]; [lia|].
  rewrite Hv. cbn [bind]. apply any_negative_spec in Hnn. rewrite Hnn, <- En. reflexivity.
Qed.

Lemma sus_ok {A} (population : list A) keys nopt off exponent start shuffle values n passes :
  length population = length keys ->
  compute_population_values keys off exponent = Ok values ->
  Forall (fun v => 0 <= v) values -> 0 < total values ->
  n = Z.to_nat (match nopt with None => Z.of_nat (length keys) | Some z => z end) -> (1 <= n)%nat ->
  let spacing := total values / inject_Z (Z.of_nat n) in
  0 < start < spacing ->
  Forall (fun ds => length ds = n /\ Forall (fun d => 0 < d < spacing) ds) passes ->
  exists s out s' idxss,
    sus_init keys nopt off exponent start = Ok s /\
    sus_pulls population shuffle (concat passes) s = Ok (out, s') /\
    length idxss = length passes /\ Forall (fair_pass n values) idxss /\
    at_positions population (concat idxss) out.
Proof.
  intros Hlen Hv Hnn Ht En Hn spacing Hst Hp.
  assert (Hp0 : Forall (fun ds => length ds = n /\ Forall (fun d => 0 <= d < spacing) ds) passes).
  { revert Hp. apply Forall_impl. intros ds (H1 & H2). split; [exact H1|]. revert H2. apply Forall_impl. intros d. lra. }
  assert (Hst0 : 0 <= start < spacing) by lra.
  destruct (sus_all population keys nopt off exponent start shuffle values n passes Hlen Hv Hnn Ht En Hn Hst0 Hp0) as (s & out & s' & idxss & H1 & H2 & H3 & H4).
  exists s, out, s', idxss. split; [exact H1|]. split; [exact H2|].
  assert (Hu : Forall (fun st => 0 < st) (starts_used shuffle start passes)).
  { destruct passes as [|ds passes]; [constructor|]. cbn [starts_used]. inversion Hp as [|? ? _ Hps]. subst. constructor; [lra|]. destruct shuffle; apply Forall_forall; intros st Hin; apply in_map_iff in Hin.
    - destruct Hin as (ds' & <- & Hin). rewrite Forall_forall in Hps. destruct (Hps ds' Hin) as (L & F). destruct ds' as [|d ds']; [cbn in L; lia|]. inversion F as [|? ? G _]. cbn. lra.
    - destruct Hin as (ds' & <- & _). lra. }
  split; [|split; [|exact H4]].
  - apply F2_length in H3. rewrite <- H3. destruct passes; [reflexivity|]. cbn [starts_used length]. destruct shuffle; rewrite map_length; reflexivity.
  - clear - H3 Hu. induction H3 as [|st idxs sts idxss (Hf & _) H3 IH]; [constructor|]. inversion Hu; subst. constructor; [apply Hf; assumption|apply IH; assumption].
Qed.

(** if the last individual counts, a start at 0 only moves it to the front *)
Lemma last_first_counts n values idxs : 0 < nth (length values - 1) values 0 -> last_first n values idxs -> fair_counts n values idxs.
Proof.
  intros Hl (idxs' & k & -> & Hk & Hz & (L & _ & C)).
  assert (E : (k = length values - 1)%nat).
  { destruct (Nat.lt_trichotomy k (length values - 1)) as [H | [H | H]]; [|exact H|].
    - specialize (Hz (length values - 1)%nat ltac:(lia)). lra.
    - destruct values as [|v vs]; [destruct k; cbn in Hk; lra|]. rewrite nth_overflow in Hk by lia. lra. }
  subst k. split; [rewrite app_length in L; cbn [length] in *; lia|].
  intros j Hj. specialize (C j Hj). assert (K : copies j ((length values - 1)%nat :: idxs') = copies j (idxs' ++ [(length values - 1)%nat])).
  { unfold copies. rewrite count_occ_app. cbn [count_occ]. destruct (Nat.eq_dec (length values - 1) j); lia. }
  rewrite K. exact C.
Qed.

Lemma sus_shares {A} (population : list A) keys nopt off exponent start shuffle values n passes :
  length population = length keys ->
  compute_population_values keys off exponent = Ok values ->
  Forall (fun v => 0 <= v) values -> 0 < nth (length values - 1) values 0 ->
  n = Z.to_nat (match nopt with None => Z.of_nat (length keys) | Some z => z end) -> (1 <= n)%nat ->
  let spacing := total values / inject_Z (Z.of_nat n) in
  0 <= start < spacing ->
  Forall (fun ds => length ds = n /\ Forall (fun d => 0 <= d < spacing) ds) passes ->
  exists s out s' idxss,
    sus_init keys nopt off exponent start = Ok s /\
    sus_pulls population shuffle (concat passes) s = Ok (out, s') /\
    length idxss = length passes /\ Forall (fair_counts n values) idxss /\
    at_positions population (concat idxss) out.
Proof.
  intros Hlen Hv Hnn Hl En Hn spacing Hst Hp.
  assert (Ht : 0 < total values).
  { assert (0 <= nth (length values - 1) values 0 <= Qsum values); [|change (total values) with (Qsum values); lra].
    destruct values as [|v0 vs0]; [cbn in Hl; lra|]. set (vs := v0 :: vs0) in *. split; [lra|].
    assert (E1 : csum vs (S (length vs - 1)) == csum vs (length vs - 1) + nth (length vs - 1) vs 0) by (apply csum_S; apply nth_error_nth'; cbn; lia).
    pose proof (csum_mono vs 0 (length vs - 1) Hnn ltac:(lia)) as M. rewrite csum_all in E1 by (cbn; lia).
    unfold csum in M at 1. cbn [firstn Qsum fold_right] in M. lra. }
  destruct (sus_all population keys nopt off exponent start shuffle values n passes Hlen Hv Hnn Ht En Hn Hst Hp) as (s & out & s' & idxss & H1 & H2 & H3 & H4).
  exists s, out, s', idxss. split; [exact H1|]. split; [exact H2|].
  assert (Hu : Forall (fun st => 0 <= st) (starts_used shuffle start passes)).
  { destruct passes as [|ds passes]; [constructor|]. cbn [starts_used]. inversion Hp as [|? ? _ Hps]. subst. constructor; [lra|]. destruct shuffle; apply Forall_forall; intros st Hin; apply in_map_iff in Hin.
    - destruct Hin as (ds' & <- & Hin). rewrite Forall_forall in Hps. destruct (Hps ds' Hin) as (L & F). destruct ds' as [|d ds']; [cbn in L; lia|]. inversion F as [|? ? G _]. cbn. lra.
    - destruct Hin as (ds' & <- & _). lra. }
  split; [|split; [|exact H4]].
  - apply F2_length in H3. rewrite <- H3. destruct passes; [reflexivity|]. cbn [starts_used length]. destruct shuffle; rewrite map_length; reflexivity.
  - clear - H3 Hu Hl. induction H3 as [|st idxs sts idxss (Hf & Hz) H3 IH]; [constructor|]. inversion Hu; subst. constructor; [|apply IH; assumption].
    destruct (Qlt_le_dec 0 st) as [G | G]; [|apply last_first_counts; [exact Hl|apply Hz; lra]].
    destruct (Hf G) as (L & _ & C). split; assumption.
Qed.

(** all values zero: every pull yields the last individual *)
Lemma sus_all_zero {A} (population : list A) keys nopt off exponent start shuffle values draws x n :
  length population = length keys ->
  compute_population_values keys off exponent = Ok values ->
  Forall (fun v => v == 0) values ->
  n = Z.to_nat (match nopt with None => Z.of_nat (length keys) | Some z => z end) -> (1 <= n)%nat ->
  nth_error population (length population - 1) = Some x ->
  start == 0 -> Forall (fun d => d == 0) draws ->
  exists s s', sus_init keys nopt off exponent start = Ok s /\
    sus_pulls population shuffle draws s = Ok (map (fun _ => x) draws, s').
Proof.
  intros Hlen Hv Hz En Hn Hx Hs Hd.
  assert (Hnn : nonneg values) by (revert Hz; apply Forall_impl; intros v Hv0; lra).
  assert (Ht : Qsum values == 0).
  { clear - Hz. induction Hz as [|v vs H _ IH]; [reflexivity|]. cbn [Qsum fold_right]. change (fold_right Qplus 0 vs) with (Qsum vs). rewrite H, IH. reflexivity. }
  assert (Hsp : forall st, st == 0 -> Forall (fun p => p == 0) (sus_mk_points st (sus_spacing values n) n)).
  { intros st E. unfold sus_mk_points, sus_spacing. apply Forall_forall. intros p Hp. apply in_map_iff in Hp. destruct Hp as (i & <- & _). rewrite E, Ht. unfold Qdiv. ring. }
  assert (Hlp : forall st, length (sus_mk_points st (sus_spacing values n) n) = n) by (intros; unfold sus_mk_points; rewrite map_length, seq_length; reflexivity).
  assert (K : forall draws pts sel, Forall (fun d => d == 0) draws -> Forall (fun p => p == 0) pts -> length pts = n -> (sel <= n)%nat ->
    exists s', sus_pulls population shuffle draws (mk_sus values n pts sel 0 0) = Ok (map (fun _ => x) draws, s')).
  { clear Hd. induction draws0 as [|d ds IH]; intros pts sel Hd Hp Lp Hsel; [exists (mk_sus values n pts sel 0 0); reflexivity|].
    pose proof (Forall_inv Hd) as Ed. pose proof (Forall_inv_tail Hd) as Hds. cbv beta in Ed.
    assert (P : exists pts' sel', sus_pull population shuffle d (mk_sus values n pts sel 0 0) = Ok (x, mk_sus values n pts' sel' 0 0) /\
      Forall (fun p => p == 0) pts' /\ length pts' = n /\ (sel' <= n)%nat).
    { unfold sus_pull. cbn [sus_sel sus_points sus_values sus_n sus_pop sus_sum].
      assert (G : forall pts1 sel1, Forall (fun p => p == 0) pts1 -> length pts1 = n -> (sel1 < length pts1)%nat ->
        exists pts' sel', match nth_error pts1 sel1 with
          | None => Err IndexError
          | Some point => bind (sus_advance (skipn 0 values) 0 0 point) (fun '(idx, sum) => bind (py_prev population idx) (fun y =>
              Ok (y, mk_sus values n pts1 (S sel1) idx sum))) end = Ok (x, mk_sus values n pts' sel' 0 0) /\
          Forall (fun p => p == 0) pts' /\ length pts' = n /\ (sel' <= n)%nat).
      { intros pts1 sel1 F1 L1 S1. destruct (nth_error pts1 sel1) as [p|] eqn:Ep; [|apply nth_error_None in Ep; lia].
        assert (p == 0) by (rewrite Forall_forall in F1; apply F1; eapply nth_error_In; exact Ep).
        assert (Q0 : Qltb 0 p = false) by (apply Qltb_false; lra).
        assert (E0 : sus_advance (skipn 0 values) 0 0 p = Ok (0%nat, 0)) by (cbn [skipn]; destruct values; cbn [sus_advance]; rewrite Q0; reflexivity).
        rewrite E0. cbn [bind]. unfold py_prev. rewrite Hx. cbn [bind]. exists pts1, (S sel1). split; [reflexivity|]. split; [exact F1|]. split; [exact L1|lia]. }
      destruct (Nat.eqb_spec sel (length pts)) as [Es | N]; cbn [sus_sel sus_points sus_values sus_n sus_pop sus_sum].
      - apply G; [destruct shuffle; [apply Hsp; exact Ed|exact Hp]| |]; destruct shuffle; rewrite ?Hlp; lia.
      - apply G; [exact Hp|exact Lp|lia]. }
    destruct P as (pts' & sel' & E & F' & L' & S'). destruct (IH pts' sel' Hds F' L' S') as (s' & R).
    exists s'. cbn [sus_pulls map]. rewrite E. cbn [bind]. rewrite R. reflexivity. }
  destruct (K draws (sus_mk_points start (sus_spacing values n) n) 0%nat Hd (Hsp start Hs) (Hlp start) ltac:(lia)) as (s' & R).
  eexists _, s'. split; [|exact R]. unfold sus_init. cbn zeta.
  destruct (Z.leb_spec (match nopt with None => Z.of_nat (length keys) | Some z => z end) 0) as [L|L]; [lia|].
  rewrite Hv. cbn [bind]. apply any_negative_spec in Hnn. rewrite Hnn, <- En. reflexivity.
Qed.

Lemma sus_init_iff keys nopt off exponent start values :
  compute_population_values keys off exponent = Ok values ->
  let n := match nopt with None => Z.of_nat (length keys) | Some z => z end in
  ((exists s, sus_init keys nopt off exponent start = Ok s) <-> (1 <= n)%Z /\ Forall (fun v => 0 <= v) values) /\
  (sus_init keys nopt off exponent start = Err ValueError <-> (n <= 0)%Z \/ Exists (fun v => v < 0) values).
Proof.
  intros Hv n. unfold sus_init. cbn zeta. fold n. destruct (Z.leb_spec n 0) as [L | L].
  - split; [split; [intros (s & E); discriminate|lia]|]. split; [auto|reflexivity].
  - rewrite Hv. cbn [bind]. destruct (any_negative values) eqn:E.
    + assert (X : Exists (fun v => v < 0) values).
      { unfold any_negative in E. apply existsb_exists in E. destruct E as (v & Hin & H). apply Qltb_spec in H. apply Exists_exists. exists v. auto. }
      split; [split; [intros (s & G); discriminate|intros (_ & F)]|split; [auto|reflexivity]].
      apply Exists_exists in X. destruct X as (v & Hin & H). rewrite Forall_forall in F. specialize (F v Hin). cbv beta in F. lra.
    + assert (F : Forall (fun v => 0 <= v) values) by (apply any_negative_spec; exact E).
      split; [split; [intros _; split; [lia|exact F]|intros _; eexists; reflexivity]|]. split; [discriminate|intros [H | H]; [lia|]].
      apply Exists_exists in H. destruct H as (v & Hin & H). rewrite Forall_forall in F. specialize (F v Hin). cbv beta in F. lra.
Qed.


(** ** C17 *)
Lemma fold_min_spec l : forall x, fold_left Qmin l x <= x /\ (forall y, In y l -> fold_left Qmin l x <= y) /\
  (fold_left Qmin l x == x \/ exists y, In y l /\ fold_left Qmin l x == y).
Proof.
  induction l as [|z l IH]; intros x; cbn [fold_left].
  - split; [lra|]. split; [intros y []|left; lra].
  - destruct (IH (Qmin x z)) as (H1 & H2 & H3).
    assert (M1 := Q.le_min_l x z). assert (M2 := Q.le_min_r x z).
    split; [lra|]. split.
    + intros y [<-|Hy]; [lra|]. apply H2, Hy.
    + destruct H3 as [H3|(y & Hy & H3)].
      * destruct (Q.min_spec x z) as [[_ M]|[_ M]]; [left; lra|right; exists z; split; [left; reflexivity|lra]].
      * right. exists y. split; [right; exact Hy|exact H3].
Qed.

Lemma Qpow_nonneg q n : 0 <= q -> 0 <= q ^ Z.of_nat n.
Proof. apply Qpower_pos. Qed.

Lemma Qpow_S q n : q ^ Z.of_nat (S n) == q * q ^ Z.of_nat n.
Proof.
  rewrite Nat2Z.inj_succ. unfold Z.succ. rewrite Z.add_comm.
  destruct n as [|n]; [simpl; ring|].
  destruct (Qeq_dec q 0) as [E|E].
  - rewrite E. rewrite !Qpower_0 by lia. ring.
  - rewrite Qpower_plus by exact E. simpl (q ^ 1). ring.
Qed.

Lemma Qpow_mono a b n : 0 <= a -> a <= b -> a ^ Z.of_nat n <= b ^ Z.of_nat n.
Proof.
  intros Ha Hab. induction n as [|n IH]; [simpl; lra|]. rewrite !Qpow_S.
  apply Qle_trans with (a * b ^ Z.of_nat n).
  - rewrite !(Qmult_comm a). apply Qmult_le_compat_r; assumption.
  - apply Qmult_le_compat_r; [exact Hab|]. apply Qpow_nonneg. lra.
Qed.

Lemma Qpow_strict a b n : (1 <= n)%nat -> 0 <= a -> a < b -> a ^ Z.of_nat n < b ^ Z.of_nat n.
Proof.
  intros Hn Ha Hab. destruct n as [|n]; [lia|]. clear Hn. rewrite !Qpow_S.
  assert (Hle := Qpow_mono a b n Ha ltac:(lra)).
  assert (Hpos : 0 < b ^ Z.of_nat n).
  { clear - Ha Hab. induction n as [|n IH]; [reflexivity|]. rewrite Qpow_S. apply Qmult_lt_0_compat; [lra|exact IH]. }
  apply Qle_lt_trans with (a * b ^ Z.of_nat n).
  - rewrite !(Qmult_comm a). apply Qmult_le_compat_r; assumption.
  - apply Qmult_lt_compat_r; assumption.
Qed.

Lemma pop_min_values keys exponent : keys <> [] ->
  exists values, compute_population_values keys OffPopMin exponent = Ok values /\
    Forall (fun v => 0 <= v) values /\
    (forall i k v, nth_error keys i = Some k -> nth_error values i = Some v ->
       (1 <= exponent)%nat -> (forall k', In k' keys -> k <= k') -> v == 0) /\
    (forall i j ki kj vi vj, nth_error keys i = Some ki -> nth_error keys j = Some kj ->
       nth_error values i = Some vi -> nth_error values j = Some vj ->
       (1 <= exponent)%nat -> (ki < kj <-> vi < vj)).
Proof.
  intros Hne. destruct keys as [|x l]; [congruence|]. set (keys := x :: l).
  unfold compute_population_values. cbn [np_min keys bind]. eexists. split; [reflexivity|].
  destruct (fold_min_spec l x) as (M1 & M2 & M3). set (m := fold_left Qmin l x) in *.
  assert (Hm : forall k, In k keys -> m <= k) by (intros k [<-|Hk]; [exact M1|apply M2, Hk]).
  assert (Hmin : exists k, In k keys /\ m == k).
  { destruct M3 as [M3|(y & Hy & M3)]; [exists x; split; [left; reflexivity|exact M3]|exists y; split; [right; exact Hy|exact M3]]. }
  fold keys. split; [|split].
  - rewrite Forall_forall. intros v Hv. apply in_map_iff in Hv. destruct Hv as (k & <- & Hk).
    apply Qpow_nonneg. specialize (Hm k Hk). lra.
  - intros i k v Hk Hv He Hmink. rewrite nth_error_map, Hk in Hv. injection Hv as <-.
    destruct Hmin as (k0 & Hk0 & E0). specialize (Hmink k0 Hk0).
    assert (k + - m == 0) by (apply nth_error_In in Hk; specialize (Hm k Hk); lra).
    destruct exponent as [|e]; [lia|]. rewrite Qpow_S, H. ring.
  - intros i j ki kj vi vj Hi Hj Hvi Hvj He. rewrite nth_error_map, Hi in Hvi. rewrite nth_error_map, Hj in Hvj.
    injection Hvi as <-. injection Hvj as <-. apply nth_error_In in Hi, Hj.
    assert (A := Hm _ Hi). assert (B := Hm _ Hj). split; intros H.
    + apply Qpow_strict; [exact He|lra|lra].
    + destruct (Qlt_le_dec ki kj) as [|G]; [assumption|].
      assert ((kj + - m) ^ Z.of_nat exponent <= (ki + - m) ^ Z.of_nat exponent) by (apply Qpow_mono; lra). lra.
Qed.

Lemma offset_order keys q exponent values : compute_population_values keys (OffVal q) exponent = Ok values ->
  Forall (fun k => 0 <= k + q) keys -> (1 <= exponent)%nat ->
  Forall (fun v => 0 <= v) values /\
  forall i j ki kj vi vj, nth_error keys i = Some ki -> nth_error keys j = Some kj ->
       nth_error values i = Some vi -> nth_error values j = Some vj -> (ki < kj <-> vi < vj).
Proof.
  intros Hv Hk He. injection Hv as <-. rewrite Forall_forall in Hk. split.
  - rewrite Forall_forall. intros v Hv. apply in_map_iff in Hv. destruct Hv as (k & <- & Hin).
    apply Qpow_nonneg, Hk, Hin.
  - intros i j ki kj vi vj Hi Hj Hvi Hvj. rewrite nth_error_map, Hi in Hvi. rewrite nth_error_map, Hj in Hvj.
    injection Hvi as <-. injection Hvj as <-. apply nth_error_In in Hi, Hj.
    assert (A := Hk _ Hi). assert (B := Hk _ Hj). split; intros H.
    + apply Qpow_strict; [exact He|lra|lra].
    + destruct (Qlt_le_dec ki kj) as [|G]; [assumption|].
      assert ((kj + q) ^ Z.of_nat exponent <= (ki + q) ^ Z.of_nat exponent) by (apply Qpow_mono; lra). lra.
Qed.

Lemma bisect_right_spec l x : forall lo, let r := bisect_right l x lo in
  (lo <= r <= lo + length l)%nat /\
  (forall y, (lo < r)%nat -> nth_error l (r - lo - 1) = Some y -> y <= x) /\
  ((r < lo + length l)%nat -> exists y, nth_error l (r - lo) = Some y /\ x < y).
Proof.
  induction l as [|z l IH]; intros lo; cbn [bisect_right length].
  - split; [lia|]. split; [intros y H; lia|intros H; lia].
  - destruct (Qltb x z) eqn:E.
    + split; [lia|]. split; [intros y H; lia|]. intros _. exists z. rewrite Nat.sub_diag. split; [reflexivity|].
      apply Qltb_spec, E.
    + apply Qltb_false in E. specialize (IH (S lo)). cbn zeta in IH. set (r := bisect_right l x (S lo)) in *.
      destruct IH as (H1 & H2 & H3). split; [lia|]. split.
      * intros y Hlt Hy. destruct (Nat.eq_dec r (S lo)) as [Er|Er].
        -- rewrite Er in Hy. replace (S lo - lo - 1)%nat with 0%nat in Hy by lia. injection Hy as <-. exact E.
        -- apply H2; [lia|]. replace (r - lo - 1)%nat with (S (r - S lo - 1)) in Hy by lia. exact Hy.
      * intros Hlt. destruct (H3 ltac:(lia)) as (y & Hy & Hxy). exists y. split; [|exact Hxy].
        replace (r - lo)%nat with (S (r - S lo)) by lia. exact Hy.
Qed.

Lemma accumulate_nth l : forall acc i y, nth_error (accumulate acc l) i = Some y -> y == acc + csum l (S i).
Proof.
  induction l as [|x l IH]; intros acc [|i] y H; try discriminate.
  - injection H as <-. unfold csum. simpl. lra.
  - cbn [accumulate nth_error] in H. apply IH in H.
    assert (E : csum (x :: l) (S (S i)) == x + csum l (S i)) by reflexivity. lra.
Qed.

Lemma accumulate_length l acc : length (accumulate acc l) = length l.
Proof. revert acc. induction l as [|x l IH]; intros acc; [reflexivity|]. simpl. f_equal. apply IH. Qed.

Lemma choices_spec weights u : nonneg weights -> 0 < Qsum weights -> 0 <= u < 1 ->
  exists i w, choices_index weights u = Ok i /\ nth_error weights i = Some w /\ 0 < w.
Proof.
  intros Hn Ht Hu. unfold choices_index. destruct weights as [|w0 ws] eqn:Ew; [simpl in Ht; lra|].
  rewrite <- Ew in *. assert (Hlen : (1 <= length weights)%nat) by (rewrite Ew; simpl; lia).
  set (cum := accumulate 0 weights). assert (Hcl : length cum = length weights) by apply accumulate_length.
  assert (Hlast : last cum 0 == Qsum weights).
  { assert (E : nth_error cum (length cum - 1) = Some (last cum 0)).
    { assert (Hc : cum <> []) by (intros E; rewrite E in Hcl; simpl in Hcl; lia).
      destruct (exists_last Hc) as (a & b & ->). rewrite last_last, app_length. simpl.
      rewrite nth_error_app2 by lia. replace (length a + 1 - 1 - length a)%nat with 0%nat by lia. reflexivity. }
    rewrite (accumulate_nth _ _ _ _ E), csum_all by lia. lra. }
  destruct (Qle_bool (last cum 0) 0) eqn:E; [apply Qle_bool_iff in E; lra|]. clear E.
  set (x := u * last cum 0). assert (Hx : 0 <= x < Qsum weights).
  { unfold x. split.
    - apply Qmult_le_0_compat; lra.
    - apply Qlt_le_trans with (1 * last cum 0); [apply Qmult_lt_compat_r; lra|lra]. }
  destruct (bisect_right_spec (firstn (length weights - 1) cum) x 0) as (H1 & H2 & H3).
  set (i := bisect_right (firstn (length weights - 1) cum) x 0) in *.
  rewrite firstn_length, Hcl in *.
  assert (Hi : (i < length weights)%nat) by lia.
  destruct (nth_error weights i) as [w|] eqn:Ei; [|apply nth_error_None in Ei; lia].
  exists i, w. split; [reflexivity|]. split; [exact Ei|].
  assert (Hlo : csum weights i <= x).
  { destruct (Nat.eq_dec i 0) as [E0|E0]; [rewrite E0; unfold csum; simpl; lra|].
    destruct (nth_error (firstn (length weights - 1) cum) (i - 0 - 1)) as [y|] eqn:Ey.
    - assert (G := H2 y ltac:(lia) eq_refl).
      assert (Ey' : nth_error cum (i - 1) = Some y).
      { rewrite <- (firstn_skipn (length weights - 1) cum). rewrite nth_error_app1.
        - replace (i - 1)%nat with (i - 0 - 1)%nat by lia. exact Ey.
        - rewrite firstn_length. lia. }
      apply accumulate_nth in Ey'. replace (S (i - 1)) with i in Ey' by lia. lra.
    - apply nth_error_None in Ey. rewrite firstn_length in Ey. lia. }
  assert (Hhi : x < csum weights (S i)).
  { destruct (Nat.eq_dec i (length weights - 1)) as [E0|E0].
    - rewrite csum_all by lia. lra.
    - destruct (H3 ltac:(lia)) as (y & Ey & Hy).
      assert (Ey' : nth_error cum i = Some y).
      { rewrite <- (firstn_skipn (length weights - 1) cum). rewrite nth_error_app1.
        - replace i with (i - 0)%nat by lia. exact Ey.
        - rewrite firstn_length. lia. }
      apply accumulate_nth in Ey'. lra. }
  rewrite (csum_S _ _ _ Ei) in Hhi. lra.
Qed.

Lemma Qsum_div values t : ~ t == 0 -> Qsum (map (fun v => v / t) values) == Qsum values / t.
Proof.
  intros Ht. induction values as [|v l IH]; cbn [map Qsum fold_right].
  - field. exact Ht.
  - fold (Qsum (map (fun v => v / t) l)). fold (Qsum l). rewrite IH. field. exact Ht.
Qed.

Lemma proportional_spec {A} (population : list A) keys off exponent u values :
  length population = length keys ->
  compute_population_values keys off exponent = Ok values -> 0 <= u < 1 ->
  (Exists (fun v => v < 0) values -> proportional_turn population keys off exponent u = Err ValueError) /\
  (Forall (fun v => 0 <= v) values -> 0 < total values ->
   exists i x v, proportional_turn population keys off exponent u = Ok x /\
     nth_error population i = Some x /\ nth_error values i = Some v /\ 0 < v).
Proof.
  intros Hlen Hv Hu.
  assert (Hl : length values = length keys).
  { unfold compute_population_values in Hv.
    destruct off; [destruct (np_min keys); cbn [bind] in Hv; [|discriminate]|cbn [bind] in Hv]; injection Hv as <-; apply map_length. }
  unfold proportional_turn. rewrite Hv. cbn [bind]. split.
  - intros Hex. assert (E : any_negative values = true).
    { unfold any_negative. apply existsb_exists. apply Exists_exists in Hex. destruct Hex as (v & Hin & Hlt).
      exists v. split; [exact Hin|]. apply Qltb_spec, Hlt. }
    rewrite E. reflexivity.
  - intros Hnn Ht. assert (E := proj2 (any_negative_spec values) Hnn). rewrite E.
    change (total values) with (Qsum values) in Ht.
    destruct (Qeq_bool (Qsum values) 0) eqn:E0; [apply Qeq_bool_iff in E0; lra|].
    destruct (choices_spec (map (fun v => v / Qsum values) values) u) as (i & w & Hi & Hw & Hpos).
    + unfold nonneg. rewrite Forall_map. eapply Forall_impl; [|exact Hnn]. intros v H0. cbv beta in *.
      apply Qle_shift_div_l; lra.
    + rewrite Qsum_div by lra. apply Qlt_shift_div_l; lra.
    + exact Hu.
    + rewrite Hi. cbn [bind]. rewrite nth_error_map in Hw.
      destruct (nth_error values i) as [v|] eqn:Ev; [|discriminate]. injection Hw as <-.
      assert (Hlt : (i < length population)%nat) by (rewrite Hlen, <- Hl; apply nth_error_Some; congruence).
      destruct (nth_error population i) as [x|] eqn:Ex; [|apply nth_error_None in Ex; lia].
      exists i, x, v. split; [reflexivity|]. split; [exact Ex|]. split; [exact Ev|].
      destruct (Qlt_le_dec 0 v) as [|G]; [assumption|].
      assert (v / Qsum values <= 0) by (apply Qle_shift_div_r; lra). lra.
Qed.

Lemma sus_negative keys nopt off exponent start values :
  compute_population_values keys off exponent = Ok values ->
  Exists (fun v => v < 0) values -> sus_init keys nopt off exponent start = Err ValueError.
Proof.
  intros Hv Hex. assert (E : any_negative values = true).
  { unfold any_negative. apply existsb_exists. apply Exists_exists in Hex. destruct Hex as (v & Hin & Hlt).
    exists v. split; [exact Hin|]. apply Qltb_spec, Hlt. }
  unfold sus_init. cbn zeta. destruct (Z.leb _ 0); [reflexivity|]. rewrite Hv. cbn [bind]. rewrite E. reflexivity.
Qed.

Lemma proportional_iff {A} (population : list A) keys off exponent u values :
  length population = length keys -> population <> [] ->
  compute_population_values keys off exponent = Ok values -> 0 <= u < 1 ->
  (proportional_turn population keys off exponent u = Err ValueError <-> Exists (fun v => v < 0) values \/ Forall (fun v => v == 0) values) /\
  ((exists x, proportional_turn population keys off exponent u = Ok x) <-> Forall (fun v => 0 <= v) values /\ Exists (fun v => 0 < v) values).
Proof.
  intros Hlen Hne Hv Hu. destruct (proportional_spec population keys off exponent u values Hlen Hv Hu) as (Hneg & Hpos).
  assert (D : Exists (fun v => v < 0) values \/ Forall (fun v => 0 <= v) values).
  { clear. induction values as [|v vs [IH | IH]]; [right; constructor|left; right; exact IH|]. destruct (Qlt_le_dec v 0) as [H | H]; [left; left; exact H|right; constructor; assumption]. }
  assert (D2 : Forall (fun v => 0 <= v) values -> (Forall (fun v => v == 0) values /\ total values == 0) \/ (Exists (fun v => 0 < v) values /\ 0 < total values)).
  { clear. intros F. induction F as [|v vs H F IH]; [left; split; [constructor|reflexivity]|]. cbn [total fold_right]. fold (total vs).
    destruct (Qlt_le_dec 0 v) as [G | G]; [right; split; [left; exact G|destruct IH as [(_ & I) | (_ & I)]; lra]|].
    destruct IH as [(I1 & I2) | (I1 & I2)]; [left; split; [constructor; [lra|exact I1]|lra]|right; split; [right; exact I1|lra]]. }
  assert (NE : forall P Q' : Q -> Prop, (forall v, P v -> Q' v -> False) -> Exists P values -> Forall Q' values -> False).
  { intros P Q' K X F. apply Exists_exists in X. destruct X as (v & Hin & H). rewrite Forall_forall in F. exact (K v H (F v Hin)). }
  destruct D as [X | F].
  - specialize (Hneg X). rewrite Hneg. split; [split; [auto|reflexivity]|]. split; [intros (x & E); discriminate|intros (F & _)]. exfalso. refine (NE _ _ _ X F). cbv beta. intros v. lra.
  - destruct (D2 F) as [(Z0 & T0) | (P0 & T0)].
    + assert (E : proportional_turn population keys off exponent u = Err ValueError).
      { unfold proportional_turn. rewrite Hv. cbn [bind]. apply any_negative_spec in F. rewrite F. change (Qsum values) with (total values).
        apply Qeq_bool_iff in T0. cbn zeta. rewrite T0. destruct population; [contradiction|reflexivity]. }
      rewrite E. split; [split; [auto|reflexivity]|]. split; [intros (x & G); discriminate|intros (_ & X)]. exfalso. refine (NE _ _ _ X Z0). cbv beta. intros v. lra.
    + destruct (Hpos F T0) as (i & x & v & E & _). rewrite E. split; [|split; [auto|intros _; exists x; reflexivity]].
      split; [discriminate|intros [X | X]; exfalso]; [refine (NE _ _ _ X F)|refine (NE _ _ _ P0 X)]; cbv beta; intros w; lra.
Qed.
