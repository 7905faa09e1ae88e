From Verif Require Import Model.Base Model.Variation Spec.Variation.
From Coq Require Import Lia Lqa Permutation Sorted.

Lemma F2_len {A B} (R : A -> B -> Prop) l m : Forall2 R l m -> length l = length m.
Proof. induction 1; simpl; auto. Qed.

Lemma assign_length {G} (mask : list bool) : forall (l new : list G),
  length (assign_mask mask l new) = length l.
Proof.
  induction mask as [|b mask IH]; intros [|x l] new; simpl; auto.
  destruct b; [destruct new|]; simpl; auto.
Qed.

(** The workhorse: assigning values related to the selected entries of a parallel list. *)
Lemma assign_select {G B} (R : B -> G -> Prop) (mask : list bool) : forall (l new : list G) (bs : list B),
  length bs = length l -> length mask = length l ->
  Forall2 R (select_mask mask bs) new ->
  forall i x b m, nth_error l i = Some x -> nth_error bs i = Some b -> nth_error mask i = Some m ->
  exists x', nth_error (assign_mask mask l new) i = Some x' /\ (if m then R b x' else x' = x).
Proof.
  induction mask as [|m0 mask IH]; intros l new bs Hb Hm HF i x b m Hx Hbi Hmi.
  - destruct i; discriminate.
  - destruct l as [|x0 l]; [discriminate|]. destruct bs as [|b0 bs]; [discriminate|].
    simpl in Hb, Hm. injection Hb as Hb. injection Hm as Hm. simpl in HF.
    destruct m0.
    + inversion HF as [|? y ? new' HR HF' E1 E2]; subst new. simpl.
      destruct i; simpl in *.
      * injection Hx as <-. injection Hbi as <-. injection Hmi as <-. exists y. auto.
      * eapply IH; eauto.
    + simpl. destruct i; simpl in *.
      * injection Hx as <-. injection Hbi as <-. injection Hmi as <-. exists x0. auto.
      * eapply IH; eauto.
Qed.

Lemma F2_eq {A} (l : list A) : Forall2 eq l l.
Proof. induction l; auto. Qed.

Lemma F2_map {A B} (f : A -> B) l : Forall2 (fun x y => y = f x) l (map f l).
Proof. induction l; simpl; auto. Qed.

(** ** Uniform crossover *)
Lemma uniform_exchanged {G} (mask : list bool) (a b : list G) :
  length a = length mask -> length b = length mask ->
  exists a' b', uniform_recombine mask a b = Ok (a', b') /\
    exchanged (fun i => nth i mask false) a b a' b'.
Proof.
  intros Ha Hb. unfold uniform_recombine. rewrite Ha, Hb, Nat.eqb_refl. simpl.
  eexists _, _. split; [reflexivity|]. unfold exchanged. rewrite !assign_length.
  split; [auto|]. split; [auto|]. intros i x y Hx Hy.
  destruct (nth_error mask i) as [m|] eqn:Em.
  2:{ apply nth_error_None in Em. assert (i < length a) by (apply nth_error_Some; congruence). lia. }
  rewrite (nth_error_nth mask i false Em).
  destruct (@assign_select G G eq mask a _ b ltac:(congruence) ltac:(congruence) (F2_eq _) i x y m Hx Hy Em)
    as (x' & E & H).
  destruct (@assign_select G G eq mask b _ a ltac:(congruence) ltac:(congruence) (F2_eq _) i y x m Hy Hx Em)
    as (y' & E2 & H2).
  rewrite E, E2. destruct m; subst; auto.
Qed.

Lemma nth_error_ext {A} : forall (l m : list A), length l = length m ->
  (forall i x, nth_error l i = Some x -> nth_error m i = Some x) -> l = m.
Proof.
  induction l as [|x l IH]; intros [|y m] HL H; try discriminate; auto.
  f_equal.
  - specialize (H 0 x eq_refl). simpl in H. congruence.
  - apply IH; [simpl in HL; lia|]. intros i z Hz. exact (H (S i) z Hz).
Qed.

Lemma nth_error_ex {A} (l : list A) i : i < length l -> exists x, nth_error l i = Some x.
Proof.
  intros H. destruct (nth_error l i) eqn:E; eauto. apply nth_error_None in E. lia.
Qed.

Lemma exchanged_twice {G} sw (a b a' b' a2 b2 : list G) : length a = length b ->
  exchanged sw a b a' b' -> exchanged sw a' b' a2 b2 -> a2 = a /\ b2 = b.
Proof.
  intros HL (L1 & L2 & H1) (L3 & L4 & H2). split; symmetry; apply nth_error_ext; try lia.
  - intros i x Hx. destruct (nth_error_ex b i) as [y Hy].
    { rewrite <- HL. apply nth_error_Some. congruence. }
    destruct (H1 i x y Hx Hy) as [E1 E2]. destruct (H2 _ _ _ E1 E2) as [E3 E4].
    rewrite E3. destruct (sw i); auto.
  - intros i y Hy. destruct (nth_error_ex a i) as [x Hx].
    { rewrite HL. apply nth_error_Some. congruence. }
    destruct (H1 i x y Hx Hy) as [E1 E2]. destruct (H2 _ _ _ E1 E2) as [E3 E4].
    rewrite E4. destruct (sw i); auto.
Qed.

Lemma exchanged_perm {G} : forall (a b a' b' : list G) sw, length a = length b ->
  exchanged sw a b a' b' -> Permutation (a' ++ b') (a ++ b).
Proof.
  induction a as [|x a IH]; intros b a' b' sw HL (L1 & L2 & H).
  - destruct b; [|discriminate]. destruct a'; [|discriminate]. destruct b'; [|discriminate]. auto.
  - destruct b as [|y b]; [discriminate|]. destruct a' as [|x' a']; [discriminate|].
    destruct b' as [|y' b']; [discriminate|].
    assert (P : Permutation (a' ++ b') (a ++ b)).
    { apply (IH b a' b' (fun i => sw (S i))); [simpl in HL; lia|].
      split; [simpl in L1; lia|]. split; [simpl in L2; lia|].
      intros i u v Hu Hv. exact (H (S i) u v Hu Hv). }
    destruct (H 0 x y eq_refl eq_refl) as [E1 E2]. simpl in E1, E2.
    assert (Q : Permutation ((x' :: a') ++ (y' :: b')) (x' :: y' :: (a' ++ b'))).
    { simpl. apply perm_skip. symmetry. apply Permutation_middle. }
    rewrite Q, P. destruct (sw 0); injection E1 as ->; injection E2 as ->.
    + rewrite perm_swap. simpl. apply perm_skip. apply Permutation_middle.
    + simpl. apply perm_skip. apply Permutation_middle.
Qed.

Lemma uniform_mismatch {G} (mask : list bool) (a b : list G) :
  length mask = Nat.min (length a) (length b) -> length a <> length b ->
  uniform_recombine mask a b = Err IndexError.
Proof.
  intros Hm Hne. unfold uniform_recombine.
  destruct (Nat.eqb_spec (length a) (length mask)); destruct (Nat.eqb_spec (length b) (length mask));
    simpl; auto. lia.
Qed.

(** ** N-point crossover *)
Lemma insert_perm x l : Permutation (insert_nat x l) (x :: l).
Proof.
  induction l as [|y l IH]; simpl; auto. destruct (x <=? y); auto.
  rewrite IH. apply perm_swap.
Qed.
Lemma sort_perm l : Permutation (sort_nat l) l.
Proof. induction l as [|x l IH]; simpl; auto. rewrite insert_perm, IH. auto. Qed.

Lemma insert_sorted x l : StronglySorted le l -> StronglySorted le (insert_nat x l).
Proof.
  induction 1 as [|y l HS IH HF]; simpl.
  - constructor; [constructor|constructor].
  - destruct (Nat.leb_spec x y).
    + constructor; [constructor; auto|]. constructor; auto.
      eapply Forall_impl; [|exact HF]. intros; simpl in *; lia.
    + constructor; auto. apply Forall_forall. intros z Hz.
      apply (Permutation_in _ (insert_perm x l)) in Hz. destruct Hz as [<-|Hz]; [lia|].
      rewrite Forall_forall in HF. apply HF; auto.
Qed.
Lemma sort_sorted l : StronglySorted le (sort_nat l).
Proof. induction l; simpl; [constructor|]. apply insert_sorted; auto. Qed.

Lemma filter_perm {A} (f : A -> bool) l m : Permutation l m -> Permutation (filter f l) (filter f m).
Proof.
  induction 1; simpl; auto.
  - destruct (f x); auto.
  - destruct (f x), (f y); auto. apply perm_swap.
  - etransitivity; eauto.
Qed.

Lemma cuts_perm p q i : Permutation p q -> cuts_upto p i = cuts_upto q i.
Proof. intros H. unfold cuts_upto. apply Permutation_length. apply filter_perm; auto. Qed.

Lemma slice_length {G} s t (l : list G) : s <= t -> t <= length l -> length (slice s t l) = t - s.
Proof. intros. unfold slice. rewrite firstn_length, skipn_length. lia. Qed.

Lemma nth_error_firstn {A} : forall n (l : list A) i, i < n -> nth_error (firstn n l) i = nth_error l i.
Proof. induction n; intros [|x l] [|i] H; simpl; try lia; auto. apply IHn; lia. Qed.
Lemma nth_error_skipn {A} : forall n (l : list A) i, nth_error (skipn n l) i = nth_error l (n + i).
Proof. induction n; intros [|x l] i; simpl; auto. destruct i; auto. Qed.

Lemma slice_nth {G} s t (l : list G) j : j < t - s -> nth_error (slice s t l) j = nth_error l (s + j).
Proof. intros. unfold slice. rewrite nth_error_firstn by auto. apply nth_error_skipn. Qed.

Lemma nary_spec {G} (a b : list G) L : length a = L -> length b = L ->
  forall pts s flip, StronglySorted le (s :: pts) -> Forall (fun p => p <= L) (s :: pts) ->
  let r := nary_sections flip (windows (s :: pts ++ [L])) a b in
  length (fst r) = L - s /\ length (snd r) = L - s /\
  forall j, j < L - s ->
    nth_error (fst r) j =
      nth_error (if xorb flip (Nat.odd (cuts_upto pts (s + j))) then b else a) (s + j) /\
    nth_error (snd r) j =
      nth_error (if xorb flip (Nat.odd (cuts_upto pts (s + j))) then a else b) (s + j).
Proof.
  intros Ha Hb. induction pts as [|p pts IH]; intros s flip HS HF.
  - simpl. rewrite !app_nil_r. pose proof (Forall_inv HF) as HsL. cbv beta in HsL.
    rewrite !slice_length by (destruct flip; cbv iota; lia). split; [auto|]. split; [auto|].
    intros j Hj. rewrite !slice_nth by lia. rewrite !xorb_false_r. auto.
  - pose proof (StronglySorted_inv HS) as [HS' HFs]. pose proof (Forall_inv HFs) as Hsp.
    pose proof (Forall_inv_tail HF) as HF'. pose proof (Forall_inv HF') as HpL. cbv beta in HpL.
    specialize (IH p (negb flip) HS' HF'). cbv zeta in IH.
    change (windows (s :: (p :: pts) ++ [L])) with ((s, p) :: windows (p :: pts ++ [L])).
    cbn [nary_sections]. destruct (nary_sections (negb flip) (windows (p :: pts ++ [L])) a b) as [s1 s2].
    cbn [fst snd] in IH. destruct IH as (I1 & I2 & I3). cbv zeta. cbn [fst snd].
    rewrite !app_length, !slice_length by (destruct flip; cbv iota; lia).
    split; [lia|]. split; [lia|]. intros j Hj.
    assert (Hc : forall k, p <= k -> cuts_upto (p :: pts) k = S (cuts_upto pts k)).
    { intros k Hk. unfold cuts_upto. simpl. destruct (Nat.leb_spec p k); simpl; auto; lia. }
    assert (Hc0 : forall k, k < p -> cuts_upto (p :: pts) k = 0).
    { intros k Hk. unfold cuts_upto. destruct (filter _ _) as [|z r] eqn:E; auto.
      assert (Hz : In z (filter (fun q => q <=? k) (p :: pts))) by (rewrite E; left; auto).
      apply filter_In in Hz. destruct Hz as [Hz1 Hz2]. apply Nat.leb_le in Hz2.
      destruct Hz1 as [<-|Hz1]; [lia|].
      apply StronglySorted_inv in HS'. destruct HS' as [_ HFp]. rewrite Forall_forall in HFp.
      specialize (HFp z Hz1). lia. }
    destruct (Nat.lt_ge_cases j (p - s)) as [Hlt|Hge].
    + rewrite !nth_error_app1 by (rewrite slice_length by (destruct flip; cbv iota; lia); lia).
      rewrite !slice_nth by lia. rewrite Hc0 by lia. rewrite xorb_false_r. auto.
    + rewrite !nth_error_app2 by (rewrite slice_length by (destruct flip; cbv iota; lia); lia).
      rewrite !slice_length by (destruct flip; cbv iota; lia).
      destruct (I3 (j - (p - s)) ltac:(lia)) as [E1 E2].
      replace (p + (j - (p - s))) with (s + j) in * by lia.
      rewrite Hc by lia. rewrite E1, E2. rewrite Nat.odd_succ, <- Nat.negb_odd.
      destruct flip, (Nat.odd (cuts_upto pts (s + j))); auto.
Qed.

Lemma nary_exchanged {G} n draws (a b : list G) :
  length a = length b -> length draws = n -> n <= length a -> Forall (fun p => p < length a) draws ->
  exists a' b', nary_recombine n draws a b = Ok (a', b') /\
    exchanged (fun i => Nat.odd (cuts_upto draws i)) a b a' b'.
Proof.
  intros HL Hd Hn HF. unfold nary_recombine.
  destruct (Nat.ltb_spec (length a) n); [lia|]. destruct (Nat.ltb_spec (length b) n); [lia|]. cbn [orb].
  unfold pick_crossover_points. cbn [app].
  pose proof (@nary_spec G a b (length a) eq_refl (eq_sym HL) (sort_nat draws) 0 false) as Hs.
  cbv zeta in Hs. destruct Hs as (L1 & L2 & Hs).
  { constructor; [apply sort_sorted|]. apply Forall_forall. intros; lia. }
  { constructor; [lia|]. apply Forall_forall. intros x Hx.
    apply (Permutation_in _ (sort_perm draws)) in Hx. rewrite Forall_forall in HF.
    specialize (HF _ Hx). lia. }
  destruct (nary_sections _ _ a b) as [a' b']. cbn [fst snd] in *.
  exists a', b'. split; [reflexivity|]. split; [lia|]. split; [lia|].
  intros i x y Hx Hy. destruct (Hs i) as [E1 E2].
  { assert (i < length a) by (apply nth_error_Some; congruence). lia. }
  rewrite xorb_false_l, (cuts_perm _ _ _ (sort_perm draws)) in E1, E2. rewrite E1, E2.
  cbn [Nat.add]. destruct (Nat.odd (cuts_upto draws i)); auto.
Qed.

Lemma nary_short {G} n draws (a b : list G) : length a < n \/ length b < n ->
  nary_recombine n draws a b = Err RuntimeError.
Proof.
  intros H. unfold nary_recombine.
  destruct (Nat.ltb_spec (length a) n); destruct (Nat.ltb_spec (length b) n); simpl; auto; lia.
Qed.

Lemma cuts_succ draws i :
  cuts_upto draws (S i) = cuts_upto draws i + length (filter (fun p => p =? S i) draws).
Proof.
  unfold cuts_upto. induction draws as [|p r IH]; cbn [filter length]; [reflexivity|].
  destruct (Nat.leb_spec p (S i)); destruct (Nat.leb_spec p i); destruct (Nat.eqb_spec p (S i));
    cbn [length]; try lia.
Qed.

Lemma filter_le {A} (f g : A -> bool) l : (forall x, In x l -> f x = true -> g x = true) ->
  length (filter f l) <= length (filter g l).
Proof.
  induction l as [|x l IH]; simpl; intros H; auto.
  assert (length (filter f l) <= length (filter g l)) by (apply IH; auto).
  destruct (f x) eqn:E; [rewrite (H x (or_introl eq_refl) E); simpl; lia|].
  destruct (g x); simpl; lia.
Qed.

Lemma changes_le draws n : source_changes (fun i => Nat.odd (cuts_upto draws i)) n <= length draws.
Proof.
  unfold source_changes.
  assert (H : length (filter (fun i => xorb (Nat.odd (cuts_upto draws i)) (Nat.odd (cuts_upto draws (S i))))
                             (seq 0 (n - 1)))
              <= length (filter (fun i => existsb (fun p => p =? S i) draws) (seq 0 (n - 1)))).
  { apply filter_le. intros i _ H. rewrite cuts_succ in H.
    destruct (existsb _ draws) eqn:E; auto. exfalso.
    assert (F : filter (fun p => p =? S i) draws = []).
    { destruct (filter _ _) as [|z r] eqn:E2; auto. exfalso.
      assert (Hz : In z (filter (fun p => p =? S i) draws)) by (rewrite E2; left; auto).
      apply filter_In in Hz. assert (existsb (fun p => p =? S i) draws = true); [|congruence].
      apply existsb_exists. exists z. auto. }
    rewrite F in H. cbn [length] in H. rewrite Nat.add_0_r, xorb_nilpotent in H. discriminate. }
  etransitivity; [exact H|].
  set (l := filter (fun i => existsb (fun p => p =? S i) draws) (seq 0 (n - 1))).
  assert (ND : NoDup (map S l)).
  { apply FinFun.Injective_map_NoDup; [intros x y; lia|]. apply NoDup_filter. apply seq_NoDup. }
  rewrite <- (map_length S l). apply NoDup_incl_length; auto.
  intros x Hx. apply in_map_iff in Hx. destruct Hx as (i & <- & Hi).
  unfold l in Hi. apply filter_In in Hi. destruct Hi as [_ Hi]. apply existsb_exists in Hi.
  destruct Hi as (p & Hp & E). apply Nat.eqb_eq in E. subst. auto.
Qed.

(** ** Masks *)
Lemma Qltb_lt a b : Qltb a b = true <-> (a < b)%Q.
Proof.
  unfold Qltb. rewrite negb_true_iff. split; intros H.
  - apply Qnot_le_lt. intros C. apply Qle_bool_iff in C. congruence.
  - destruct (Qle_bool b a) eqn:E; auto. apply Qle_bool_iff in E. lra.
Qed.

Lemma bernoulli_ok us p : (0 <= p)%Q -> (p <= 1)%Q ->
  random_bernoulli_vector us p = Ok (map (fun u => Qltb u p) us).
Proof.
  intros H0 H1. unfold random_bernoulli_vector.
  apply Qle_bool_iff in H0. apply Qle_bool_iff in H1. rewrite H0, H1. reflexivity.
Qed.
Lemma bernoulli_err us p : ~ (0 <= p <= 1)%Q -> random_bernoulli_vector us p = Err AssertionError.
Proof.
  intros H. unfold random_bernoulli_vector.
  destruct (Qle_bool 0 p) eqn:E0; destruct (Qle_bool p 1) eqn:E1; simpl; auto.
  exfalso. apply H. rewrite <- !Qle_bool_iff. auto.
Qed.

Lemma Qltb_comp a b c : (b == c)%Q -> Qltb a b = Qltb a c.
Proof.
  intros H. destruct (Qltb a b) eqn:E1, (Qltb a c) eqn:E2; auto; exfalso.
  - apply Qltb_lt in E1. rewrite H in E1. apply Qltb_lt in E1. congruence.
  - apply Qltb_lt in E2. rewrite <- H in E2. apply Qltb_lt in E2. congruence.
Qed.

Lemma len_pos n : n <> 0 -> (0 < inject_Z (Z.of_nat n))%Q.
Proof. intros H. unfold Qlt; simpl. lia. Qed.

(** the mask of a valid rate *)
Lemma mask_of_rate e expected probability us len p :
  rate_is expected probability len p -> (0 <= p)%Q -> (p <= 1)%Q ->
  check_rate e expected probability = Ok tt /\
  mutation_mask expected probability us len = Ok (map (fun u => Qltb u p) us).
Proof.
  intros [[-> ->]|(ex & -> & -> & Hlen & Hp)] H0 H1; simpl.
  - split.
    + destruct (Qltb p 0) eqn:E; [apply Qltb_lt in E; lra|].
      destruct (Qltb 1 p) eqn:E2; [apply Qltb_lt in E2; lra|]. reflexivity.
    + apply bernoulli_ok; auto.
  - split; auto. unfold compute_expected_probability.
    destruct (Nat.eqb_spec len 0); [contradiction|]. cbn [bind].
    pose proof (len_pos _ Hlen) as HL.
    assert (E : (1 / inject_Z (Z.of_nat len) * ex == p)%Q).
    { rewrite <- Hp. field. lra. }
    rewrite bernoulli_ok by (rewrite E; auto). f_equal. apply map_ext. intros u.
    apply Qltb_comp; auto.
Qed.

Lemma drawn_mask us p i m : nth_error (map (fun u => Qltb u p) us) i = Some m ->
  (m = true <-> drawn us p i).
Proof.
  rewrite nth_error_map. destruct (nth_error us i) as [u|] eqn:E; [|discriminate].
  simpl. intros H; injection H as <-. rewrite Qltb_lt. unfold drawn. rewrite E. split.
  - intros Hu. exists u. auto.
  - intros (v & Ev & Hv). congruence.
Qed.

Lemma changed_by_mask {G B} (R : B -> G -> Prop) (S : nat -> G -> G -> Prop) us p
    (g new : list G) (bs : list B) :
  length us = length g -> length bs = length g ->
  Forall2 R (select_mask (map (fun u => Qltb u p) us) bs) new ->
  (forall i x b x', nth_error g i = Some x -> nth_error bs i = Some b -> R b x' -> S i x x') ->
  changed_where (drawn us p) S (fun _ x x' => x' = x) g
    (assign_mask (map (fun u => Qltb u p) us) g new).
Proof.
  intros Hu Hb HF HRS. split; [apply assign_length|]. intros i x Hx.
  assert (Hi : i < length g) by (apply nth_error_Some; congruence).
  destruct (nth_error_ex bs i) as [b Eb]; [lia|].
  destruct (nth_error_ex (map (fun u => Qltb u p) us) i) as [m Em]; [rewrite map_length; lia|].
  destruct (@assign_select G B R _ g new bs Hb (eq_trans (map_length (fun u => Qltb u p) us) Hu) HF i x b m Hx Eb Em)
    as (x' & E & Hm).
  exists x'. split; [exact E|]. pose proof (drawn_mask us p i _ Em) as D. destruct m.
  - split; [intros _; eapply HRS; eauto|]. intros C. exfalso. apply C, D; auto.
  - split; [|intros _; exact Hm]. intros C. apply D in C. discriminate.
Qed.

(** ** Bit flip *)
Lemma bitflip_changed expected probability us g p :
  length us = length g -> rate_is expected probability (length g) p -> (0 <= p)%Q -> (p <= 1)%Q ->
  binary g ->
  exists g', genome_mutate_bitflip expected probability us g = Ok g' /\
    changed_where (drawn us p) (fun _ x x' => x' = 1 - x)%Z (fun _ x x' => x' = x) g g'.
Proof.
  intros Hu Hr H0 H1 Hb. unfold genome_mutate_bitflip.
  destruct (@mask_of_rate AssertionError expected probability us (length g) p Hr H0 H1) as [-> ->].
  cbn [bind]. eexists. split; [reflexivity|].
  apply (@changed_by_mask Z Z (fun x y => y = Z.modulo (x + 1) 2) _ us p g _ g Hu eq_refl (F2_map _ _)).
  intros i x b x' Hx Hb' ->. rewrite Hx in Hb'. injection Hb' as <-.
  unfold binary in Hb. rewrite Forall_forall in Hb.
  destruct (Hb x (nth_error_In _ _ Hx)) as [-> | ->]; reflexivity.
Qed.

Lemma changed_binary sel g g' :
  changed_where sel (fun _ x x' => x' = 1 - x)%Z (fun _ x x' => x' = x) g g' ->
  (forall i, i < length g -> sel i \/ ~ sel i) -> binary g -> binary g'.
Proof.
  intros [HL H] Hdec Hb. unfold binary in *. rewrite Forall_forall in *. intros y Hy.
  apply In_nth_error in Hy. destruct Hy as [i Hi].
  assert (Hl : i < length g) by (rewrite <- HL; apply nth_error_Some; congruence).
  destruct (nth_error_ex g i Hl) as [x Hx].
  destruct (H i x Hx) as (x' & E & S1 & S2). assert (x' = y) by congruence. subst x'.
  specialize (Hb x (nth_error_In _ _ Hx)).
  destruct (Hdec i Hl) as [D|D]; [rewrite (S1 D)|rewrite (S2 D)]; lia.
Qed.

Lemma drawn_dec us p i : drawn us p i \/ ~ drawn us p i.
Proof.
  unfold drawn. destruct (nth_error us i) as [u|] eqn:E.
  - destruct (Qltb u p) eqn:F.
    + left. exists u. apply Qltb_lt in F. auto.
    + right. intros (v & Ev & Hv). injection Ev as <-. apply Qltb_lt in Hv. congruence.
  - right. intros (v & Ev & _). discriminate.
Qed.

Lemma check_rate_spec e expected probability :
  check_rate e expected probability = Err e <->
  (expected = None /\ probability = None) \/
  (expected <> None /\ probability <> None) \/
  (expected = None /\ exists p, probability = Some p /\ ((p < 0)%Q \/ (1 < p)%Q)).
Proof.
  split.
  - destruct expected as [x|], probability as [p|]; simpl; intros H.
    + right; left. split; discriminate.
    + discriminate.
    + right; right. split; auto. exists p. split; auto.
      destruct (Qltb p 0) eqn:E; [left; apply Qltb_lt; auto|].
      destruct (Qltb 1 p) eqn:E2; [right; apply Qltb_lt; auto|]. discriminate.
    + left; auto.
  - intros [[-> ->]|[[H1 H2]|(-> & p & -> & H)]]; simpl; auto.
    + destruct expected, probability; try contradiction; auto.
    + destruct H as [H|H]; apply Qltb_lt in H; rewrite H; auto. rewrite orb_true_r; auto.
Qed.

Lemma check_rate_err e expected probability e' :
  check_rate e expected probability = Err e' -> e' = e.
Proof.
  destruct expected, probability; simpl; try congruence. destruct (_ || _); congruence.
Qed.

Lemma mask_too_many us ex len : len <> 0 -> (inject_Z (Z.of_nat len) < ex)%Q ->
  mutation_mask (Some ex) None us len = Err AssertionError.
Proof.
  intros Hl He. simpl. unfold compute_expected_probability.
  destruct (Nat.eqb_spec len 0); [contradiction|]. cbn [bind]. apply bernoulli_err.
  pose proof (len_pos _ Hl) as HL. intros [_ C].
  assert (E : (1 / inject_Z (Z.of_nat len) * ex == ex / inject_Z (Z.of_nat len))%Q) by (field; lra).
  rewrite E in C.
  assert (ex <= 1 * inject_Z (Z.of_nat len))%Q.
  { setoid_replace ex with (ex / inject_Z (Z.of_nat len) * inject_Z (Z.of_nat len))%Q by (field; lra).
    apply Qmult_le_compat_r; [auto|lra]. }
  lra.
Qed.

(** ** Clipping *)
Lemma ext_ltb_le a b : ext_ltb a b = false <-> ext_le b a.
Proof.
  destruct a, b; simpl; try tauto; try (split; [discriminate|tauto]).
  unfold Qltb. rewrite negb_false_iff. apply Qle_bool_iff.
Qed.
Lemma ext_ltb_lt_le a b : ext_ltb a b = true -> ext_le a b.
Proof.
  destruct a, b; simpl; try tauto; try discriminate. rewrite Qltb_lt. lra.
Qed.
Lemma ext_le_refl a : ext_le a a.
Proof. destruct a; simpl; auto. lra. Qed.
Lemma ext_le_trans a b c : ext_le a b -> ext_le b c -> ext_le a c.
Proof. destruct a, b, c; simpl; try tauto. lra. Qed.

Lemma ext_clip_in low high x : ext_le low high ->
  ext_le low (ext_clip low high x) /\ ext_le (ext_clip low high x) high.
Proof.
  intros H. unfold ext_clip, ext_min, ext_max.
  destruct (ext_ltb x low) eqn:E1.
  - destruct (ext_ltb high low) eqn:E2.
    + split; auto. apply ext_le_refl.
    + split; auto. apply ext_le_refl.
  - destruct (ext_ltb high x) eqn:E2.
    + split; auto. apply ext_le_refl.
    + split; apply ext_ltb_le; auto.
Qed.
Lemma ext_clip_id low high x : ext_le low x -> ext_le x high -> ext_clip low high x = x.
Proof.
  intros H1 H2. unfold ext_clip, ext_min, ext_max.
  apply ext_ltb_le in H1. apply ext_ltb_le in H2. rewrite H1, H2. auto.
Qed.

Lemma nth_combine {A B} : forall (l : list A) (m : list B) i,
  nth_error (combine l m) i =
  match nth_error l i, nth_error m i with Some x, Some y => Some (x, y) | _, _ => None end.
Proof.
  induction l as [|x l IH]; intros [|y m] [|i]; simpl; auto.
  - destruct (nth_error l i); auto.
Qed.

Lemma clip_spec {N} (clip : N -> N -> N -> N) g b : bounds_fit b (length g) ->
  exists g', clip_with clip g b = Ok g' /\ length g' = length g /\
    forall i x, nth_error g i = Some x ->
    exists low high, bound_at b i = Some (low, high) /\ nth_error g' i = Some (clip low high x).
Proof.
  intros Hf. destruct b as [low high|bs]; simpl in *.
  - eexists. split; [reflexivity|]. rewrite map_length. split; auto. intros i x Hx.
    exists low, high. split; auto. rewrite nth_error_map, Hx. auto.
  - rewrite Hf, Nat.eqb_refl. eexists. split; [reflexivity|].
    rewrite map_length, combine_length, Hf, Nat.min_id. split; auto. intros i x Hx.
    destruct (nth_error_ex bs i) as [[low high] E].
    { rewrite Hf. apply nth_error_Some. congruence. }
    exists low, high. split; auto. rewrite nth_error_map, nth_combine, Hx, E. auto.
Qed.

Lemma clip_misfit {N} (clip : N -> N -> N -> N) g b : ~ bounds_fit b (length g) ->
  clip_with clip g b = Err ValueError.
Proof.
  destruct b; simpl; intros H; [tauto|]. destruct (Nat.eqb_spec (length bs) (length g)); tauto.
Qed.

(** ** Randint *)
Lemma randint_genes_spec : forall bs ds, length bs <= length ds ->
  Forall (fun b => fst b <= snd b)%Z bs ->
  exists new, randint_genes ds bs = Ok new /\
    Forall2 (fun b x => fst b <= x <= snd b)%Z bs new.
Proof.
  induction bs as [|[low high] bs IH]; intros ds HL HF.
  - destruct ds; simpl; exists []; auto.
  - destruct ds as [|d ds]; [simpl in HL; lia|].
    pose proof (Forall_inv HF) as Hlh. simpl in Hlh.
    destruct (IH ds ltac:(simpl in HL; lia) (Forall_inv_tail HF)) as (new & E & HF2).
    simpl. unfold randint_gene. destruct (Z.leb_spec (high + 1) low); [lia|]. cbn [bind].
    rewrite E. cbn [bind]. eexists. split; [reflexivity|]. constructor; auto. simpl.
    pose proof (Z.mod_pos_bound d (high + 1 - low) ltac:(lia)). lia.
Qed.

Lemma select_forall {G} (P : G -> Prop) mask : forall l, Forall P l -> Forall P (select_mask mask l).
Proof.
  induction mask as [|b mask IH]; intros [|x l] H; simpl; auto.
  pose proof (Forall_inv H). pose proof (Forall_inv_tail H).
  destruct b; auto.
Qed.
Lemma select_len {G} mask : forall (l : list G), length (select_mask mask l) <= length l.
Proof.
  induction mask as [|b mask IH]; intros [|x l]; simpl; try lia.
  specialize (IH l). destruct b; simpl; lia.
Qed.
Lemma select_len_eq {G H} mask : forall (l : list G) (m : list H), length l = length m ->
  length (select_mask mask l) = length (select_mask mask m).
Proof.
  induction mask as [|b mask IH]; intros [|x l] [|y m] E; try discriminate; simpl; auto.
  injection E as E. destruct b; simpl; auto.
Qed.

Lemma randint_changed bs expected probability us ds g p :
  length us = length g -> length bs = length g -> length g <= length ds ->
  rate_is expected probability (length g) p -> (0 <= p)%Q -> (p <= 1)%Q ->
  Forall (fun b => fst b <= snd b)%Z bs ->
  exists g', individual_mutate_randint bs expected probability us ds g = Ok g' /\
    changed_where (drawn us p)
      (fun i _ x' => exists low high, nth_error bs i = Some (low, high) /\ low <= x' <= high)%Z
      (fun _ x x' => x' = x) g g'.
Proof.
  intros Hu Hb Hd Hr H0 H1 HF. unfold individual_mutate_randint.
  destruct (@mask_of_rate AssertionError expected probability us (length g) p Hr H0 H1) as [-> ->].
  cbn [bind]. rewrite map_length, Hu, Hb, Nat.eqb_refl.
  destruct (@randint_genes_spec (select_mask (map (fun u => Qltb u p) us) bs) ds) as (new & E & HF2).
  { etransitivity; [apply select_len|]. lia. }
  { apply select_forall; auto. }
  rewrite E. cbn [bind]. eexists. split; [reflexivity|].
  apply (@changed_by_mask Z (Z * Z) _ _ us p g new bs Hu Hb HF2).
  intros i x [low high] x' Hx Hbi HR. exists low, high. auto.
Qed.

(** ** Additive mutation with clipping *)
Lemma map3_F2 {A B C D} (f : A -> B -> C -> D) (P : C -> D -> Prop) :
  (forall a b c, P c (f a b c)) ->
  forall la lb lc, length la = length lc -> length lb = length lc -> Forall2 P lc (map3 f la lb lc).
Proof.
  intros HP. induction la as [|a la IH]; intros [|b lb] [|c lc] H1 H2; try discriminate; simpl; auto.
Qed.

Definition rank_true (mask : list bool) (i : nat) : nat := length (filter (fun b => b) (firstn i mask)).

Lemma assign_nth {G} (mask : list bool) : forall (l new : list G) i x,
  length mask = length l -> length new = length (select_mask mask l) -> nth_error l i = Some x ->
  nth_error (assign_mask mask l new) i =
  if nth i mask false then nth_error new (rank_true mask i) else Some x.
Proof.
  induction mask as [|b mask IH]; intros [|y l] new i x HL HN Hx; try discriminate;
    [destruct i; discriminate|].
  cbn [select_mask assign_mask] in *. injection HL as HL. destruct b.
  - destruct new as [|z new]; [discriminate|]. injection HN as HN. destruct i as [|i].
    + reflexivity.
    + cbn [nth_error nth]. rewrite (IH l new i x HL HN Hx). reflexivity.
  - destruct i as [|i]; [cbn; cbn in Hx; congruence|].
    cbn [nth_error nth]. rewrite (IH l new i x HL HN Hx). reflexivity.
Qed.

Lemma select_nth {G} (mask : list bool) : forall (l : list G) i, length mask = length l ->
  nth i mask false = true -> nth_error (select_mask mask l) (rank_true mask i) = nth_error l i.
Proof.
  induction mask as [|b mask IH]; intros [|y l] i HL Hm; try discriminate; [destruct i; discriminate|].
  injection HL as HL. destruct i as [|i].
  - cbn in Hm. subst b. reflexivity.
  - cbn [nth] in Hm. destruct b; cbn; apply IH; auto.
Qed.

Lemma map3_nth {A B C D} (f : A -> B -> C -> D) : forall la lb lc k,
  nth_error (map3 f la lb lc) k =
  match nth_error la k, nth_error lb k, nth_error lc k with
  | Some a, Some b, Some c => Some (f a b c)
  | _, _, _ => None
  end.
Proof.
  induction la as [|a la IH]; intros lb lc k.
  - cbn. destruct k; auto.
  - destruct lb as [|b lb]; [cbn; destruct k; cbn; auto; destruct (nth_error la k); auto|].
    destruct lc as [|c lc]; [cbn; destruct k; cbn; auto; destruct (nth_error la k); auto; destruct (nth_error lb k); auto|].
    destruct k; cbn; auto.
Qed.

Lemma map3_len {A B C D} (f : A -> B -> C -> D) : forall la lb lc,
  length la = length lc -> length lb = length lc -> length (map3 f la lb lc) = length lc.
Proof.
  induction la as [|a la IH]; intros [|b lb] [|c lc] H1 H2; try discriminate; cbn; auto.
Qed.

Lemma rank_selected us p i : rank_true (map (fun u => Qltb u p) us) i = selected_before us p i.
Proof.
  unfold rank_true, selected_before. rewrite firstn_map.
  induction (firstn i us) as [|u l IH]; cbn; auto.
  assert (E : Qltb u p = if Qlt_le_dec u p then true else false).
  { destruct (Qlt_le_dec u p) as [H|H]; [apply Qltb_lt; auto|].
    destruct (Qltb u p) eqn:E; auto. apply Qltb_lt in E. lra. }
  rewrite E. destruct (Qlt_le_dec u p); cbn; auto.
Qed.

Lemma nth_drawn us p i : nth i (map (fun u => Qltb u p) us) false = true <-> drawn us p i.
Proof.
  split.
  - intros H. destruct (nth_error us i) as [u|] eqn:E.
    + exists u. split; auto. rewrite (nth_error_nth (map (fun u => Qltb u p) us) i false (x:=Qltb u p)) in H.
      * apply Qltb_lt; auto.
      * rewrite nth_error_map, E. auto.
    + apply nth_error_None in E. rewrite nth_overflow in H by (rewrite map_length; auto). discriminate.
  - intros (u & E & H). rewrite (nth_error_nth (map (fun u => Qltb u p) us) i false (x:=Qltb u p)).
    + apply Qltb_lt; auto.
    + rewrite nth_error_map, E. auto.
Qed.

(** what an assignment through the mutation mask does, gene by gene *)
Lemma assign_drawn {G} us p (g new : list G) i x : length us = length g ->
  length new = length (select_mask (map (fun u => Qltb u p) us) g) -> nth_error g i = Some x ->
  exists x', nth_error (assign_mask (map (fun u => Qltb u p) us) g new) i = Some x' /\
    (drawn us p i -> nth_error new (selected_before us p i) = Some x') /\
    (~ drawn us p i -> x' = x).
Proof.
  intros Hu Hn Hx.
  pose proof (assign_nth (map (fun u => Qltb u p) us) g new i x) as A.
  rewrite map_length in A. specialize (A Hu Hn Hx). rewrite rank_selected in A.
  assert (HL : i < length (assign_mask (map (fun u => Qltb u p) us) g new)).
  { rewrite assign_length. apply nth_error_Some. congruence. }
  destruct (nth_error_ex _ _ HL) as [x' E]. exists x'. split; auto. rewrite E in A. split; intros D.
  - apply nth_drawn in D. rewrite D in A. congruence.
  - destruct (nth i (map (fun u => Qltb u p) us) false) eqn:Em; [|congruence].
    exfalso. apply D, nth_drawn, Em.
Qed.

Lemma select_drawn {G} us p (g : list G) i : length us = length g -> drawn us p i ->
  nth_error (select_mask (map (fun u => Qltb u p) us) g) (selected_before us p i) = nth_error g i.
Proof.
  intros Hu D. rewrite <- rank_selected. apply select_nth; [rewrite map_length; auto|]. apply nth_drawn; auto.
Qed.

Lemma Z_clip_clamped low high v : (low <= high)%Z -> Z_clamped low v high (Z_clip low high v).
Proof. unfold Z_clamped, Z_clip. lia. Qed.

Lemma ext_clip_clamped low high v : ext_le low high -> clamped low v high (ext_clip low high v).
Proof.
  intros H. unfold ext_clip, ext_max, ext_min. destruct (ext_ltb v low) eqn:E1.
  - assert (~ ext_le low v). { intros C. apply ext_ltb_le in C. congruence. }
    assert (E2 : ext_ltb high low = false) by (apply ext_ltb_le; auto). rewrite E2.
    split; [auto|]. split; [|intros; contradiction].
    intros C. exfalso. apply C. eapply ext_le_trans; [apply ext_ltb_lt_le; exact E1|]. auto.
  - apply ext_ltb_le in E1. destruct (ext_ltb high v) eqn:E2.
    + assert (~ ext_le v high). { intros C. apply ext_ltb_le in C. congruence. }
      split; [intros; contradiction|]. split; [auto|intros; contradiction].
    + apply ext_ltb_le in E2. split; [intros; contradiction|]. split; [intros; contradiction|auto].
Qed.

Lemma binomial_changed b expected probability us ks fls g p :
  length us = length g -> bounds_fit b (length g) ->
  length ks = length (select_mask (map (fun u => Qltb u p) us) g) -> length fls = length ks ->
  rate_is expected probability (length g) p -> (0 <= p)%Q -> (p <= 1)%Q ->
  (forall i low high, bound_at b i = Some (low, high) -> low <= high)%Z ->
  exists inplace g', genome_mutate_binomial b expected probability us ks fls g = Ok (inplace, g') /\
    changed_where (drawn us p)
      (fun i x x' => exists low high k fl, bound_at b i = Some (low, high) /\
         nth_error ks (selected_before us p i) = Some k /\ nth_error fls (selected_before us p i) = Some fl /\
         Z_clamped low (x + k - fl) high x')%Z
      (fun i x x' => exists low high, bound_at b i = Some (low, high) /\ Z_clamped low x high x')%Z g g'.
Proof.
  intros Hu Hf Hk Hfl Hr H0 H1 Hlh. unfold genome_mutate_binomial.
  destruct (@mask_of_rate AssertionError expected probability us (length g) p Hr H0 H1) as [-> ->].
  cbn [bind].
  set (new := map3 _ ks fls _).
  assert (Ln : length new = length (select_mask (map (fun u => Qltb u p) us) g)).
  { unfold new. apply map3_len; auto. congruence. }
  destruct (@clip_spec Z Z_clip (assign_mask (map (fun u => Qltb u p) us) g new) b) as (g' & E & L' & HC).
  { rewrite assign_length. auto. }
  rewrite E. cbn [bind]. eexists _, g'. split; [reflexivity|]. rewrite assign_length in L'. split; [lia|].
  intros i x Hx. destruct (assign_drawn us p g new i x Hu Ln Hx) as (x1 & E1 & D & K).
  destruct (HC i x1 E1) as (low & high & Eb & E2). exists (Z_clip low high x1). split; auto. split.
  - intros Hd. pose proof (select_drawn us p g i Hu Hd) as Es. rewrite Hx in Es.
    specialize (D Hd). unfold new in D. rewrite map3_nth, Es in D.
    destruct (nth_error ks _) as [k|] eqn:Ek; [|discriminate].
    destruct (nth_error fls _) as [fl|] eqn:Ef; [|discriminate].
    exists low, high, k, fl. repeat (split; [auto; fail|]).
    replace (x + k - fl)%Z with x1 by (injection D; lia). apply Z_clip_clamped. eauto.
  - intros Hd. rewrite (K Hd). exists low, high. split; auto. apply Z_clip_clamped. eauto.
Qed.

Lemma gaussian_changed stds expected b slope intercept us noise g p :
  length us = length g -> bounds_fit b (length g) ->
  length noise = length (select_mask (map (fun u => Qltb u p) us) g) ->
  match stds with inl s => 0 <= s | inr l => length l = length g end%Q ->
  match expected with
  | None => p == 1
  | Some e => length g <> 0%nat /\ p * inject_Z (Z.of_nat (length g)) == e
  end%Q -> (0 <= p)%Q -> (p <= 1)%Q ->
  (forall i low high, bound_at b i = Some (low, high) -> ext_le low high) ->
  exists inplace g', genome_mutate_gaussian stds expected b slope intercept us noise g = Ok (inplace, g') /\
    changed_where (drawn us p)
      (fun i x x' => exists low high z s, bound_at b i = Some (low, high) /\
         nth_error noise (selected_before us p i) = Some z /\ std_at stds i = Some s /\
         clamped low (Fin (slope * (x + z * s) + intercept)) high x')
      (fun i x x' => exists low high, bound_at b i = Some (low, high) /\ clamped low (Fin x) high x') g g'.
Proof.
  intros Hu Hf Hn Hs He H0 H1 Hlh. unfold genome_mutate_gaussian.
  assert (E1 : match stds with
          | inl s => if Qltb s 0 then Err AssertionError else Ok tt
          | inr _ => Ok tt end = Ok tt).
  { destruct stds; auto. destruct (Qltb q 0) eqn:E; auto. apply Qltb_lt in E. lra. }
  rewrite E1. cbn [bind].
  assert (E2 : exists p', match expected with
               | None => Ok 1%Q
               | Some e => compute_expected_probability e (length g) end = Ok p' /\ (p' == p)%Q).
  { destruct expected as [e|].
    - destruct He as [Hl He]. unfold compute_expected_probability.
      destruct (Nat.eqb_spec (length g) 0); [contradiction|]. eexists. split; [reflexivity|].
      pose proof (len_pos _ Hl). rewrite <- He. field. lra.
    - exists 1%Q. split; auto. symmetry; auto. }
  destruct E2 as (p' & -> & Ep). cbn [bind].
  rewrite bernoulli_ok by (rewrite Ep; auto). cbn [bind].
  assert (Em : map (fun u => Qltb u p') us = map (fun u => Qltb u p) us).
  { apply map_ext. intros u. apply Qltb_comp; auto. }
  rewrite Em. set (mask := map (fun u => Qltb u p) us) in *.
  assert (E3 : exists ss, match stds with
               | inl s => Ok (map (fun _ : Q => s) (select_mask mask g))
               | inr l => if length l =? length mask then Ok (select_mask mask l) else Err IndexError
               end = Ok ss /\ length ss = length (select_mask mask g) /\
               forall i, drawn us p i -> i < length g -> nth_error ss (selected_before us p i) = std_at stds i).
  { destruct stds as [s|l].
    - eexists. split; [reflexivity|]. rewrite map_length. split; auto. intros i Hd Hi.
      rewrite nth_error_map. unfold mask. rewrite select_drawn by auto.
      destruct (nth_error_ex g i Hi) as [y ->]. auto.
    - unfold mask at 1. rewrite map_length, Hs, Hu, Nat.eqb_refl. eexists. split; [reflexivity|].
      split; [apply select_len_eq; auto|]. intros i Hd Hi. unfold mask. rewrite select_drawn by congruence. auto. }
  destruct E3 as (ss & -> & Lss & Hss). cbn [bind]. set (new := map3 _ noise ss _).
  assert (Ln : length new = length (select_mask mask g)).
  { unfold new. apply map3_len; auto. }
  destruct (@clip_spec ext ext_clip (map Fin (assign_mask mask g new)) b) as (g' & E & L' & HC).
  { rewrite map_length, assign_length. auto. }
  rewrite E. cbn [bind]. eexists _, g'. split; [reflexivity|]. rewrite map_length, assign_length in L'. split; [lia|].
  intros i x Hx. destruct (assign_drawn us p g new i x Hu Ln Hx) as (x1 & E4 & D & K).
  assert (Hi : i < length g) by (apply nth_error_Some; congruence).
  destruct (HC i (Fin x1)) as (low & high & Eb & E5). { unfold mask. rewrite nth_error_map, E4. auto. }
  exists (ext_clip low high (Fin x1)). split; auto. split.
  - intros Hd. pose proof (select_drawn us p g i Hu Hd) as Es. rewrite Hx in Es.
    specialize (D Hd). unfold new in D. rewrite map3_nth in D. fold mask in Es. rewrite Es, (Hss i Hd Hi) in D.
    destruct (nth_error noise _) as [z|] eqn:Ek; [|discriminate].
    destruct (std_at stds i) as [s|] eqn:Ef; [|discriminate].
    exists low, high, z, s. repeat (split; [auto; fail|]). injection D as <-. apply ext_clip_clamped. eauto.
  - intros Hd. rewrite (K Hd). exists low, high. split; auto. apply ext_clip_clamped. eauto.
Qed.

(** ** Statements used by Props/Variation.v *)
Lemma cw_in_bounds {G N} (le : N -> N -> Prop) (sel : nat -> Prop) R K (b : bounds N) (g : list G) g' :
  (forall i, sel i \/ ~ sel i) ->
  changed_where sel R K g g' ->
  (forall i x x', R i x x' \/ K i x x' ->
     exists low high, bound_at b i = Some (low, high) /\ le low x' /\ le x' high) ->
  in_bounds le b g'.
Proof.
  intros Hd [L H] HB i x' Hx'.
  destruct (nth_error_ex g i) as [x Ex]. { rewrite <- L. apply nth_error_Some. congruence. }
  destruct (H i x Ex) as (x2 & E2 & A & B). rewrite Hx' in E2. injection E2 as <-.
  destruct (Hd i); eauto.
Qed.

Lemma Z_clamped_in low v high v' : (low <= high)%Z -> Z_clamped low v high v' -> (low <= v' <= high)%Z.
Proof.
  intros H (A & B & C). destruct (Z.le_ge_cases v low); [lia|]. destruct (Z.le_ge_cases high v); [lia|]. lia.
Qed.

Lemma ext_le_dec a b : ext_le a b \/ ~ ext_le a b.
Proof. destruct (ext_ltb b a) eqn:E; [right|left; apply ext_ltb_le; auto]. intros C. apply ext_ltb_le in C. congruence. Qed.

Lemma clamped_in low v high v' : ext_le low high -> clamped low v high v' -> ext_le low v' /\ ext_le v' high.
Proof.
  intros H (A & B & C). destruct (ext_le_dec low v) as [H1|H1].
  - destruct (ext_le_dec v high) as [H2|H2]; [rewrite (C H1 H2); auto|].
    rewrite (B H2). split; auto. apply ext_le_refl.
  - rewrite (A H1). split; auto. apply ext_le_refl.
Qed.

Lemma binomial_in_bounds b expected probability us ks fls g p :
  length us = length g -> bounds_fit b (length g) ->
  length ks = length (select_mask (map (fun u => Qltb u p) us) g) -> length fls = length ks ->
  rate_is expected probability (length g) p -> (0 <= p)%Q -> (p <= 1)%Q ->
  (forall i low high, bound_at b i = Some (low, high) -> low <= high)%Z ->
  exists inplace g', genome_mutate_binomial b expected probability us ks fls g = Ok (inplace, g') /\
    in_bounds Z.le b g' /\
    changed_where (drawn us p)
      (fun i x x' => exists low high k fl, bound_at b i = Some (low, high) /\
         nth_error ks (selected_before us p i) = Some k /\ nth_error fls (selected_before us p i) = Some fl /\
         Z_clamped low (x + k - fl) high x')%Z
      (fun i x x' => exists low high, bound_at b i = Some (low, high) /\ Z_clamped low x high x')%Z g g'.
Proof.
  intros Hu Hf Hk Hfl Hr H0 H1 Hlh.
  destruct (binomial_changed b expected probability us ks fls g p Hu Hf Hk Hfl Hr H0 H1 Hlh) as (ip & g' & E & C).
  exists ip, g'. split; auto. split; auto.
  eapply (cw_in_bounds Z.le); [apply drawn_dec|exact C|]. cbv beta.
  intros i x x' [(low & high & k & fl & Eb & _ & _ & HC)|(low & high & Eb & HC)]; exists low, high;
    (apply Z_clamped_in in HC; [|eauto]); split; auto; lia.
Qed.

Lemma gaussian_in_bounds stds expected b slope intercept us noise g p :
  length us = length g -> bounds_fit b (length g) ->
  length noise = length (select_mask (map (fun u => Qltb u p) us) g) ->
  match stds with inl s => 0 <= s | inr l => length l = length g end%Q ->
  match expected with
  | None => p == 1
  | Some e => length g <> 0%nat /\ p * inject_Z (Z.of_nat (length g)) == e
  end%Q -> (0 <= p)%Q -> (p <= 1)%Q ->
  (forall i low high, bound_at b i = Some (low, high) -> ext_le low high) ->
  exists inplace g', genome_mutate_gaussian stds expected b slope intercept us noise g = Ok (inplace, g') /\
    in_bounds ext_le b g' /\
    changed_where (drawn us p)
      (fun i x x' => exists low high z s, bound_at b i = Some (low, high) /\
         nth_error noise (selected_before us p i) = Some z /\ std_at stds i = Some s /\
         clamped low (Fin (slope * (x + z * s) + intercept)) high x')
      (fun i x x' => exists low high, bound_at b i = Some (low, high) /\ clamped low (Fin x) high x') g g'.
Proof.
  intros Hu Hf Hn Hs He H0 H1 Hlh.
  destruct (gaussian_changed stds expected b slope intercept us noise g p Hu Hf Hn Hs He H0 H1 Hlh) as (ip & g' & E & C).
  exists ip, g'. split; auto. split; auto.
  eapply (cw_in_bounds ext_le); [apply drawn_dec|exact C|]. cbv beta.
  intros i x x' [(low & high & k & fl & Eb & _ & _ & HC)|(low & high & Eb & HC)]; exists low, high;
    (apply clamped_in in HC; [|eauto]); split; auto; tauto.
Qed.

Lemma randint_in_bounds bs expected probability us ds g p :
  length us = length g -> length bs = length g -> length g <= length ds ->
  rate_is expected probability (length g) p -> (0 <= p)%Q -> (p <= 1)%Q ->
  Forall (fun b => fst b <= snd b)%Z bs ->
  exists g', individual_mutate_randint bs expected probability us ds g = Ok g' /\
    (in_bounds Z.le (BEach bs) g -> in_bounds Z.le (BEach bs) g') /\
    changed_where (drawn us p)
      (fun i _ x' => exists low high, nth_error bs i = Some (low, high) /\ low <= x' <= high)%Z
      (fun _ x x' => x' = x) g g'.
Proof.
  intros Hu Hb Hd Hr H0 H1 HF.
  destruct (randint_changed bs expected probability us ds g p Hu Hb Hd Hr H0 H1 HF) as (g' & E & C).
  exists g'. split; auto. split; auto. intros HB i x' Hx'. destruct C as [L C].
  destruct (nth_error_ex g i) as [x Ex]. { rewrite <- L. apply nth_error_Some. congruence. }
  destruct (C i x Ex) as (x2 & E2 & A & B). rewrite Hx' in E2. injection E2 as <-.
  destruct (drawn_dec us p i) as [D|D].
  - destruct (A D) as (low & high & El & Hl). exists low, high. cbn. auto.
  - rewrite (B D). apply HB; auto.
Qed.

(** every combination of in-range values can be drawn *)
Lemma randint_reaches : forall bs target us g, length us = length g -> length bs = length g ->
  length target = length g -> unit_draws us -> in_bounds Z.le (BEach bs) target ->
  exists ds, individual_mutate_randint bs None (Some 1%Q) us ds g = Ok target.
Proof.
  intros bs target us g Hu Hb Ht HU HB.
  exists (map (fun bt => snd bt - fst (fst bt))%Z (combine bs target)).
  unfold individual_mutate_randint.
  destruct (@mask_of_rate AssertionError None (Some 1%Q) us (length g) 1) as [-> ->]; try lra.
  { left. auto. }
  cbn [bind]. rewrite map_length, Hu, Hb, Nat.eqb_refl.
  assert (EM : map (fun u => Qltb u 1) us = map (fun _ => true) us).
  { apply map_ext_in. intros u Hi. apply Qltb_lt. unfold unit_draws in HU. rewrite Forall_forall in HU.
    apply HU in Hi. lra. }
  rewrite EM. clear EM HU.
  assert (ES : forall (us : list Q) (l : list (Z * Z)), length us = length l -> select_mask (map (fun _ => true) us) l = l).
  { induction us0 as [|u0 us0 IH]; intros [|x l] H; try discriminate; cbn; auto. f_equal. apply IH. auto. }
  rewrite ES by congruence.
  assert (EG : forall bs target, length bs = length target -> in_bounds Z.le (BEach bs) target ->
    randint_genes (map (fun bt => snd bt - fst (fst bt))%Z (combine bs target)) bs = Ok target).
  { clear. induction bs as [|[low high] bs IH]; intros [|t target] HL HB; try discriminate; cbn; auto.
    destruct (HB 0 t eq_refl) as (l & h & E & H1 & H2). cbn in E. injection E as <- <-.
    unfold randint_gene. destruct (Z.leb_spec (high + 1) low); [lia|]. cbn [bind].
    rewrite IH.
    - cbn [bind]. rewrite Z.mod_small by lia. repeat f_equal. lia.
    - auto.
    - intros i x Hx. apply (HB (S i) x Hx). }
  rewrite EG by (auto; congruence). cbn [bind]. f_equal.
  assert (EA : forall (us : list Q) (g t : list Z), length us = length g -> length t = length g ->
    assign_mask (map (fun _ => true) us) g t = t).
  { clear. induction us as [|u us IH]; intros [|x g] [|y t] H1 H2; try discriminate; cbn; auto. f_equal. apply IH; auto. }
  apply EA; auto.
Qed.

Lemma bitflip_full expected probability us g p :
  length us = length g -> rate_is expected probability (length g) p -> (0 <= p)%Q -> (p <= 1)%Q -> binary g ->
  exists g', genome_mutate_bitflip expected probability us g = Ok g' /\ binary g' /\
    changed_where (drawn us p) (fun _ x x' => x' = 1 - x)%Z (fun _ x x' => x' = x) g g'.
Proof.
  intros Hu Hr H0 H1 Hb.
  destruct (bitflip_changed expected probability us g p Hu Hr H0 H1 Hb) as (g' & E & C).
  exists g'. split; auto. split; auto. eapply changed_binary; eauto. intros. apply drawn_dec.
Qed.

Lemma bitflip_extremes us g : length us = length g -> unit_draws us -> binary g ->
  genome_mutate_bitflip None (Some 1%Q) us g = Ok (map (fun x => 1 - x)%Z g) /\
  genome_mutate_bitflip None (Some 0%Q) us g = Ok g.
Proof.
  intros Hu HU Hb.
  assert (HD : forall i, i < length g -> exists u, nth_error us i = Some u /\ (0 <= u)%Q /\ (u < 1)%Q).
  { intros i Hi. destruct (nth_error_ex us i) as [u E]; [congruence|]. exists u. split; auto.
    unfold unit_draws in HU. rewrite Forall_forall in HU. apply HU. eapply nth_error_In; eauto. }
  split.
  - destruct (bitflip_changed None (Some 1%Q) us g 1) as (g' & E & L & C); auto; try lra.
    { left; auto. }
    rewrite E. f_equal. apply nth_error_ext; [rewrite map_length; auto|].
    intros i x' Hx'. destruct (nth_error_ex g i) as [x Ex]. { rewrite <- L. apply nth_error_Some. congruence. }
    destruct (C i x Ex) as (x2 & E2 & A & _). rewrite Hx' in E2. injection E2 as <-.
    rewrite nth_error_map, Ex. cbn. f_equal. symmetry. apply A.
    destruct (HD i) as (u & Eu & H1 & H2). { apply nth_error_Some. congruence. } exists u. auto.
  - destruct (bitflip_changed None (Some 0%Q) us g 0) as (g' & E & L & C); auto; try lra.
    { left; auto. }
    rewrite E. f_equal. apply nth_error_ext; [auto|].
    intros i x' Hx'. destruct (nth_error_ex g i) as [x Ex]. { rewrite <- L. apply nth_error_Some. congruence. }
    destruct (C i x Ex) as (x2 & E2 & _ & A). rewrite Hx' in E2. injection E2 as <-.
    rewrite Ex. f_equal. symmetry. apply A. intros (u & Eu & Hu').
    destruct (HD i) as (u2 & Eu2 & H1 & H2). { apply nth_error_Some. congruence. }
    rewrite Eu in Eu2. injection Eu2 as <-. lra.
Qed.

Lemma uniform_full {G} (mask : list bool) (a b : list G) :
  length a = length mask -> length b = length mask ->
  exists a' b', uniform_recombine mask a b = Ok (a', b') /\
    exchanged (fun i => nth i mask false) a b a' b' /\
    Permutation (a' ++ b') (a ++ b) /\ uniform_recombine mask a' b' = Ok (a, b).
Proof.
  intros Ha Hb. destruct (uniform_exchanged mask a b Ha Hb) as (a' & b' & E & X).
  exists a', b'. split; auto. split; auto. split; [eapply exchanged_perm; eauto; congruence|].
  pose proof X as (L1 & L2 & _).
  destruct (uniform_exchanged mask a' b') as (a2 & b2 & E2 & X2); try congruence.
  destruct (exchanged_twice (fun i => nth i mask false) a b a' b' a2 b2) as [-> ->]; auto. congruence.
Qed.

Lemma nary_full {G} n draws (a b : list G) :
  length a = length b -> length draws = n -> n <= length a -> Forall (fun p => p < length a) draws ->
  exists a' b', nary_recombine n draws a b = Ok (a', b') /\
    exchanged (fun i => Nat.odd (cuts_upto draws i)) a b a' b' /\
    Permutation (a' ++ b') (a ++ b) /\
    source_changes (fun i => Nat.odd (cuts_upto draws i)) (length a) <= n.
Proof.
  intros Ha Hd Hn HF. destruct (nary_exchanged n draws a b Ha Hd Hn HF) as (a' & b' & E & X).
  exists a', b'. split; auto. split; auto. split; [eapply exchanged_perm; eauto|].
  rewrite <- Hd. apply changes_le.
Qed.

Lemma gaussian_parameters stds expected b slope intercept us noise g :
  (expected = None -> mutate_gaussian stds expected b slope intercept us noise g = Err ValueError) /\
  (forall e s, expected = Some e -> stds = inl s -> (s < 0)%Q ->
     mutate_gaussian stds expected b slope intercept us noise g = Err AssertionError) /\
  (forall l, expected = Some None -> stds = inr l -> length us = length g -> length l <> length g ->
     mutate_gaussian stds expected b slope intercept us noise g = Err IndexError) /\
  (forall e, expected = Some e ->
     mutate_gaussian stds expected b slope intercept us noise g = genome_mutate_gaussian stds e b slope intercept us noise g).
Proof.
  split; [intros ->; reflexivity|]. split; [|split].
  - intros e s -> -> H. unfold mutate_gaussian, genome_mutate_gaussian. apply Qltb_lt in H. rewrite H. reflexivity.
  - intros l -> -> L N. unfold mutate_gaussian, genome_mutate_gaussian. cbn [bind]. unfold random_bernoulli_vector.
    match goal with |- context [if ?c then _ else _] => replace c with true by reflexivity end.
    cbn [bind]. rewrite map_length, L. apply Nat.eqb_neq in N. rewrite N. reflexivity.
  - intros e ->. reflexivity.
Qed.
