From Verif Require Import Model.Base Model.Segmented Model.SegMutate Spec.Segmented Spec.SegMutate.
From Coq Require Import Lia Permutation.

Lemma F2_cons {A B} (P : A -> B -> Prop) a l b l' : Forall2 P (a :: l) (b :: l') -> P a b /\ Forall2 P l l'.
Proof. intros H. inversion H. auto. Qed.

Section Proofs.
Context {G : Type}.
Implicit Types (st : store G) (ms : list (smutator G)).

Lemma call_ok (m : smutator G) st a g' : a < s_next st -> turns_into m (s_seg st a) g' ->
  exists st1 b, call_mutator m st a = (st1, Ok b) /\ s_seg st1 b = g' /\ s_next st <= s_next st1 /\
    b < s_next st1 /\ (b = a \/ s_next st <= b) /\
    (forall c, c < s_next st -> c <> a -> s_seg st1 c = s_seg st c) /\ s_seg st1 a = fst (m (s_seg st a)).
Proof.
  intros Ha (w & r & Em & ->). unfold call_mutator. rewrite Em. destruct r as [g|].
  - cbn [new_seg]. eexists _, _. split; [reflexivity|]. cbn. rewrite Nat.eqb_refl.
    repeat split; auto; try lia.
    + intros c Hc Hca. destruct (Nat.eqb_spec c (s_next st)); [lia|]. destruct (Nat.eqb_spec c a); [contradiction|auto].
    + destruct (Nat.eqb_spec a (s_next st)); [lia|]. rewrite Nat.eqb_refl. auto.
  - eexists _, _. split; [reflexivity|]. cbn. rewrite Nat.eqb_refl. repeat split; auto.
    intros c Hc Hca. destruct (Nat.eqb_spec c a); [contradiction|auto].
Qed.

Lemma sw_map_ext ms (f h : nat -> list G) l gs' :
  (forall a, In a l -> f a = h a) -> segment_wise ms (map f l) gs' -> segment_wise ms (map h l) gs'.
Proof. intros E. rewrite (map_ext_in f h l E). auto. Qed.

Lemma mutate_each_ok ms : forall segments st acc gs',
  NoDup segments -> Forall (fun a => a < s_next st) segments ->
  segment_wise ms (map (s_seg st) segments) gs' ->
  Forall (fun a => a < s_next st) acc -> (forall a, In a acc -> ~ In a segments) -> NoDup acc ->
  exists st1 new, mutate_each segments ms st acc = (st1, Ok (acc ++ new)) /\
    map (s_seg st1) new = gs' /\ s_next st <= s_next st1 /\
    Forall (fun a => a < s_next st1) new /\ NoDup (acc ++ new) /\
    (forall b, In b new -> In b segments \/ s_next st <= b) /\
    forall c, c < s_next st -> ~ In c segments -> s_seg st1 c = s_seg st c.
Proof.
  induction ms as [|m ms IH]; intros segments st acc gs' HD HS HW HA HN HDA.
  - inversion HW. destruct segments; [|discriminate]. exists st, []. cbn. rewrite app_nil_r.
    repeat split; auto; intros b [].
  - destruct segments as [|a segments]; [inversion HW|]. cbn [map] in HW.
    assert (HW1 : exists g' gs1, gs' = g' :: gs1 /\ turns_into m (s_seg st a) g' /\
              segment_wise ms (map (s_seg st) segments) gs1)
      by (inversion HW; eauto 10). clear HW. destruct HW1 as (g' & gs1 & -> & HT & HW).
    pose proof (Forall_inv HS) as Ha. pose proof (Forall_inv_tail HS) as HS1. cbn in Ha.
    apply NoDup_cons_iff in HD. destruct HD as [Hna HD].
    destruct (call_ok m st a g' Ha HT) as (st1 & b & E1 & Eb & Hle & Hb & Hor & Hk & _).
    assert (Hb_out : ~ In b segments).
    { destruct Hor as [->|H]; auto. intros C. rewrite Forall_forall in HS1. specialize (HS1 b C). cbn in HS1. lia. }
    assert (Hb_acc : ~ In b acc).
    { destruct Hor as [->|H]; [intros C; apply (HN a C); left; auto|].
      intros C. rewrite Forall_forall in HA. specialize (HA b C). cbn in HA. lia. }
    edestruct (IH segments st1 (acc ++ [b]) gs1) as (st2 & new & E2 & Em & Hle2 & HF2 & HD2 & Hin2 & Hk2).
    + auto.
    + eapply Forall_impl; [|exact HS1]. cbn. intros. lia.
    + eapply sw_map_ext; [|exact HW]. intros c Hc. symmetry. apply Hk.
      * rewrite Forall_forall in HS1. apply HS1. auto.
      * intros ->. contradiction.
    + apply Forall_app. split; [|constructor; auto].
      eapply Forall_impl; [|exact HA]. cbn. intros. lia.
    + intros c Hc. apply in_app_or in Hc. destruct Hc as [Hc|[<-|[]]]; auto.
      intros C. apply (HN c Hc). right. auto.
    + assert (H : NoDup (b :: acc)) by (constructor; auto).
      eapply Permutation_NoDup; [|exact H]. apply Permutation_cons_append.
    + exists st2, (b :: new). rewrite <- app_assoc in E2. cbn [app] in E2. rewrite <- app_assoc in HD2. cbn [app] in HD2.
      cbn [mutate_each]. rewrite E1, E2. split; auto. split.
      { cbn [map]. f_equal; auto. rewrite <- Eb. apply Hk2; auto. }
      split; [lia|]. split; [constructor; auto; lia|]. split; auto. split.
      * intros c [<-|Hc]; [destruct Hor as [->|H]; [left; left; auto|right; auto]|].
        destruct (Hin2 c Hc); [left; right; auto|right; lia].
      * intros c Hc Hnc. rewrite Hk2; [apply Hk; auto; intros ->; apply Hnc; left; auto|lia|].
        intros C. apply Hnc. right. auto.
Qed.

Lemma sw_length ms gs gs' : segment_wise ms gs gs' -> length gs = length ms /\ length gs' = length ms.
Proof. induction 1; cbn; intuition. Qed.

Lemma turn_ok ms st x gs' : seg_sane st x -> NoDup (sg_genome x) -> segment_wise ms (contents st x) gs' ->
  exists st1 y, segmented_mutate ms st x = (st1, y, Ok tt) /\ contents st1 y = gs' /\
    sg_fitness y = None /\ seg_sane st1 y /\ NoDup (sg_genome y) /\ s_next st <= s_next st1 /\
    (forall b, In b (sg_genome y) -> In b (sg_genome x) \/ s_next st <= b) /\
    forall c, c < s_next st -> ~ In c (sg_genome x) -> s_seg st1 c = s_seg st c.
Proof.
  intros HS HD HW. unfold segmented_mutate. destruct (sw_length _ _ _ HW) as [HL _].
  unfold contents in HL. rewrite map_length in HL. rewrite HL, Nat.eqb_refl.
  destruct (mutate_each_ok ms (sg_genome x) st [] gs' HD HS HW) as (st1 & new & -> & Em & Hle & HF & HD1 & Hin & Hk).
  - constructor.
  - intros a [].
  - constructor.
  - exists st1, (mk_sind new None). cbn in *. repeat split; auto.
Qed.

Lemma mismatch ms st x : length (sg_genome x) <> length ms ->
  segmented_mutate ms st x = (st, x, Err NameError).
Proof. intros H. unfold segmented_mutate. destruct (Nat.eqb_spec (length (sg_genome x)) (length ms)); [contradiction|auto]. Qed.

Lemma mutate_each_fails ms1 m ms2 e : forall seg1 st a seg2 acc gs1 w,
  NoDup (seg1 ++ a :: seg2) -> Forall (fun a => a < s_next st) (seg1 ++ a :: seg2) ->
  segment_wise ms1 (map (s_seg st) seg1) gs1 -> m (s_seg st a) = (w, Err e) ->
  exists st1, mutate_each (seg1 ++ a :: seg2) (ms1 ++ m :: ms2) st acc = (st1, Err e) /\
    (forall c, c < s_next st -> ~ In c seg1 -> c <> a -> s_seg st1 c = s_seg st c) /\
    map (s_seg st1) seg1 = left_behind ms1 (map (s_seg st) seg1) /\ s_seg st1 a = w.
Proof.
  induction ms1 as [|m1 ms1 IH]; intros seg1 st a seg2 acc gs1 w HD HS HW Em.
  - inversion HW. destruct seg1; [|discriminate]. cbn [app mutate_each]. unfold call_mutator. rewrite Em.
    eexists. split; [reflexivity|]. split; [|split; [reflexivity|cbn; rewrite Nat.eqb_refl; auto]].
    intros c Hc _ Hca. cbn. destruct (Nat.eqb_spec c a); [contradiction|auto].
  - destruct seg1 as [|a1 seg1]; [inversion HW|]. cbn [map] in HW.
    assert (HW1 : exists g' gs2, gs1 = g' :: gs2 /\ turns_into m1 (s_seg st a1) g' /\
              segment_wise ms1 (map (s_seg st) seg1) gs2)
      by (inversion HW; eauto 10). clear HW. destruct HW1 as (g' & gs2 & -> & HT & HW).
    cbn [app] in *. pose proof (Forall_inv HS) as Ha. pose proof (Forall_inv_tail HS) as HS1. cbn in Ha.
    apply NoDup_cons_iff in HD. destruct HD as [Hna HD].
    destruct (call_ok m1 st a1 g' Ha HT) as (st1 & b & E1 & Eb & Hle & Hb & Hor & Hk & Hwr).
    assert (HF : Forall (fun c => c < s_next st /\ c <> a1) (seg1 ++ a :: seg2)).
    { apply Forall_forall. intros c Hc. split; [rewrite Forall_forall in HS1; apply HS1; auto|intros ->; contradiction]. }
    edestruct (IH seg1 st1 a seg2 (acc ++ [b]) gs2 w) as (st2 & E2 & Hk2 & Hm2 & Hw2).
    + auto.
    + eapply Forall_impl; [|exact HF]. cbn. intros. lia.
    + eapply sw_map_ext; [|exact HW]. intros c Hc. symmetry.
      rewrite Forall_forall in HF. destruct (HF c) as [H1 H2]; [apply in_or_app; auto|]. apply Hk; auto.
    + rewrite Hk; auto; rewrite Forall_forall in HF; apply HF; apply in_or_app; right; left; auto.
    + exists st2. cbn [mutate_each]. rewrite E1, E2. split; auto. split; [|split; [|exact Hw2]].
      * intros c Hc Hn Hca.
        rewrite Hk2; auto; [|lia|intros C; apply Hn; right; auto]. apply Hk; auto. intros ->. apply Hn. left. auto.
      * cbn [map left_behind combine]. f_equal.
        -- rewrite Hk2; auto; [lia|intros C; apply Hna; apply in_or_app; auto|].
           intros ->. apply Hna. apply in_or_app. right. left. auto.
        -- rewrite Hm2. unfold left_behind. do 2 f_equal. apply map_ext_in. intros c Hc.
           rewrite Forall_forall in HF. destruct (HF c) as [H1 H2]; [apply in_or_app; auto|]. apply Hk; auto.
Qed.

Lemma turn_fails ms1 m ms2 st x seg1 a seg2 gs1 w e :
  sg_genome x = seg1 ++ a :: seg2 -> length seg2 = length ms2 ->
  seg_sane st x -> NoDup (sg_genome x) ->
  segment_wise ms1 (map (s_seg st) seg1) gs1 -> m (s_seg st a) = (w, Err e) ->
  exists st1, segmented_mutate (ms1 ++ m :: ms2) st x = (st1, x, Err e) /\
    (forall c, c < s_next st -> ~ In c seg1 -> c <> a -> s_seg st1 c = s_seg st c) /\
    map (s_seg st1) seg1 = left_behind ms1 (map (s_seg st) seg1) /\ s_seg st1 a = w.
Proof.
  intros Eg HL2 HS HD HW Em. unfold seg_sane in HS. rewrite Eg in *.
  destruct (sw_length _ _ _ HW) as [HL _]. rewrite map_length in HL.
  unfold segmented_mutate. rewrite Eg.
  replace (length (seg1 ++ a :: seg2) =? length (ms1 ++ m :: ms2)) with true
    by (symmetry; apply Nat.eqb_eq; rewrite !app_length; cbn; lia).
  destruct (mutate_each_fails ms1 m ms2 e seg1 st a seg2 [] gs1 w HD HS HW Em) as (st1 & -> & Hk & Hm & Hw).
  exists st1. auto.
Qed.

Lemma NoDup_app_inv {A} (l1 l2 : list A) : NoDup (l1 ++ l2) ->
  NoDup l1 /\ NoDup l2 /\ forall x, In x l1 -> ~ In x l2.
Proof.
  induction l1 as [|a l1 IH]; cbn; intros H; [repeat split; auto; constructor|].
  apply NoDup_cons_iff in H. destruct H as [H1 H2]. destruct (IH H2) as (H3 & H4 & H5). repeat split; auto.
  - constructor; auto. intros C. apply H1. apply in_or_app. auto.
  - intros x [<-|Hx]; auto. intros C. apply H1. apply in_or_app. auto.
Qed.

Lemma all_ok mss : forall xs st gss,
  Forall (seg_sane st) xs -> NoDup (all_segments xs) ->
  Forall2 (fun ms p => segment_wise ms (contents st (fst p)) (snd p)) mss (combine xs gss) ->
  length xs = length gss ->
  exists st1 ys, segmented_mutate_all mss st xs = (st1, ys, Ok tt) /\
    map (contents st1) ys = gss /\ Forall (fun y => sg_fitness y = None) ys /\
    Forall (seg_sane st1) ys /\ NoDup (all_segments ys) /\ s_next st <= s_next st1 /\
    (forall b, In b (all_segments ys) -> In b (all_segments xs) \/ s_next st <= b) /\
    forall c, c < s_next st -> ~ In c (all_segments xs) -> s_seg st1 c = s_seg st c.
Proof.
  induction mss as [|ms mss IH]; intros xs st gss HS HD HW HL.
  - assert (combine xs gss = []) by (inversion HW; auto).
    destruct xs as [|x xs]; [|destruct gss; [discriminate|discriminate]]. destruct gss; [|discriminate].
    exists st, []. cbn. repeat split; auto; constructor.
  - destruct xs as [|x xs]; [inversion HW|]. destruct gss as [|gs gss]; [discriminate|].
    cbn [combine] in HW. apply F2_cons in HW. destruct HW as [HW1 HW]. cbn [fst snd] in HW1.
    cbn [all_segments flat_map] in HD. apply NoDup_app_inv in HD. destruct HD as (HD1 & HD2 & HD3).
    pose proof (Forall_inv HS) as HSx. apply Forall_inv_tail in HS.
    destruct (turn_ok ms st x gs HSx HD1 HW1) as (st1 & y & E1 & Ec & Ef & Hsy & HDy & Hle & Hin & Hk).
    assert (Hsame : forall z, In z xs -> contents st1 z = contents st z).
    { intros z Hz. unfold contents. apply map_ext_in. intros c Hc. apply Hk.
      - rewrite Forall_forall in HS. specialize (HS z Hz). unfold seg_sane in HS. rewrite Forall_forall in HS. auto.
      - intros C. apply (HD3 c C). unfold all_segments. apply in_flat_map. eauto. }
    assert (Hlt : forall c, In c (all_segments xs) -> c < s_next st).
    { intros c Hc. apply in_flat_map in Hc. destruct Hc as (z & Hz & Hc). rewrite Forall_forall in HS.
      specialize (HS z Hz). unfold seg_sane in HS. rewrite Forall_forall in HS. auto. }
    edestruct (IH xs st1 gss) as (st2 & ys & E2 & Ecs & Efs & Hss & HDs & Hle2 & Hin2 & Hk2).
    + apply Forall_forall. intros z Hz. rewrite Forall_forall in HS. specialize (HS z Hz).
      unfold seg_sane in *. eapply Forall_impl; [|exact HS]. cbn. intros. lia.
    + exact HD2.
    + clear - HW Hsame. revert gss HW. induction mss as [|ms' mss IHm] in xs, Hsame |- *; intros gss HW.
      * inversion HW. constructor.
      * destruct xs as [|z xs]; [inversion HW|]. destruct gss as [|g gss]; [inversion HW|].
        cbn [combine] in *. apply F2_cons in HW. destruct HW as [H1 H2]. constructor.
        -- cbn [fst snd] in *. rewrite Hsame; [auto|left; auto].
        -- apply IHm; auto. intros. apply Hsame. right. auto.
    + cbn in HL. lia.
    + exists st2, (y :: ys). cbn [segmented_mutate_all]. rewrite E1, E2. split; auto.
      assert (Hy : forall c, In c (sg_genome y) -> ~ In c (all_segments xs)).
      { intros c Hc C. destruct (Hin c Hc) as [H|H]; [apply (HD3 c H C)|]. specialize (Hlt c C). lia. }
      assert (Hylt : forall c, In c (sg_genome y) -> c < s_next st1).
      { intros c Hc. unfold seg_sane in Hsy. rewrite Forall_forall in Hsy. auto. }
      split.
      { cbn [map]. f_equal; auto. rewrite <- Ec. unfold contents. apply map_ext_in. intros c Hc. apply Hk2; auto. }
      split; [constructor; auto|]. split.
      { constructor; auto. unfold seg_sane in *. eapply Forall_impl; [|exact Hsy]. cbn. intros. lia. }
      split.
      { cbn [all_segments flat_map]. fold (all_segments ys).
        assert (Hdis : forall c, In c (sg_genome y) -> ~ In c (all_segments ys)).
        { intros c Hc C. destruct (Hin2 c C) as [H|H]; [apply (Hy c Hc H)|]. specialize (Hylt c Hc). lia. }
        clear - HDy HDs Hdis. induction (sg_genome y) as [|a l IHl]; cbn; auto.
        apply NoDup_cons_iff in HDy. destruct HDy as [H1 H2]. constructor.
        - intros C. apply in_app_or in C. destruct C as [C|C]; auto. apply (Hdis a); auto. left. auto.
        - apply IHl; auto. intros c Hc. apply Hdis. right. auto. }
      split; [lia|]. split.
      * intros b Hb. cbn [all_segments flat_map] in *. apply in_app_or in Hb. destruct Hb as [Hb|Hb].
        -- destruct (Hin b Hb); [left; apply in_or_app; auto|right; auto].
        -- destruct (Hin2 b Hb); [left; apply in_or_app; auto|right; lia].
      * intros c Hc Hn. cbn [all_segments flat_map] in Hn. rewrite Hk2; [apply Hk; auto|lia|].
        -- intros C. apply Hn. apply in_or_app. auto.
        -- intros C. apply Hn. apply in_or_app. auto.
Qed.
End Proofs.
