From Verif Require Import Model.Base Model.PyList Model.Scalar Model.Selection Model.Migration Spec.Order Spec.Selection Spec.Migration Proofs.Order Proofs.ScalarSel Proofs.Algorithm.
From Coq Require Import Lia Sorted.

Section P.
Context {G : Type}.
Implicit Types (c : mig_call G) (pop : list (mind G)) (st : mig_state G).

Lemma immigrate_spec c : honest_selector (c_replace c) ->
  forall imms i pop pop' atts, immigrate c i imms pop = Ok (pop', atts) ->
  map a_imm atts = imms /\
  (forall k a, nth_error atts k = Some a -> a_stamped a = c_stamp c (i + k) (a_imm a)) /\
  played pop atts pop'.
Proof.
  intros Hh. induction imms as [|imm imms IH]; intros i pop pop' atts H; simpl in H.
  - injection H as <- <-. repeat split; [|constructor]. intros [|k] a Ha; discriminate Ha.
  - destruct (c_replace c i pop) as [[x ix]|e] eqn:Er; [|discriminate].
    destruct (Hh i pop x ix Er) as (k & rest & -> & Hk).
    assert (Hlt : k < length pop) by (apply nth_error_Some; congruence).
    destruct (mind_ge (c_coin c i) (c_stamp c i imm) x) eqn:Es.
    + rewrite (proj2 (Nat.ltb_lt _ _) Hlt) in H.
      destruct (immigrate c (S i) imms (set_nth k (c_stamp c i imm) pop)) as [[p2 at2]|e] eqn:Ei; [|discriminate].
      injection H as <- <-. destruct (IH _ _ _ _ Ei) as (H1 & H2 & H3).
      split; [simpl; f_equal; exact H1|]. split.
      * intros [|j] a Ha; simpl in Ha.
        -- injection Ha as <-. simpl. rewrite Nat.add_0_r. reflexivity.
        -- rewrite (H2 _ _ Ha). f_equal. lia.
      * eapply pl_win; [reflexivity|exact Hk| |apply set_nth_replaced, Hlt|exact H3].
        simpl. apply (worse_than_false _ (c_coin c i)).
        unfold mind_ge in Es. apply negb_true_iff in Es. exact Es.
    + destruct (immigrate c (S i) imms pop) as [[p2 at2]|e] eqn:Ei; [|discriminate].
      injection H as <- <-. destruct (IH _ _ _ _ Ei) as (H1 & H2 & H3).
      split; [simpl; f_equal; exact H1|]. split.
      * intros [|j] a Ha; simpl in Ha.
        -- injection Ha as <-. simpl. rewrite Nat.add_0_r. reflexivity.
        -- rewrite (H2 _ _ Ha). f_equal. lia.
      * apply pl_fail; [reflexivity|exact Hk| |exact H3]. simpl.
        unfold mind_ge in Es. apply negb_false_iff in Es.
        destruct (isnan (m_fit x)) eqn:Nx; destruct (isnan (m_fit (c_stamp c i imm))) eqn:Ni.
        -- right. rewrite !viable_isnan. split; congruence.
        -- left. apply worse_than_spec in Es; [exact Es|]. left. apply viable_isnan, Ni.
        -- left. apply worse_than_spec in Es; [exact Es|]. right. apply viable_isnan, Nx.
        -- left. apply worse_than_spec in Es; [exact Es|]. right. apply viable_isnan, Nx.
Qed.

Lemma replaced_length {A} i (x : A) l r : replaced_at i x l r -> length r = length l.
Proof. intros (l1 & o & l2 & -> & -> & _). rewrite !app_length. reflexivity. Qed.

Lemma replaced_nth {A} i (x : A) l r j : replaced_at i x l r ->
  nth_error r j = if j =? i then Some x else nth_error l j.
Proof.
  intros (l1 & o & l2 & -> & -> & <-). destruct (Nat.eqb_spec j (length l1)) as [->|Hn].
  - rewrite nth_error_app2, Nat.sub_diag by lia. reflexivity.
  - destruct (Nat.lt_ge_cases j (length l1)).
    + rewrite !nth_error_app1 by lia. reflexivity.
    + rewrite !nth_error_app2 by lia. destruct (j - length l1) eqn:E; [lia|reflexivity].
Qed.

Lemma succession_weaken (A B : list (mind G)) x y : incl A B -> succession A x y -> succession B x y.
Proof. intros HI H. induction H as [x|x y z H IH Hz Hb]; [constructor|].
  exact (succ_step _ _ _ _ IH (HI z Hz) Hb). Qed.

Lemma succession_trans (A : list (mind G)) x y z : succession A x y -> succession A y z -> succession A x z.
Proof. intros H1 H2. induction H2 as [y|y z w H2 IH Hw Hb]; [exact H1|].
  exact (succ_step _ _ _ _ (IH H1) Hw Hb). Qed.

Lemma played_succession pop atts pop' : played pop atts pop' ->
  length pop' = length pop /\
  forall j x, nth_error pop j = Some x ->
    exists y, nth_error pop' j = Some y /\ succession (map a_stamped atts) x y.
Proof.
  induction 1 as [pop|pop a r pop' Hs Hn Hb Hp [IL IH]|pop a r pop1 pop' Hs Hn Hb Hr Hp [IL IH]].
  - split; [reflexivity|]. intros j x Hx. exists x. split; [exact Hx|constructor].
  - split; [exact IL|]. intros j x Hx. destruct (IH j x Hx) as (y & Hy & Sy).
    exists y. split; [exact Hy|]. eapply succession_weaken; [|exact Sy]. intros w Hw. right. exact Hw.
  - split; [rewrite IL; eapply replaced_length; exact Hr|]. intros j x Hx.
    pose proof (replaced_nth _ _ _ _ j Hr) as E. destruct (Nat.eqb_spec j (a_index a)) as [->|Hj].
    + destruct (IH _ _ E) as (y & Hy & Sy). exists y. split; [exact Hy|].
      rewrite Hn in Hx. injection Hx as <-.
      apply succession_trans with (a_stamped a).
      * eapply succ_step; [constructor|left; reflexivity|exact Hb].
      * eapply succession_weaken; [|exact Sy]. intros w Hw. right. exact Hw.
    + rewrite Hx in E. destruct (IH _ _ E) as (y & Hy & Sy). exists y. split; [exact Hy|].
      eapply succession_weaken; [|exact Sy]. intros w Hw. right. exact Hw.
Qed.

Lemma succession_same_problem mx (A : list (mind G)) x y :
  (forall z, In z A -> m_max z = mx) -> succession A x y -> ~ better mx (m_fit x) (m_fit y).
Proof.
  intros HA H. induction H as [x|x y z Hs IH Hz Hn]; [apply better_irrefl|].
  rewrite (HA z Hz) in Hn. intros Hb. destruct (better_split mx _ (m_fit y) _ Hb); tauto.
Qed.

Lemma succession_origin (A : list (mind G)) x y : succession A x y -> y = x \/ In y A.
Proof. intros H. destruct H; [left; reflexivity|right; assumption]. Qed.

Section Run.
Variable gap : Z.
Variable neighbors : nat -> list nat.

Lemma do_migrate_spec st c o st' : honest_selector (c_replace c) ->
  do_migrate gap neighbors st c = Ok (o, st') ->
  exists imms, nth_error (g_waiting st) (c_island c) = Some imms /\
  map a_imm (o_attempts o) = imms /\
  (forall k a, nth_error (o_attempts o) k = Some a -> a_stamped a = c_stamp c k (a_imm a)) /\
  played (c_pop c) (o_attempts o) (o_after o) /\
  o_before o = c_pop c /\ o_island o = c_island c /\ o_gen o = c_gen c.
Proof.
  intros Hh H. unfold do_migrate in H.
  destruct (nth_error (g_waiting st) (c_island c)) as [imms|] eqn:Ew; [|discriminate].
  exists imms. split; [reflexivity|].
  destruct (immigrate c 0 imms (c_pop c)) as [[pop' atts]|e] eqn:Ei; [|discriminate].
  destruct (emigrate gap neighbors c pop' _) as [[st2 sent]|e]; [|discriminate].
  injection H as <- _. simpl. destruct (immigrate_spec c Hh _ _ _ _ _ Ei) as (H1 & H2 & H3). auto 10.
Qed.

Lemma do_migrate_preserves st c o st' : honest_selector (c_replace c) ->
  do_migrate gap neighbors st c = Ok (o, st') ->
  played (c_pop c) (o_attempts o) (o_after o) /\
  (forall k a, nth_error (o_attempts o) k = Some a -> a_stamped a = c_stamp c k (a_imm a)) /\
  length (o_after o) = length (c_pop c) /\
  (forall j x, nth_error (c_pop c) j = Some x ->
     exists y, nth_error (o_after o) j = Some y /\ succession (map a_stamped (o_attempts o)) x y) /\
  (forall mx j x y, (forall a, In a (o_attempts o) -> m_max (a_stamped a) = mx) ->
     nth_error (c_pop c) j = Some x -> nth_error (o_after o) j = Some y ->
     ~ better mx (m_fit x) (m_fit y)).
Proof.
  intros Hh H. destruct (do_migrate_spec _ _ _ _ Hh H) as (imms & _ & _ & Hs & Hp & _).
  destruct (played_succession _ _ _ Hp) as [HL HS].
  split; [exact Hp|]. split; [exact Hs|]. split; [exact HL|]. split; [exact HS|].
  intros mx j x y Hm Hx Hy. destruct (HS j x Hx) as (y' & Hy' & Sy).
  rewrite Hy in Hy'. injection Hy' as <-.
  eapply succession_same_problem; [|exact Sy].
  intros z Hz. apply in_map_iff in Hz. destruct Hz as (a & <- & Ha). apply Hm, Ha.
Qed.

(** what the closure state holds for island [d] *)
Definition sent_to (d : nat) (o : mig_out G) : list (mind G) :=
  match o_sent o with Some (d', _, e) => if d' =? d then [e] else [] | None => [] end.
Definition sents (o : mig_out G) : list (mind G) :=
  match o_sent o with Some (_, _, e) => [e] | None => [] end.
Definition pend (d : nat) (p : list (mind G)) (o : mig_out G) : list (mind G) :=
  (if o_island o =? d then [] else p) ++ sent_to d o.

Definition call_ok (nx : nat) (o : mig_out G) : Prop :=
  (o_sent o <> None <-> (gap | o_gen o)%Z) /\
  forall d s e, o_sent o = Some (d, s, e) ->
    In d (neighbors (o_island o)) /\ evaluated_copy s e /\ m_id e = nx.

Lemma do_migrate_state st c o st' : honest_selector (c_replace c) ->
  do_migrate gap neighbors st c = Ok (o, st') ->
  length (g_waiting st') = length (g_waiting st) /\
  call_ok (g_next st) o /\
  g_next st' = length (sents o) + g_next st /\
  o_island o < length (g_waiting st) /\
  (forall d w, nth_error (g_waiting st) d = Some w -> nth_error (g_waiting st') d = Some (pend d w o)) /\
  (member_selector (c_sponsor c) -> forall d s e, o_sent o = Some (d, s, e) -> In s (o_after o)) /\
  (forall d s e, o_sent o = Some (d, s, e) -> d < length (g_waiting st)).
Proof.
  intros Hh H. unfold do_migrate in H.
  destruct (nth_error (g_waiting st) (c_island c)) as [imms|] eqn:Ew; [|discriminate].
  assert (Hci : c_island c < length (g_waiting st)) by (apply nth_error_Some; congruence).
  destruct (immigrate c 0 imms (c_pop c)) as [[pop' atts]|e] eqn:Ei; [|discriminate].
  unfold emigrate in H. simpl in H.
  destruct (gap =? 0)%Z eqn:Eg; [discriminate|]. apply Z.eqb_neq in Eg.
  destruct (c_gen c mod gap =? 0)%Z eqn:Em.
  - apply Z.eqb_eq in Em. apply Z.mod_divide in Em; [|exact Eg].
    destruct (c_sponsor c pop') as [s|e] eqn:Es; [|discriminate].
    destruct (nth_error (neighbors (c_island c)) (c_dest c)) as [dest|] eqn:Ed; [|discriminate].
    destruct (nth_error (set_nth (c_island c) [] (g_waiting st)) dest) as [w|] eqn:Ew2; [|discriminate].
    assert (Hdl : dest < length (g_waiting st)).
    { rewrite <- (set_nth_length (c_island c) [] (g_waiting st)). apply nth_error_Some. congruence. }
    injection H as <- <-. simpl.
    split; [rewrite !set_nth_length; reflexivity|].
    split.
    { split; simpl; [split; [intros _; exact Em|intros _; discriminate]|].
      intros d s0 e0 E. injection E as <- <- <-. split; [apply nth_error_In with (1 := Ed)|].
      split; [repeat split|reflexivity]. }
    split; [reflexivity|]. split; [exact Hci|]. split.
    + intros d v Hv. rewrite nth_error_set_nth by (rewrite set_nth_length; exact Hdl).
      rewrite nth_error_set_nth in Ew2 by exact Hci.
      rewrite nth_error_set_nth by exact Hci.
      unfold pend, sent_to. simpl. rewrite (Nat.eqb_sym dest d), (Nat.eqb_sym (c_island c) d).
      destruct (Nat.eqb_spec d dest) as [->|Hne].
      * destruct (Nat.eqb_spec dest (c_island c)) as [->|Hne2].
        -- injection Ew2 as <-. reflexivity.
        -- rewrite Hv in Ew2. injection Ew2 as <-. reflexivity.
      * destruct (Nat.eqb_spec d (c_island c)) as [->|Hne2]; [reflexivity|].
        rewrite app_nil_r. exact Hv.
    + split.
      * intros Hm d s0 e0 E. injection E as <- <- <-. apply Hm. exact Es.
      * intros d s0 e0 E. injection E as <- <- <-. exact Hdl.
  - apply Z.eqb_neq in Em. injection H as <- <-. simpl.
    split; [apply set_nth_length|]. split.
    { split; simpl; [split; [congruence|]|discriminate].
      intros Hd. exfalso. apply Em. apply Z.mod_divide; assumption. }
    split; [reflexivity|]. split; [exact Hci|]. split; [|split; discriminate].
    intros d v Hv. rewrite nth_error_set_nth by exact Hci.
    unfold pend, sent_to. simpl. rewrite (Nat.eqb_sym (c_island c) d), app_nil_r.
    destruct (Nat.eqb_spec d (c_island c)) as [->|Hne2]; [reflexivity|exact Hv].
Qed.

Lemma mig_run_snoc calls : forall st c r,
  mig_run gap neighbors st (calls ++ [c]) = Ok r ->
  exists os st1 o, mig_run gap neighbors st calls = Ok (os, st1) /\
    do_migrate gap neighbors st1 c = Ok (o, snd r) /\ fst r = os ++ [o].
Proof.
  induction calls as [|c0 calls IH]; intros st c r H; simpl in H.
  - destruct (do_migrate gap neighbors st c) as [[o st']|e] eqn:E; [|discriminate].
    injection H as <-. exists [], st, o. auto.
  - destruct (do_migrate gap neighbors st c0) as [[o st']|e] eqn:E; [|discriminate].
    destruct (mig_run gap neighbors st' (calls ++ [c])) as [[os st'']|e] eqn:E2; [|discriminate].
    injection H as <-. destruct (IH _ _ _ E2) as (os1 & st1 & o1 & R1 & R2 & R3).
    exists (o :: os1), st1, o1. simpl. rewrite E, R1. simpl in R3. rewrite R3. auto.
Qed.

Definition pending d (h : list (mig_out G)) : list (mind G) := fold_left (pend d) h [].

Lemma pending_snoc d h o : pending d (h ++ [o]) = pend d (pending d h) o.
Proof. unfold pending. rewrite fold_left_app. reflexivity. Qed.

Lemma pending_in d h e : In e (pending d h) <->
  exists i, sent_at h i d e /\ forall j, i < j < length h -> ~ call_on h j d.
Proof.
  induction h as [|o h IH] using rev_ind.
  - split; [intros []|]. intros (i & (o & s & H & _) & _). destruct i; discriminate H.
  - rewrite pending_snoc. unfold pend. rewrite in_app_iff.
    assert (Hlast : nth_error (h ++ [o]) (length h) = Some o).
    { rewrite nth_error_app2, Nat.sub_diag by lia. reflexivity. }
    assert (Hst : In e (sent_to d o) <-> exists s, o_sent o = Some (d, s, e)).
    { unfold sent_to. destruct (o_sent o) as [[[d' s'] e']|].
      - destruct (Nat.eqb_spec d' d) as [->|Hne]; simpl.
        + split; [intros [<-|[]]; eauto|]. intros (s & E). injection E as -> ->. left. reflexivity.
        + split; [tauto|]. intros (s & E). injection E as -> _ _. congruence.
      - simpl. split; [tauto|]. intros (s & E). discriminate. }
    rewrite Hst. split.
    + intros [H|(s & H)].
      * destruct (Nat.eqb_spec (o_island o) d) as [E|E]; [destruct H|].
        apply IH in H. destruct H as (i & (oi & s & Hi & Hs) & Hc).
        assert (i < length h) by (apply nth_error_Some; congruence).
        exists i. split.
        { exists oi, s. rewrite nth_error_app1 by lia. auto. }
        intros j Hj (oj & Hoj & Hd). rewrite app_length in Hj. simpl in Hj.
        destruct (Nat.eq_dec j (length h)) as [->|Hne].
        { rewrite Hlast in Hoj. injection Hoj as <-. contradiction. }
        apply (Hc j); [lia|]. exists oj. rewrite nth_error_app1 in Hoj by lia. auto.
      * exists (length h). split; [exists o, s; auto|]. intros j Hj. rewrite app_length in Hj. simpl in Hj. lia.
    + intros (i & (oi & s & Hi & Hs) & Hc).
      assert (Hil : i < length (h ++ [o])) by (apply nth_error_Some; congruence).
      rewrite app_length in Hil; simpl in Hil.
      destruct (Nat.eq_dec i (length h)) as [->|Hne].
      * rewrite Hlast in Hi. injection Hi as <-. right. eauto.
      * left. destruct (Nat.eqb_spec (o_island o) d) as [E|E].
        { exfalso. apply (Hc (length h)); [rewrite app_length; simpl; lia|]. exists o. auto. }
        apply IH. exists i. split.
        { exists oi, s. rewrite nth_error_app1 in Hi by lia. auto. }
        intros j Hj (oj & Hoj & Hd). apply (Hc j); [rewrite app_length; simpl; lia|].
        exists oj. rewrite nth_error_app1 by lia. auto.
Qed.

Definition ids_from (nx : nat) (h : list (mig_out G)) : Prop :=
  map m_id (concat (map sents h)) = seq nx (length (concat (map sents h))).

Lemma mig_run_invariant n nx calls : forall os st,
  Forall (fun c => honest_selector (c_replace c)) calls ->
  mig_run gap neighbors (mig_init n nx) calls = Ok (os, st) ->
  length os = length calls /\
  length (g_waiting st) = n /\
  (forall d, d < n -> nth_error (g_waiting st) d = Some (pending d os)) /\
  g_next st = nx + length (concat (map sents os)) /\
  ids_from nx os /\
  (forall k o, nth_error os k = Some o ->
     (exists m, call_ok m o) /\ o_island o < n /\
     map a_imm (o_attempts o) = pending (o_island o) (firstn k os) /\
     exists c, nth_error calls k = Some c /\ o_before o = c_pop c /\ o_island o = c_island c /\ o_gen o = c_gen c /\
       (member_selector (c_sponsor c) -> forall d s e, o_sent o = Some (d, s, e) -> In s (o_after o)) /\
       played (c_pop c) (o_attempts o) (o_after o) /\
       forall d s e, o_sent o = Some (d, s, e) -> d < n).
Proof.
  induction calls as [|c calls IH] using rev_ind; intros os st Hh H.
  - simpl in H. injection H as <- <-. split; [reflexivity|]. split; [apply repeat_length|].
    split; [intros d Hd; change (g_waiting (mig_init n nx)) with (repeat (@nil (mind G)) n);
           rewrite nth_error_repeat by exact Hd; reflexivity|].
    split; [unfold mig_init; simpl; lia|]. split; [reflexivity|]. intros [|k] o Hk; discriminate Hk.
  - apply Forall_app in Hh. destruct Hh as [Hh Hc]. apply Forall_inv in Hc. cbv beta in Hc.
    apply mig_run_snoc in H. destruct H as (os1 & st1 & o & R1 & R2 & R3). cbn [fst snd] in R2, R3. subst os.
    destruct (IH _ _ Hh R1) as (L1 & L2 & L3 & L4 & L5 & L6).
    destruct (do_migrate_state _ _ _ _ Hc R2) as (S1 & S2 & S3 & S4 & S5 & S6 & S7).
    destruct (do_migrate_spec _ _ _ _ Hc R2) as (imms & D1 & D2 & D3 & D4 & D5 & D6 & D7).
    split; [rewrite !app_length, L1; reflexivity|].
    split; [congruence|]. split.
    { intros d Hd. rewrite pending_snoc. apply S5. apply L3. exact Hd. }
    assert (Hcc : concat (map sents (os1 ++ [o])) = concat (map sents os1) ++ sents o).
    { rewrite map_app, concat_app. simpl. rewrite app_nil_r. reflexivity. }
    split. { rewrite Hcc, app_length. lia. }
    split.
    { unfold ids_from in *. rewrite Hcc, map_app, app_length, seq_app, L5. f_equal.
      destruct S2 as [_ S2]. unfold sents. destruct (o_sent o) as [[[d s] e]|] eqn:Eo; [|reflexivity].
      simpl. destruct (S2 _ _ _ eq_refl) as (_ & _ & ->). f_equal. exact L4. }
    intros k o' Hk.
    destruct (Nat.lt_ge_cases k (length os1)) as [Hlt|Hge].
    + rewrite nth_error_app1 in Hk by exact Hlt.
      destruct (L6 k o' Hk) as (A1 & A2 & A3 & c' & A4 & A5).
      split; [exact A1|]. split; [exact A2|].
      rewrite firstn_app. replace (k - length os1) with 0 by lia.
      simpl. rewrite app_nil_r. split; [exact A3|]. exists c'.
      rewrite nth_error_app1 by (rewrite <- L1; exact Hlt). split; [exact A4|exact A5].
    + rewrite nth_error_app2 in Hk by exact Hge.
      destruct (k - length os1) as [|m] eqn:Ek; [|destruct m; discriminate Hk].
      simpl in Hk. injection Hk as <-. assert (k = length os1) by lia. subst k.
      split; [exists (g_next st1); exact S2|]. split; [lia|].
      rewrite firstn_app, firstn_all, Nat.sub_diag. simpl. rewrite app_nil_r. split.
      { rewrite D2. rewrite D6, L3 in *; [congruence|lia]. }
      exists c. rewrite nth_error_app2, L1, Nat.sub_diag by lia.
      split; [reflexivity|]. repeat (split; [assumption|]). rewrite L2 in S7. exact S7.
Qed.

Lemma in_sents h i d e : sent_at h i d e -> In e (concat (map sents h)).
Proof.
  intros (o & s & Hi & Hs). apply in_concat. exists (sents o). split.
  - apply in_map, nth_error_In with (1 := Hi).
  - unfold sents. rewrite Hs. left. reflexivity.
Qed.

Lemma nodup_ids nx h : ids_from nx h -> NoDup (map m_id (concat (map sents h))).
Proof. unfold ids_from. intros ->. apply seq_NoDup. Qed.

(** the same emigrant is sent only once *)
Lemma sent_unique nx h : ids_from nx h -> forall i j d d' e e',
  sent_at h i d e -> sent_at h j d' e' -> m_id e = m_id e' -> i = j.
Proof.
  intros Hid i j d d' e e' Hi Hj He.
  assert (Key : forall a b da db ea eb, a < b -> sent_at h a da ea -> sent_at h b db eb -> m_id ea = m_id eb -> False).
  { clear i j d d' e e' Hi Hj He. intros a b da db ea eb Hab Ha Hb E.
    pose proof (nodup_ids _ _ Hid) as ND.
    destruct Ha as (oa & sa & Ha & Sa). destruct Hb as (ob & sb & Hb & Sb).
    assert (Hsp : h = firstn b h ++ skipn b h) by (symmetry; apply firstn_skipn).
    rewrite Hsp, map_app, concat_app, map_app in ND.
    assert (I1 : In (m_id ea) (map m_id (concat (map sents (firstn b h))))).
    { apply in_map. apply in_sents with a da. exists oa, sa. split; [|exact Sa].
      rewrite Hsp, nth_error_app1 in Ha; [exact Ha|]. rewrite firstn_length.
      assert (b < length h) by (apply nth_error_Some; congruence). lia. }
    assert (I2 : In (m_id eb) (map m_id (concat (map sents (skipn b h))))).
    { apply in_map. apply in_sents with 0 db. exists ob, sb. split; [|exact Sb].
      assert (Hbl : b < length h) by (apply nth_error_Some; congruence).
      rewrite Hsp, nth_error_app2 in Hb by (rewrite firstn_length; lia).
      rewrite firstn_length in Hb. replace (b - Nat.min b (length h)) with 0 in Hb by lia. exact Hb. }
    rewrite E in I1. clear -ND I1 I2. induction (map m_id (concat (map sents (firstn b h)))) as [|x l IH]; [destruct I1|].
    simpl in ND. inversion ND; subst. destruct I1 as [->|I1]; [|auto].
    apply H1. apply in_or_app. right. exact I2. }
  destruct (Nat.lt_trichotomy i j) as [H|[H|H]]; [|exact H|]; exfalso; [eapply (Key i j)|eapply (Key j i)]; eauto.
Qed.

Lemma pending_ids_nodup nx h d : ids_from nx h -> NoDup (map m_id (pending d h)).
Proof.
  intros Hid. pose proof (nodup_ids _ _ Hid) as ND. clear Hid.
  assert (Sub : forall l, NoDup (map m_id (concat (map sents l))) ->
            NoDup (map m_id (pending d l)) /\ incl (pending d l) (concat (map sents l))).
  { induction l as [|o l IH] using rev_ind; intros N; [split; [constructor|intros x []]|].
    rewrite map_app, concat_app in N |- *. simpl in N |- *. rewrite app_nil_r in N |- *.
    rewrite pending_snoc. unfold pend. rewrite map_app in N.
    assert (N1 : NoDup (map m_id (concat (map sents l)))).
    { clear -N. induction (map m_id (concat (map sents l))) as [|x r IHr]; [constructor|].
      simpl in N. inversion N; subst. constructor; [|auto]. intros Hx. apply H1, in_or_app. left. exact Hx. }
    destruct (IH N1) as [IH1 IH2].
    assert (Hs : sent_to d o = [] \/ sent_to d o = sents o).
    { unfold sent_to, sents. destruct (o_sent o) as [[[d' s] e]|]; [|left; reflexivity].
      destruct (d' =? d); auto. }
    assert (Hi : incl (sent_to d o) (sents o)).
    { destruct Hs as [->| ->]; [intros x []|apply incl_refl]. }
    split.
    - assert (Hshort : NoDup (map m_id (sents o))).
      { unfold sents. destruct (o_sent o) as [[[d' s] e]|]; [|constructor].
        simpl. constructor; [intros []|constructor]. }
      destruct (o_island o =? d).
      + simpl. destruct Hs as [->| ->]; [constructor|exact Hshort].
      + rewrite map_app. destruct Hs as [->| ->]; [rewrite app_nil_r; exact IH1|].
        clear -N IH1 IH2 Hshort.
        assert (Hd : forall x, In x (map m_id (pending d l)) -> ~ In x (map m_id (sents o))).
        { intros x Hx Hx2. assert (In x (map m_id (concat (map sents l)))).
          { apply in_map_iff in Hx. destruct Hx as (m & <- & Hm). apply in_map, IH2, Hm. }
          clear -N H Hx2. induction (map m_id (concat (map sents l))) as [|y r IHr]; [destruct H|].
          simpl in N. inversion N; subst. destruct H as [->|H]; [|auto].
          apply H2, in_or_app. right. exact Hx2. }
        clear -IH1 Hd Hshort. induction (map m_id (pending d l)) as [|y r IHr]; [exact Hshort|].
        simpl. inversion IH1; subst. constructor.
        * intros Hy. apply in_app_or in Hy. destruct Hy as [Hy|Hy]; [contradiction|].
          apply (Hd y); [left; reflexivity|exact Hy].
        * apply IHr; [assumption|]. intros x Hx. apply Hd. right. exact Hx.
    - intros x Hx. apply in_app_or in Hx. apply in_or_app. destruct Hx as [Hx|Hx].
      + left. destruct (o_island o =? d); [destruct Hx|apply IH2, Hx].
      + right. apply Hi, Hx. }
  apply Sub, ND.
Qed.

Lemma ids_from_prefix nx h k : ids_from nx h -> ids_from nx (firstn k h).
Proof.
  unfold ids_from. intros H. rewrite <- (firstn_skipn k h) in H.
  rewrite map_app, concat_app, map_app, app_length, seq_app in H.
  assert (Hlen : length (map m_id (concat (map sents (firstn k h)))) =
                 length (seq nx (length (concat (map sents (firstn k h)))))) by (rewrite map_length, seq_length; reflexivity).
  revert H Hlen. generalize (map m_id (concat (map sents (firstn k h)))) as a.
  generalize (seq nx (length (concat (map sents (firstn k h))))) as b.
  intros b a. revert b. induction a as [|x a IH]; intros [|y b] H L; simpl in *; try lia; [reflexivity|].
  injection H as <- H. f_equal. apply IH; [exact H|lia].
Qed.

Lemma nth_error_firstn {A} (h : list A) : forall k i, i < k -> nth_error (firstn k h) i = nth_error h i.
Proof.
  induction h as [|x h IH]; intros [|k] i H; try lia; simpl; [reflexivity|].
  destruct i; [reflexivity|]. simpl. apply IH. lia.
Qed.

(** ** C29 *)
Lemma delivery n nx calls os st :
  Forall (fun c => honest_selector (c_replace c)) calls ->
  mig_run gap neighbors (mig_init n nx) calls = Ok (os, st) ->
  (forall i d e, sent_at os i d e -> forall k, considered_at os k e <-> next_call_on os i k d) /\
  (forall k e, considered_at os k e -> exists i d, sent_at os i d e) /\
  (forall k o, nth_error os k = Some o -> NoDup (map m_id (map a_imm (o_attempts o)))) /\
  (forall i j d d' e e', sent_at os i d e -> sent_at os j d' e' -> m_id e = m_id e' -> i = j).
Proof.
  intros Hh HR. destruct (mig_run_invariant _ _ _ _ _ Hh HR) as (L1 & L2 & L3 & L4 & L5 & L6).
  pose proof (sent_unique _ _ L5) as U.
  assert (Hcons : forall k e, considered_at os k e -> exists i d,
            sent_at os i d e /\ next_call_on os i k d).
  { intros k e (o & Hk & He). destruct (L6 k o Hk) as (_ & _ & E & _). rewrite E in He.
    apply pending_in in He. destruct He as (i & (oi & s & Hi & Hs) & Hc).
    assert (Hkl : k < length os) by (apply nth_error_Some; congruence).
    assert (Hik : i < k).
    { assert (i < length (firstn k os)) by (apply nth_error_Some; congruence). rewrite firstn_length in H. lia. }
    exists i, (o_island o). split; [exists oi, s; rewrite nth_error_firstn in Hi by exact Hik; auto|].
    split; [exact Hik|]. split; [exists o; auto|].
    intros j Hj (oj & Hoj & Hd). apply (Hc j); [rewrite firstn_length; lia|].
    exists oj. rewrite nth_error_firstn by lia. auto. }
  split; [|split; [|split]].
  - intros i d e Hs k. split.
    + intros Hc. destruct (Hcons k e Hc) as (i' & d' & Hs' & Hn).
      assert (i' = i) by (eapply U; eauto). subst i'.
      destruct Hs as (o1 & s1 & E1 & F1). destruct Hs' as (o2 & s2 & E2 & F2).
      rewrite E1 in E2. injection E2 as <-. rewrite F1 in F2. injection F2 as -> ->. exact Hn.
    + intros (Hik & (o & Hk & Hd) & Hc). exists o. split; [exact Hk|].
      destruct (L6 k o Hk) as (_ & _ & E & _). rewrite E, Hd. apply pending_in.
      destruct Hs as (oi & s & Hi & Hs).
      exists i. split; [exists oi, s; rewrite nth_error_firstn by exact Hik; auto|].
      intros j Hj (oj & Hoj & Hdj). rewrite firstn_length in Hj.
      apply (Hc j); [lia|]. exists oj. rewrite nth_error_firstn in Hoj by lia. auto.
  - intros k e Hc. destruct (Hcons k e Hc) as (i & d & Hs & _). eauto.
  - intros k o Hk. destruct (L6 k o Hk) as (_ & _ & E & _). rewrite E.
    apply (pending_ids_nodup nx), ids_from_prefix, L5.
  - exact U.
Qed.

Lemma departures n nx calls os st :
  Forall (fun c => honest_selector (c_replace c)) calls ->
  Forall (fun c => member_selector (c_sponsor c)) calls ->
  mig_run gap neighbors (mig_init n nx) calls = Ok (os, st) ->
  forall k o, nth_error os k = Some o ->
  (o_sent o <> None <-> (gap | o_gen o)%Z) /\
  forall d s e, o_sent o = Some (d, s, e) ->
    In d (neighbors (o_island o)) /\ d < n /\ In s (o_after o) /\ evaluated_copy s e.
Proof.
  intros Hh Hm HR k o Hk. destruct (mig_run_invariant _ _ _ _ _ Hh HR) as (L1 & L2 & L3 & L4 & L5 & L6).
  destruct (L6 k o Hk) as ((m & C1 & C2) & Hn & _ & c & Hc & _ & _ & _ & Hs & _ & Hd).
  split; [exact C1|]. intros d s e E. destruct (C2 _ _ _ E) as (A1 & A2 & _).
  split; [exact A1|]. split; [eapply Hd; exact E|]. split; [|exact A2].
  rewrite Forall_forall in Hm. eapply Hs; [|exact E]. apply Hm. apply nth_error_In with (1 := Hc).
Qed.

(** ** C28 over histories: everything inserted was sent here before *)
Lemma arrivals n nx calls os st :
  Forall (fun c => honest_selector (c_replace c)) calls ->
  mig_run gap neighbors (mig_init n nx) calls = Ok (os, st) ->
  length os = length calls /\
  forall k o c, nth_error os k = Some o -> nth_error calls k = Some c ->
  length (o_after o) = length (c_pop c) /\
  forall y, In y (o_after o) ->
    In y (c_pop c) \/
    exists a i, In a (o_attempts o) /\ y = a_stamped a /\ i < k /\ sent_at os i (c_island c) (a_imm a).
Proof.
  intros Hh HR. destruct (mig_run_invariant _ _ _ _ _ Hh HR) as (L1 & L2 & L3 & L4 & L5 & L6).
  split; [exact L1|]. intros k o c Hk Hc.
  destruct (L6 k o Hk) as (_ & _ & E & c' & Hc' & _ & Ei & _ & _ & Hp & _).
  rewrite Hc in Hc'. injection Hc' as <-.
  destruct (played_succession _ _ _ Hp) as [HL HS]. split; [exact HL|].
  intros y Hy. apply In_nth_error in Hy. destruct Hy as [j Hj].
  assert (Hjl : j < length (c_pop c)) by (rewrite <- HL; apply nth_error_Some; congruence).
  apply nth_error_Some in Hjl. destruct (nth_error (c_pop c) j) as [x|] eqn:Ex; [|congruence].
  destruct (HS j x Ex) as (y' & Hy' & Sy). rewrite Hj in Hy'. injection Hy' as <-.
  destruct (succession_origin _ _ _ Sy) as [->|Hin]; [left; apply nth_error_In with (1 := Ex)|].
  right. apply in_map_iff in Hin. destruct Hin as (a & <- & Ha).
  assert (Hpe : In (a_imm a) (pending (o_island o) (firstn k os))) by (rewrite <- E; apply in_map, Ha).
  apply pending_in in Hpe. destruct Hpe as (i & (oi & s & Hi & Hs) & _).
  assert (Hik : i < k).
  { assert (i < length (firstn k os)) by (apply nth_error_Some; congruence). rewrite firstn_length in H. lia. }
  exists a, i. repeat split; auto. rewrite <- Ei. exists oi, s.
  rewrite nth_error_firstn in Hi by exact Hik. auto.
Qed.
End Run.

(** LEAP's own replacement selectors keep the contract *)
Lemma replace_random_honest draw : honest_selector (@replace_random G draw).
Proof.
  intros i pop x ix H. unfold replace_random in H.
  destruct (nth_error pop (draw i)) as [y|] eqn:E; [|discriminate]. injection H as <- <-. eauto.
Qed.

Lemma replace_tournament_honest lt gt w choices : honest_selector (@replace_tournament G lt gt w choices).
Proof.
  intros i pop x ix H. unfold replace_tournament, tournament_turn in H.
  destruct pop as [|d pop]; [discriminate|]. destruct (choices i) as [|c cs]; [discriminate|].
  match type of H with context [nth_error _ ?b] => set (b0 := b) in H; destruct (nth_error (d :: pop) b0) as [y|] eqn:E end;
    [|discriminate].
  simpl in H. injection H as <- <-. eauto.
Qed.

(** with the comparisons of individuals, the tournament picks a worst (or best) contestant *)
Definition mlt (mx : bool) (coin : nat -> nat -> bool) (a b : mind G) : bool :=
  worse_than mx (coin (m_id a) (m_id b)) (m_fit a) (m_fit b).
Lemma tournament_turn_map mx coin (pop : list (mind G)) w choices :
  let c := fun a b : sind => coin (si_id a) (si_id b) in
  let s := fun a : mind G => mk_sind (m_id a) (m_fit a) in
  let gt := fun a b => negb (mlt mx coin a b) && negb (equivalent (m_fit a) (m_fit b)) in
  tournament_turn (ind_lt mx c) (ind_gt mx c) (map s pop) w choices (Some []) =
  match tournament_turn (mlt mx coin) gt pop w choices (Some []) with Ok (x, ix) => Ok (s x, ix) | Err e => Err e end.
Proof.
  intros c s gt. unfold tournament_turn. destruct pop as [|d pop']; [reflexivity|].
  cbn [map]. change (s d :: map s pop') with (map s (d :: pop')). destruct choices as [|k ks]; [reflexivity|].
  set (pop := d :: pop').
  assert (J : forall i j, judge (ind_lt mx c) (ind_gt mx c) w (map s pop) (s d) i j = judge (mlt mx coin) gt w pop d i j).
  { intros i j. unfold judge. destruct w; rewrite !map_nth; reflexivity. }
  assert (Emin : forall l b, pymin_from (judge (ind_lt mx c) (ind_gt mx c) w (map s pop) (s d)) b l =
                 pymin_from (judge (mlt mx coin) gt w pop d) b l).
  { induction l as [|x l IH]; intros b; cbn [pymin_from]; [reflexivity|]. rewrite J. apply IH. }
  assert (Emax : forall l b, pymax_from (judge (ind_lt mx c) (ind_gt mx c) w (map s pop) (s d)) b l =
                 pymax_from (judge (mlt mx coin) gt w pop d) b l).
  { induction l as [|x l IH]; intros b; cbn [pymax_from]; [reflexivity|]. rewrite J. apply IH. }
  destruct w; [rewrite Emin|rewrite Emax]; rewrite nth_error_map;
    match goal with |- context [nth_error pop ?b] => destruct (nth_error pop b) end; reflexivity.
Qed.
Lemma replace_tournament_worst mx coin w choices i (pop : list (mind G)) :
  choices i <> [] -> Forall (fun j => j < length pop) (choices i) ->
  exists k x,
    replace_tournament (mlt mx coin) (fun a b => negb (mlt mx coin a b) && negb (equivalent (m_fit a) (m_fit b))) w choices i pop
      = Ok (x, [k]) /\ In k (choices i) /\ nth_error pop k = Some x /\
    forall j y, In j (choices i) -> nth_error pop j = Some y ->
      if w then ~ better mx (m_fit x) (m_fit y)
      else sharp (map m_fit pop) -> ~ better mx (m_fit y) (m_fit x).
Proof.
  intros Hne Hin. pose proof (tournament_turn_map mx coin pop w (choices i)) as E. cbv zeta in E.
  destruct (tournament_spec mx (fun a b => coin (si_id a) (si_id b))
              (map (fun a : mind G => mk_sind (m_id a) (m_fit a)) pop) w (choices i) (Some []) Hne) as (k & x & E1 & I1 & N1 & B).
  { eapply Forall_impl; [|exact Hin]. intros a. rewrite map_length. auto. }
  pose proof (replace_tournament_honest (mlt mx coin) (fun a b => negb (mlt mx coin a b) && negb (equivalent (m_fit a) (m_fit b))) w choices i pop) as Hon.
  rewrite E in E1. unfold replace_tournament in *.
  destruct (tournament_turn (mlt mx coin) _ pop w (choices i) (Some [])) as [[z ix]|e]; [|discriminate].
  injection E1 as E2 ->. destruct (Hon z [k] eq_refl) as (k' & rest & Ek' & Nk). injection Ek' as <- <-.
  exists k, z. split; [reflexivity|]. split; [exact I1|]. split; [exact Nk|]. subst x.
  intros j y Ij Nj. specialize (B j (mk_sind (m_id y) (m_fit y)) Ij). rewrite nth_error_map, Nj in B. specialize (B eq_refl).
  destruct w; [exact B|]. destruct B as [_ B]. rewrite map_map in B. exact B.
Qed.
End P.
