(** Pruning keeps exactly what the outputs need, and does not change values. *)
From Coq Require Import Lia Permutation Sorted ZifyBool.
From Verif Require Import Model.Base Model.PyList Model.Cgp Spec.Cgp Proofs.RankOrdinal Proofs.CgpDecode Proofs.CgpExec.

Lemma nth_error_ext' {A} (l m : list A) : length l = length m -> (forall i, i < length l -> nth_error l i = nth_error m i) -> l = m.
Proof.
  revert m. induction l as [|x l IH]; intros [|y m] Hl H; try discriminate; [reflexivity|]. f_equal.
  - specialize (H 0 ltac:(cbn; lia)). cbn in H. congruence.
  - apply IH; [cbn in Hl; lia|]. intros i Hi. apply (H (S i)). cbn. lia.
Qed.

Lemma zrange_length a n : length (zrange a n) = n.
Proof. unfold zrange. rewrite map_length, seq_length. reflexivity. Qed.

Lemma Forall2_map_self {A B} (R : A -> B -> Prop) f l : (forall x, In x l -> R x (f x)) -> Forall2 R l (map f l).
Proof.
  induction l as [|x l IH]; intros H; cbn [map]; constructor; [apply H; left; reflexivity|].
  apply IH. intros y Hy. apply H. right. exact Hy.
Qed.

(** ** values under renumbering *)
Section Reduced.
Context {V : Type}.
Variables (ni : nat) (keep : list nat) (prog prog' : list (pnode V)) (outs outs' : list Z) (input : list V).
Hypothesis Hred : reduced ni keep prog outs prog' outs'.
Hypothesis Hff : feed_forward ni prog outs.

Lemma keep_nodup : NoDup keep.
Proof.
  destruct Hred as (Hs & _). clear -Hs. induction Hs as [|x l Hs IH Hx]; constructor; [|exact IH].
  intros Hin. rewrite Forall_forall in Hx. specialize (Hx x Hin). lia.
Qed.

Lemma renumbered_value n s s' v : (s < Z.of_nat n)%Z -> renumbered ni keep s s' ->
  (value ni prog input s v <-> value ni prog' input s' v).
Proof.
  revert s s' v. induction n as [|n IH]; intros s s' v Hs Hr.
  - destruct Hr as [[-> Hr] | (j & i & -> & _)]; lia.
  - destruct Hr as [[-> Hr] | (j & i & -> & Hk & ->)].
    + split; intros H; inversion H as [k w Hk Hw Es Ev|j p srcs par args w Hj Ha Hc Es Ev]; try lia; subst; constructor; assumption.
    + destruct Hred as (_ & _ & _ & _ & Hn). destruct (Hn i j Hk) as (p & srcs & srcs' & par & E1 & E2 & F).
      destruct Hff as [Hf _]. specialize (Hf j p srcs par E1).
      assert (G : forall args, Forall2 (value ni prog input) srcs args <-> Forall2 (value ni prog' input) srcs' args).
      { assert (Hb : Forall (fun s => s < Z.of_nat n)%Z srcs) by (eapply Forall_impl; [|exact Hf]; cbv beta; intros; lia).
        clear -F Hb IH. induction F as [|x x' l l' Hx Hl IHl]; intros args; [split; intros H; inversion H; constructor|].
        inversion Hb; subst. split; intros H; inversion H; subst; constructor.
        - apply (IH x x' y); assumption.
        - apply IHl; assumption.
        - apply (IH x x' y); assumption.
        - apply IHl; assumption. }
      split; intros H; inversion H as [k w Hk' Hw Es Ev|j2 p2 srcs2 par2 args w Hj Ha Hc Es Ev]; try lia.
      * assert (j2 = j) by lia. subst j2. rewrite E1 in Hj. injection Hj as <- <- <-.
        econstructor; [exact E2|apply G; exact Ha|exact Hc].
      * assert (j2 = i) by lia. subst j2. rewrite E2 in Hj. injection Hj as <- <- <-.
        econstructor; [exact E1|apply G; exact Ha|exact Hc].
Qed.

Lemma renumbered_outs vs : Forall2 (value ni prog input) outs vs <-> Forall2 (value ni prog' input) outs' vs.
Proof.
  destruct Hred as (_ & _ & F & _). destruct Hff as [_ Hf].
  assert (IH : forall s s' v, In s outs -> renumbered ni keep s s' -> (value ni prog input s v <-> value ni prog' input s' v)).
  { intros s s' v Hin Hr. apply (renumbered_value (ni + length prog)); [|exact Hr]. rewrite Forall_forall in Hf.
    specialize (Hf s Hin). lia. }
  clear Hred Hff Hf. revert vs. induction F as [|x x' l l' Hx Hl IHl]; intros vs; [split; intros H; inversion H; constructor|].
  split; intros H; inversion H; subst; constructor.
  - apply (IH x x'); [left; reflexivity|assumption..].
  - apply IHl; [intros; apply IH; [right; assumption|assumption]|assumption].
  - apply (IH x x'); [left; reflexivity|assumption..].
  - apply IHl; [intros; apply IH; [right; assumption|assumption]|assumption].
Qed.

Lemma reduced_feed_forward : feed_forward ni prog' outs'.
Proof.
  destruct Hred as (Hs & Hin & Fo & Hlen & Hn). destruct Hff as [Hf Hfo].
  assert (Hmono : forall i1 i2 j1 j2, nth_error keep i1 = Some j1 -> nth_error keep i2 = Some j2 -> j1 < j2 -> i1 < i2).
  { clear -Hs. induction Hs as [|x l Hs IH Hx]; intros i1 i2 j1 j2 H1 H2 Hj; [destruct i1; discriminate|].
    rewrite Forall_forall in Hx. destruct i1 as [|i1], i2 as [|i2]; cbn in H1, H2.
    - injection H1 as <-. injection H2 as <-. lia.
    - lia.
    - injection H2 as <-. apply nth_error_In in H1. specialize (Hx _ H1). lia.
    - specialize (IH i1 i2 j1 j2 H1 H2 Hj). lia. }
  split.
  - intros i p srcs' par Hi. assert (Hik : i < length keep) by (rewrite <- Hlen; apply nth_error_Some; congruence).
    destruct (nth_error keep i) as [j|] eqn:Ek; [|apply nth_error_None in Ek; lia].
    destruct (Hn i j Ek) as (p2 & srcs & srcs2 & par2 & E1 & E2 & F). rewrite Hi in E2. injection E2 as <- <- <-.
    specialize (Hf j p srcs par E1). clear -F Hf Hmono Ek. induction F as [|x x' l l' Hx Hl IHl]; constructor.
    + inversion Hf; subst. destruct Hx as [[-> Hx] | (j2 & i2 & -> & Hk & ->)]; [lia|].
      assert (i2 < i) by (apply (Hmono i2 i j2 j Hk Ek); lia). lia.
    + apply IHl. inversion Hf; assumption.
  - clear -Fo Hfo Hlen. induction Fo as [|x x' l l' Hx Hl IHl]; constructor.
    + inversion Hfo; subst. destruct Hx as [[-> Hx] | (j2 & i2 & -> & Hk & ->)]; [lia|].
      assert (i2 < length keep) by (apply nth_error_Some; congruence). lia.
    + apply IHl. inversion Hfo; assumption.
Qed.

(** what the outputs need has a value if the outputs have *)
Lemma needed_value vs s : Forall2 (value ni prog input) outs vs -> needed ni prog outs s -> exists v, value ni prog input s v.
Proof.
  intros F H. induction H as [s Hs|j p srcs par s H IH Hj Hs].
  - clear -F Hs. induction F as [|x v l vs Hx Hl IHl]; [destruct Hs|]. destruct Hs as [-> | Hs]; [eauto|]. apply IHl, Hs.
  - destruct IH as (v & Hv). inversion Hv as [k w Hk' Hw Es Ev|j2 p2 srcs2 par2 args w Hj2 Ha Hc Es Ev]; [lia|].
    assert (j2 = j) by lia. subst j2. rewrite Hj in Hj2. injection Hj2 as <- <- <-. clear -Ha Hs.
    induction Ha as [|x v l vs Hx Hl IHl]; [destruct Hs|]. destruct Hs as [-> | Hs]; [eauto|]. apply IHl, Hs.
Qed.

End Reduced.

(** ** prune_graph *)
Section Prune.
Context {V : Type}.
Variables (ni : nat) (prog : list (pnode V)) (outs : list Z) (g : graph V).
Let np := length prog.
Let no := length outs.
Let N := ni + np + no.
Hypothesis Hg : circuit g ni prog outs.
Hypothesis Hnodes : g_nodes g = zrange 0 N.
Hypothesis Hff : feed_forward ni prog outs.

Lemma preds_node j p srcs par s : nth_error prog j = Some (p, srcs, par) -> (In s (preds g (Z.of_nat (ni + j))) <-> In s srcs).
Proof.
  intros Hj. unfold preds. rewrite <- (arg_edges_srcs (Z.of_nat (ni + j)) srcs) at 1.
  rewrite <- (all_edges_node ni prog outs j p srcs par Hj).
  assert (HP : Permutation (map src (filter (fun e => (dst e =? Z.of_nat (ni + j))%Z) (g_edges g)))
    (map src (filter (fun e => (dst e =? Z.of_nat (ni + j))%Z) (all_edges ni prog outs)))).
  { apply Permutation_map. apply (circuit_edges ni prog outs g Hg). }
  split; intros H; [rewrite <- HP|rewrite HP]; exact H.
Qed.
Lemma preds_out k o s : nth_error outs k = Some o -> (In s (preds g (Z.of_nat (ni + np + k))) <-> s = o).
Proof.
  intros Hk. unfold preds.
  assert (HP : Permutation (map src (filter (fun e => (dst e =? Z.of_nat (ni + np + k))%Z) (g_edges g))) [o]).
  { rewrite (circuit_edges ni prog outs g Hg). unfold np. rewrite (all_edges_out ni prog outs k o Hk). reflexivity. }
  split; intros H.
  - rewrite HP in H. destruct H as [<- | []]. reflexivity.
  - rewrite HP. left. congruence.
Qed.
Lemma preds_input i s : i < ni -> ~ In s (preds g (Z.of_nat i)).
Proof.
  intros Hi H. unfold preds in H. rewrite (circuit_edges ni prog outs g Hg), (all_edges_input ni prog outs i Hi) in H. exact H.
Qed.

Lemma edge_cases e : In e (g_edges g) ->
  (exists j p srcs par, nth_error prog j = Some (p, srcs, par) /\ dst e = Z.of_nat (ni + j) /\ In (src e) srcs) \/
  (exists k, nth_error outs k = Some (src e) /\ dst e = Z.of_nat (ni + np + k)).
Proof.
  intros He. destruct Hg as (_ & _ & HP). rewrite HP in He. apply in_app_or in He as [He | He].
  - left. apply in_concat in He as (es & Hes & He). apply in_map_iff in Hes as ([j [[p srcs] par]] & <- & Hj). cbn [fst snd] in *.
    apply arg_edges_dst in He as (E1 & E2 & _). exists j, p, srcs, par. split; [|auto].
    assert (forall l a, In (j, (p, srcs, par)) (combine (seq a (length l)) l) -> a <= j /\ nth_error l (j - a) = Some (p, srcs, par)) as H.
    { clear. induction l as [|x l IH]; intros a; cbn [length seq combine]; [intros []|]. intros [E | H].
      - injection E as <- <-. split; [lia|]. rewrite Nat.sub_diag. reflexivity.
      - apply IH in H as [H1 H2]. split; [lia|]. replace (j - a) with (S (j - S a)) by lia. exact H2. }
    apply H in Hj as [_ Hj]. rewrite Nat.sub_0_r in Hj. exact Hj.
  - right. apply in_map_iff in He as ([k o] & <- & Hk). cbn [src dst fst snd]. exists k. split; [|reflexivity].
    assert (forall (l : list Z) a, In (k, o) (combine (seq a (length l)) l) -> a <= k /\ nth_error l (k - a) = Some o) as H.
    { clear. induction l as [|x l IH]; intros a; cbn [length seq combine]; [intros []|]. intros [E | H].
      - injection E as <- <-. split; [lia|]. rewrite Nat.sub_diag. reflexivity.
      - apply IH in H as [H1 H2]. split; [lia|]. replace (k - a) with (S (k - S a)) by lia. exact H2. }
    apply H in Hk as [_ Hk]. rewrite Nat.sub_0_r in Hk. exact Hk.
Qed.

Lemma preds_below s n : In s (preds g n) -> (0 <= s < n /\ s < Z.of_nat (ni + np) /\ n < Z.of_nat N)%Z.
Proof.
  intros H. unfold preds in H. apply in_map_iff in H as (e & <- & He). apply filter_In in He as [He Ed].
  apply Z.eqb_eq in Ed. subst n. destruct Hff as [Hf Hfo]. destruct (edge_cases e He) as [(j & p & srcs & par & Hj & Ed & Hs) | (k & Hk & Ed)].
  - specialize (Hf j p srcs par Hj). rewrite Forall_forall in Hf. specialize (Hf _ Hs).
    assert (j < np) by (apply nth_error_Some; congruence). unfold N. lia.
  - rewrite Forall_forall in Hfo. specialize (Hfo _ (nth_error_In _ _ Hk)). fold np in Hfo.
    assert (k < no) by (apply nth_error_Some; congruence). unfold N. lia.
Qed.

(** ** ancestors *)
Lemma closure_sound f l (P : Z -> Prop) : (forall y, In y l -> P y) -> (forall y x, P y -> In x (preds g y) -> P x) ->
  forall x, In x (closure g f l) -> P x.
Proof.
  intros Hl Hs. revert l Hl. induction f as [|f IH]; intros l Hl x Hx; [apply Hl, Hx|]. cbn [closure] in Hx.
  apply (IH _) in Hx; [exact Hx|]. intros y Hy. apply firsts_spec in Hy as [Hy _]. apply in_app_or in Hy as [Hy | Hy]; [apply Hl, Hy|].
  apply in_flat_map in Hy as (z & Hz & Hy). apply (Hs z); [apply Hl, Hz|exact Hy].
Qed.

Lemma closure_closed f l : (forall z, In z l -> (Z.of_nat f <= z)%Z -> incl (preds g z) l) ->
  incl l (closure g f l) /\ forall z, In z (closure g f l) -> incl (preds g z) (closure g f l).
Proof.
  revert l. induction f as [|f IH]; intros l Hl; cbn [closure].
  - split; [apply incl_refl|]. intros z Hz. destruct (Z_lt_le_dec z 0).
    + intros s Hs. apply preds_below in Hs. lia.
    + apply Hl; [exact Hz|lia].
  - set (l' := firsts [] (l ++ flat_map (preds g) l)).
    assert (Hin : forall x, In x l' <-> In x l \/ exists y, In y l /\ In x (preds g y)).
    { intros x. unfold l'. rewrite (proj2 (firsts_spec [] _) x), in_app_iff, in_flat_map. cbn [In]. tauto. }
    destruct (IH l') as [H1 H2].
    + intros z Hz Hf s Hs. apply Hin in Hz as [Hz | (y & Hy & Hz)].
      * apply Hin. right. eauto.
      * apply Hin. right. exists z. split; [|exact Hs]. apply (Hl y Hy); [|exact Hz]. apply preds_below in Hz. lia.
    + split; [|exact H2]. intros x Hx. apply H1, Hin. left. exact Hx.
Qed.

Let outputs := lastn no (g_nodes g).
Let necessary := zrange 0 ni ++ outputs ++ flat_map (ancestors g) outputs.

Lemma outputs_are : outputs = zrange (ni + np) no.
Proof.
  unfold outputs. rewrite Hnodes. unfold lastn, zrange, N. rewrite map_length, seq_length, skipn_map. f_equal.
  replace (ni + np + no - no) with (ni + np) by lia.
  rewrite seq_app, skipn_app, seq_length, skipn_all2 by (rewrite seq_length; lia). rewrite Nat.sub_diag. reflexivity.
Qed.

Lemma ancestors_needed s : In s (flat_map (ancestors g) outputs) <-> needed ni prog outs s.
Proof.
  rewrite in_flat_map, outputs_are. split.
  - intros (t & Ht & Hs). apply zrange_in in Ht. unfold ancestors in Hs.
    assert (exists k, t = Z.of_nat (ni + np + k) /\ k < no) as (k & -> & Hk) by (exists (Z.to_nat t - (ni + np)); lia).
    apply (closure_sound _ _ (needed ni prog outs)) in Hs; [exact Hs| |].
    + intros y Hy. destruct (nth_error outs k) as [o|] eqn:Eo; [|apply nth_error_None in Eo; unfold no in Hk; lia].
      apply (preds_out k o y Eo) in Hy. subst y. constructor. eapply nth_error_In, Eo.
    + intros y x Hy Hx. pose proof (preds_below x y Hx) as Hb.
      unfold preds in Hx. apply in_map_iff in Hx as (e & <- & He). apply filter_In in He as [He Ed].
      apply Z.eqb_eq in Ed. destruct (edge_cases e He) as [(j & p & srcs & par & Hj & Ed' & Hs') | (k' & Hk' & Ed')].
      * rewrite Ed in Ed'. rewrite Ed' in Hy. econstructor; [exact Hy|exact Hj|exact Hs'].
      * constructor. eapply nth_error_In, Hk'.
  - intros H. induction H as [s Hs|j p srcs par s H IH Hj Hs].
    + apply In_nth_error in Hs as (k & Hk). assert (k < no) by (apply nth_error_Some; congruence).
      exists (Z.of_nat (ni + np + k)). split; [apply zrange_in; lia|]. unfold ancestors.
      apply (closure_closed (length (g_nodes g)) _).
      * intros z Hz Hf. apply preds_below in Hz. rewrite Hnodes in Hf. unfold zrange in Hf. rewrite map_length, seq_length in Hf. unfold N in Hf. lia.
      * apply (preds_out k s s Hk). reflexivity.
    + destruct IH as (t & Ht & Hin). exists t. split; [exact Ht|]. unfold ancestors in *.
      apply (proj2 (closure_closed (length (g_nodes g)) (preds g t)
        ltac:(intros z Hz Hf; apply preds_below in Hz; rewrite Hnodes in Hf; unfold zrange in Hf; rewrite map_length, seq_length in Hf; unfold N in Hf; lia)) _ Hin).
      apply (preds_node j p srcs par s Hj). exact Hs.
Qed.

Definition keepb (jn : nat * pnode V) : bool := memZ (Z.of_nat (ni + fst jn)) necessary.
Let kp := filter keepb (combine (seq 0 np) prog).
Let keep := map fst kp.
Let nk := length keep.
Let kept := filter (fun n => memZ n necessary) (g_nodes g).

Lemma in_indexed {B} (l : list B) j x : In (j, x) (combine (seq 0 (length l)) l) <-> nth_error l j = Some x.
Proof.
  assert (forall a, In (j, x) (combine (seq a (length l)) l) <-> a <= j /\ nth_error l (j - a) = Some x) as H.
  { induction l as [|y l IH]; intros a; cbn [length seq combine In].
    - split; [intros []|]. intros [_ H]. destruct (j - a); discriminate.
    - rewrite IH. split.
      + intros [E | [H1 H2]]; [injection E as <- <-; rewrite Nat.sub_diag; split; [lia|reflexivity]|].
        split; [lia|]. replace (j - a) with (S (j - S a)) by lia. exact H2.
      + intros [H1 H2]. destruct (Nat.eq_dec a j) as [-> | Hne].
        * left. rewrite Nat.sub_diag in H2. injection H2 as ->. reflexivity.
        * right. split; [lia|]. replace (j - a) with (S (j - S a)) in H2 by lia. exact H2. }
  rewrite (H 0). rewrite Nat.sub_0_r. split; [tauto|]. intros E. split; [lia|exact E].
Qed.

Lemma needed_below s : needed ni prog outs s -> (0 <= s < Z.of_nat (ni + np))%Z.
Proof.
  destruct Hff as [Hf Hfo]. intros H. inversion H as [? Hs|j p srcs par ? Hn Hj Hs]; subst.
  - rewrite Forall_forall in Hfo. apply Hfo, Hs.
  - specialize (Hf j p srcs par Hj). rewrite Forall_forall in Hf. specialize (Hf s Hs).
    assert (j < np) by (apply nth_error_Some; congruence). lia.
Qed.

Lemma necessary_hidden j : j < np -> (memZ (Z.of_nat (ni + j)) necessary = true <-> needed ni prog outs (Z.of_nat (ni + j))).
Proof.
  intros Hj. rewrite memZ_in. unfold necessary. rewrite !in_app_iff, ancestors_needed, outputs_are, !zrange_in.
  split; [|tauto]. intros [H | [H | H]]; [lia|lia|exact H].
Qed.

Lemma keep_in j : In j keep <-> j < np /\ needed ni prog outs (Z.of_nat (ni + j)).
Proof.
  unfold keep, kp. rewrite in_map_iff. split.
  - intros ([j' x] & <- & H). cbn [fst]. apply filter_In in H as [H1 H2]. apply in_indexed in H1.
    assert (j' < np) by (apply nth_error_Some; congruence). split; [assumption|]. apply necessary_hidden; assumption.
  - intros [H1 H2]. destruct (nth_error prog j) as [x|] eqn:E; [|apply nth_error_None in E; unfold np in H1; lia].
    exists (j, x). split; [reflexivity|]. apply filter_In. split; [apply in_indexed, E|]. apply necessary_hidden; assumption.
Qed.

Lemma keep_sorted : StronglySorted lt keep.
Proof.
  unfold keep, kp. generalize keepb as f. intros f.
  assert (forall (l : list (pnode V)) a, StronglySorted lt (map fst (filter f (combine (seq a (length l)) l)))
     /\ Forall (fun j => a <= j) (map fst (filter f (combine (seq a (length l)) l)))) as H; [|apply H].
  clear. induction l as [|x l IH]; intros a; cbn [length seq combine filter map]; [split; constructor|].
  destruct (IH (S a)) as [H1 H2]. destruct (f (a, x)); cbn [map fst].
  - split.
    + constructor; [exact H1|]. eapply Forall_impl; [|exact H2]. cbv beta. intros. lia.
    + constructor; [lia|]. eapply Forall_impl; [|exact H2]. cbv beta. intros. lia.
  - split; [exact H1|]. eapply Forall_impl; [|exact H2]. cbv beta. intros. lia.
Qed.

Lemma kept_are : kept = zrange 0 ni ++ map (fun j => Z.of_nat (ni + j)) keep ++ zrange (ni + np) no.
Proof.
  unfold kept. rewrite Hnodes. unfold N, zrange at 1. rewrite !seq_app, !map_app, !filter_app, <- app_assoc. cbn [Nat.add]. f_equal; [|f_equal].
  - apply filter_all. apply Forall_forall. intros x Hx. apply memZ_in. unfold necessary. apply in_or_app. left. exact Hx.
  - unfold keep, kp, keepb, np. generalize necessary as nec. intros nec.
    assert (forall (l : list (pnode V)) a, filter (fun n => memZ n nec) (map Z.of_nat (seq (ni + a) (length l))) =
       map (fun j => Z.of_nat (ni + j)) (map fst (filter (fun jn => memZ (Z.of_nat (ni + fst jn)) nec) (combine (seq a (length l)) l)))) as H.
    { clear. induction l as [|x l IH]; intros a; cbn [length seq combine filter map]; [reflexivity|]. cbn [fst].
      replace (S (ni + a)) with (ni + S a) by lia. rewrite (IH (S a)). destruct (memZ (Z.of_nat (ni + a)) nec); reflexivity. }
    specialize (H prog 0). rewrite Nat.add_0_r in H. exact H.
  - apply filter_all. apply Forall_forall. intros x Hx. apply memZ_in. unfold necessary. rewrite outputs_are. apply in_or_app. right.
    apply in_or_app. left. exact Hx.
Qed.

Lemma kept_nth_input i : i < ni -> nth_error kept i = Some (Z.of_nat i).
Proof.
  intros H. rewrite kept_are, nth_error_app1 by (unfold zrange; rewrite map_length, seq_length; lia).
  unfold zrange. rewrite nth_error_map. rewrite (nth_error_nth' _ 0) by (rewrite seq_length; lia). rewrite seq_nth by lia. reflexivity.
Qed.
Lemma kept_nth_hidden i j : nth_error keep i = Some j -> nth_error kept (ni + i) = Some (Z.of_nat (ni + j)).
Proof.
  intros H. assert (i < nk) by (apply nth_error_Some; congruence).
  rewrite kept_are, nth_error_app2 by (unfold zrange; rewrite map_length, seq_length; lia).
  rewrite zrange_length. replace (ni + i - ni) with i by lia.
  rewrite nth_error_app1 by (rewrite map_length; exact H0). rewrite nth_error_map, H. reflexivity.
Qed.
Lemma kept_nth_out k : k < no -> nth_error kept (ni + nk + k) = Some (Z.of_nat (ni + np + k)).
Proof.
  intros H. rewrite kept_are, nth_error_app2 by (unfold zrange; rewrite map_length, seq_length; lia).
  rewrite zrange_length. rewrite nth_error_app2 by (rewrite map_length; fold nk; lia).
  rewrite map_length. fold nk. replace (ni + nk + k - ni - nk) with k by lia.
  unfold zrange. rewrite nth_error_map. rewrite (nth_error_nth' _ 0) by (rewrite seq_length; lia). rewrite seq_nth by lia. reflexivity.
Qed.
Lemma kept_length : length kept = ni + nk + no.
Proof. rewrite kept_are, !app_length. unfold zrange. rewrite !map_length, !seq_length. fold nk. lia. Qed.

Lemma ss_app {B} (R : B -> B -> Prop) l m : StronglySorted R l -> StronglySorted R m ->
  (forall x y, In x l -> In y m -> R x y) -> StronglySorted R (l ++ m).
Proof.
  intros Hl Hm H. induction Hl as [|x l Hl IH Hx]; [exact Hm|]. cbn [app]. constructor.
  - apply IH. intros. apply H; [right; assumption|assumption].
  - apply Forall_app. split; [exact Hx|]. apply Forall_forall. intros y Hy. apply H; [left; reflexivity|exact Hy].
Qed.
Lemma ss_map {B C} (f : B -> C) (R : B -> B -> Prop) (S : C -> C -> Prop) l : (forall x y, R x y -> S (f x) (f y)) ->
  StronglySorted R l -> StronglySorted S (map f l).
Proof.
  intros H Hl. induction Hl as [|x l Hl IH Hx]; cbn [map]; constructor; [exact IH|]. apply Forall_map.
  eapply Forall_impl; [|exact Hx]. intros y. apply H.
Qed.
Lemma ss_seq a n : StronglySorted lt (seq a n).
Proof.
  revert a. induction n as [|n IH]; intros a; cbn [seq]; constructor; [apply IH|]. apply Forall_forall. intros x Hx.
  apply in_seq in Hx. lia.
Qed.
Lemma ss_zrange a n : StronglySorted Z.lt (zrange a n).
Proof. unfold zrange. apply (ss_map Z.of_nat lt); [intros; lia|apply ss_seq]. Qed.

Lemma kept_sorted : StronglySorted Z.lt kept.
Proof.
  rewrite kept_are. apply ss_app; [apply ss_zrange| |].
  - apply ss_app; [|apply ss_zrange|].
    + apply (ss_map _ lt); [intros; lia|apply keep_sorted].
    + intros x y Hx Hy. apply in_map_iff in Hx as (j & <- & Hj). apply keep_in in Hj. apply zrange_in in Hy. lia.
  - intros x y Hx Hy. apply zrange_in in Hx. apply in_app_or in Hy as [Hy | Hy].
    + apply in_map_iff in Hy as (j & <- & Hj). lia.
    + apply zrange_in in Hy. lia.
Qed.

Lemma sort_kept : sort_asc Z.ltb kept = kept.
Proof.
  apply sort_asc_id. generalize kept_sorted. generalize kept. clear. intros l H. induction H as [|x l Hl IH Hx]; constructor; [exact IH|].
  eapply Forall_impl; [|exact Hx]. cbv beta. intros y Hy. lia.
Qed.

Lemma kept_nodup : NoDup kept.
Proof.
  generalize kept_sorted. generalize kept. clear. intros l H. induction H as [|x l Hl IH Hx]; constructor; [|exact IH].
  intros Hin. rewrite Forall_forall in Hx. specialize (Hx x Hin). lia.
Qed.

Lemma index_of_nth l i x : NoDup l -> nth_error l i = Some x -> index_of x l = i.
Proof.
  revert i. induction l as [|y l IH]; intros [|i] Hn E; try discriminate; cbn [index_of].
  - injection E as ->. rewrite Z.eqb_refl. reflexivity.
  - inversion Hn; subst. cbn in E. destruct (x =? y)%Z eqn:Exy.
    + apply Z.eqb_eq in Exy. subst. apply nth_error_In in E. contradiction.
    + f_equal. apply IH; assumption.
Qed.

Let rename n := Z.of_nat (index_of n kept).

Lemma rename_input i : i < ni -> rename (Z.of_nat i) = Z.of_nat i.
Proof. intros H. unfold rename. rewrite (index_of_nth kept i); [reflexivity|apply kept_nodup|apply kept_nth_input, H]. Qed.
Lemma rename_hidden i j : nth_error keep i = Some j -> rename (Z.of_nat (ni + j)) = Z.of_nat (ni + i).
Proof. intros H. unfold rename. rewrite (index_of_nth kept (ni + i)); [reflexivity|apply kept_nodup|apply kept_nth_hidden, H]. Qed.
Lemma rename_out k : k < no -> rename (Z.of_nat (ni + np + k)) = Z.of_nat (ni + nk + k).
Proof. intros H. unfold rename. rewrite (index_of_nth kept (ni + nk + k)); [reflexivity|apply kept_nodup|apply kept_nth_out, H]. Qed.

Lemma rename_renumbered s : needed ni prog outs s -> renumbered ni keep s (rename s).
Proof.
  intros H. pose proof (needed_below s H) as Hb. destruct (Z_lt_le_dec s (Z.of_nat ni)).
  - left. split; [|lia]. replace s with (Z.of_nat (Z.to_nat s)) by lia. apply rename_input. lia.
  - right. set (j := Z.to_nat s - ni). assert (Es : s = Z.of_nat (ni + j)) by lia.
    assert (Hj : In j keep) by (apply keep_in; split; [lia|rewrite <- Es; exact H]).
    apply In_nth_error in Hj as (i & Hi). exists j, i. split; [exact Es|]. split; [exact Hi|]. rewrite Es. apply rename_hidden, Hi.
Qed.

Let prog' : list (pnode V) := map (fun jn => (fst (fst (snd jn)), map rename (snd (fst (snd jn))), snd (snd jn))) kp.
Let outs' := map rename outs.

Lemma kp_nth i j x : nth_error kp i = Some (j, x) -> nth_error prog j = Some x /\ nth_error keep i = Some j.
Proof.
  intros H. split; [|unfold keep; rewrite nth_error_map, H; reflexivity].
  apply nth_error_In in H. apply filter_In in H as [H _]. apply in_indexed in H. exact H.
Qed.

Lemma prune_reduced : reduced ni keep prog outs prog' outs'.
Proof.
  split; [apply keep_sorted|]. split; [apply keep_in|]. split.
  - unfold outs'. assert (H : forall s, In s outs -> renumbered ni keep s (rename s)).
    { intros s Hs. apply rename_renumbered. constructor. exact Hs. }
    apply Forall2_map_self. exact H.
  - split; [unfold prog', keep; rewrite !map_length; reflexivity|]. intros i j Hi.
    unfold keep in Hi. rewrite nth_error_map in Hi. destruct (nth_error kp i) as [[j' [[p srcs] par]]|] eqn:Ei; [|discriminate].
    cbn in Hi. injection Hi as ->. destruct (kp_nth i j _ Ei) as [Hp Hk]. exists p, srcs, (map rename srcs), par.
    split; [exact Hp|]. split; [unfold prog'; etransitivity; [apply nth_error_map|]; etransitivity; [exact (f_equal (option_map _) Ei)|reflexivity]|].
    assert (H : forall s, In s srcs -> renumbered ni keep s (rename s)).
    { intros s Hs. apply rename_renumbered. econstructor; [|exact Hp|exact Hs]. apply keep_in. eapply nth_error_In, Hk. }
    apply Forall2_map_self. exact H.
Qed.

Lemma map_indexed {B C D} (l : list B) (f : B -> D) (h : B -> C) (u : nat -> C -> D) :
  (forall i x, nth_error l i = Some x -> f x = u i (h x)) ->
  map f l = map (fun ic => u (fst ic) (snd ic)) (combine (seq 0 (length l)) (map h l)).
Proof.
  assert (forall a (v : nat -> C -> D), (forall i x, nth_error l i = Some x -> f x = v (a + i) (h x)) ->
     map f l = map (fun ic => v (fst ic) (snd ic)) (combine (seq a (length l)) (map h l))) as H; [|apply (H 0)].
  induction l as [|x l IH]; intros a v Hv; cbn [length seq map combine fst snd]; [reflexivity|]. f_equal.
  - rewrite (Hv 0 x eq_refl). rewrite Nat.add_0_r. reflexivity.
  - apply IH. intros i y Hy. rewrite (Hv (S i) y Hy). rewrite Nat.add_succ_comm. reflexivity.
Qed.

Let rn (e : edge) : edge := (rename (src e), rename (dst e), ord e).
Let both (e : edge) := memZ (src e) kept && memZ (dst e) kept.

Lemma kept_mem_needed s : needed ni prog outs s -> memZ s kept = true.
Proof.
  intros H. apply memZ_in. unfold kept. apply filter_In. split.
  - rewrite Hnodes. apply zrange_in. apply needed_below in H. unfold N. lia.
  - apply memZ_in. unfold necessary. rewrite !in_app_iff, ancestors_needed. tauto.
Qed.

Lemma kept_mem_hidden j : j < np -> memZ (Z.of_nat (ni + j)) kept = memZ (Z.of_nat (ni + j)) necessary.
Proof.
  intros Hj. destruct (memZ (Z.of_nat (ni + j)) necessary) eqn:E.
  - apply memZ_in. apply filter_In. split; [|exact E]. rewrite Hnodes. apply zrange_in. unfold N. lia.
  - destruct (memZ (Z.of_nat (ni + j)) kept) eqn:E2; [|reflexivity]. apply memZ_in, filter_In in E2 as [_ E2]. congruence.
Qed.

Lemma filter_both_nodes (l : list (nat * pnode V)) : (forall j x, In (j, x) l -> nth_error prog j = Some x) ->
  filter both (concat (map (fun jn => arg_edges (Z.of_nat (ni + fst jn)) (snd (fst (snd jn)))) l)) =
  concat (map (fun jn => arg_edges (Z.of_nat (ni + fst jn)) (snd (fst (snd jn)))) (filter keepb l)).
Proof.
  induction l as [|[j [[p srcs] par]] l IH]; intros H; [reflexivity|]. cbn [map concat filter fst snd]. rewrite filter_app.
  rewrite IH by (intros; apply H; right; assumption).
  assert (Hj : nth_error prog j = Some (p, srcs, par)) by (apply H; left; reflexivity).
  assert (Hlt : j < np) by (apply nth_error_Some; congruence).
  unfold keepb at 2. cbn [fst]. destruct (memZ (Z.of_nat (ni + j)) necessary) eqn:E; cbn [map concat fst snd].
  - f_equal. apply filter_all. apply Forall_forall. intros e He. apply arg_edges_dst in He as (Ed & Hs & _). unfold both.
    rewrite Ed, kept_mem_hidden, E by exact Hlt. rewrite andb_true_r. apply kept_mem_needed.
    econstructor; [|exact Hj|exact Hs]. apply necessary_hidden; assumption.
  - rewrite filter_none; [reflexivity|]. apply Forall_forall. intros e He. apply arg_edges_dst in He as (Ed & _). unfold both.
    rewrite Ed, kept_mem_hidden, E by exact Hlt. apply andb_false_r.
Qed.

Lemma prune_edges :
  Permutation (map rn (filter both (flat_map (out_edges g) kept))) (all_edges ni prog' outs').
Proof.
  transitivity (map rn (filter both (all_edges ni prog outs))).
  - apply Permutation_map. destruct Hg as (_ & _ & HP).
    transitivity (filter both (filter (fun e => memZ (src e) kept) (all_edges ni prog outs))).
    + apply filter_perm. etransitivity.
      * assert (G : forall ks, Permutation (flat_map (out_edges g) ks) (flat_map (fun n => filter (fun e => (src e =? n)%Z) (g_edges g)) ks)).
        { induction ks as [|k ks IHk]; cbn [flat_map]; [reflexivity|]. apply Permutation_app; [apply out_edges_perm|exact IHk]. }
        apply G.
      * etransitivity; [apply (group_perm src kept (g_edges g) kept_nodup)|]. apply filter_perm. exact HP.
    + rewrite filter_filter. apply Permutation_refl'. apply filter_ext. intros e. unfold both.
      destruct (memZ (src e) kept); reflexivity.
  - assert (E : map rn (filter both (all_edges ni prog outs)) = all_edges ni prog' outs'); [|rewrite E; reflexivity].
    unfold all_edges. rewrite filter_app. etransitivity; [apply map_app|]. f_equal.
    + rewrite filter_both_nodes by (intros j x; apply in_indexed). fold np kp. rewrite concat_map, map_map. f_equal.
      assert (El : length prog' = length kp) by (unfold prog'; apply map_length). rewrite El.
      unfold prog'.
      apply (map_indexed kp _ (fun jn => (fst (fst (snd jn)), map rename (snd (fst (snd jn))), snd (snd jn)))
        (fun i (x : pnode V) => arg_edges (Z.of_nat (ni + i)) (snd (fst x)))).
      intros i [j [[p srcs] par]] Hi. cbn [fst snd]. destruct (kp_nth i j _ Hi) as [_ Hk].
      unfold arg_edges. rewrite map_map. unfold rn. cbn [src dst ord fst snd]. rewrite (rename_hidden i j Hk), map_length.
      generalize 0 as a. clear. induction srcs as [|s l IH]; intros a; cbn [length seq combine map fst snd]; [reflexivity|]. f_equal. apply IH.
    + rewrite filter_all.
      * rewrite map_map. unfold rn. cbn [src dst ord fst snd]. unfold outs'.
        assert (El : length prog' = nk) by (unfold prog', nk, keep; rewrite !map_length; reflexivity). rewrite El, map_length.
        assert (G : forall (l : list Z) a, a + length l = no ->
          map (fun x : nat * Z => (rename (snd x), rename (Z.of_nat (ni + np + fst x)), @None nat)) (combine (seq a (length l)) l) =
          map (fun ko => (snd ko, Z.of_nat (ni + nk + fst ko), None)) (combine (seq a (length l)) (map rename l))).
        { induction l as [|s l IH]; intros a Ha; cbn [length seq combine map fst snd]; [reflexivity|]. cbn [length] in Ha. f_equal.
          - rewrite rename_out by lia. reflexivity.
          - apply IH. lia. }
        apply (G outs 0). reflexivity.
      * apply Forall_forall. intros e He. apply in_map_iff in He as ([k o] & <- & Hk). unfold both. cbn [src dst fst snd].
        apply in_indexed in Hk. assert (k < no) by (apply nth_error_Some; congruence).
        rewrite kept_mem_needed by (constructor; eapply nth_error_In, Hk). cbn [andb]. apply memZ_in.
        rewrite kept_are. apply in_or_app. right. apply in_or_app. right. apply zrange_in. unfold np. lia.
Qed.

Lemma map_index_of l : NoDup l -> map (fun n => index_of n l) l = seq 0 (length l).
Proof.
  intros H. apply nth_error_ext'. { rewrite map_length, seq_length. reflexivity. }
  intros i Hi. rewrite map_length in Hi. rewrite nth_error_map. destruct (nth_error l i) as [x|] eqn:E; [|apply nth_error_None in E; lia].
  cbn [option_map]. rewrite (index_of_nth l i x H E). rewrite (nth_error_nth' _ 0) by (rewrite seq_length; lia). rewrite seq_nth by lia. reflexivity.
Qed.

Lemma prune_circuit : circuit (prune_graph g ni no) ni prog' outs'.
Proof.
  assert (Elen : length prog' = nk) by (unfold prog', nk, keep; rewrite !map_length; reflexivity).
  assert (Eo : length outs' = no) by (unfold outs'; apply map_length).
  unfold prune_graph. fold outputs. fold necessary. fold kept. rewrite sort_kept. split; [|split].
  - cbn [g_nodes]. rewrite <- (map_map (fun n => index_of n kept) Z.of_nat). rewrite map_index_of by apply kept_nodup.
    rewrite kept_length, Elen, Eo. reflexivity.
  - intros i p srcs' par Hi. cbn [g_fun g_par]. assert (Hik : i < nk) by (rewrite <- Elen; apply nth_error_Some; congruence).
    destruct (Z.of_nat (ni + i) <? 0)%Z eqn:E0; [lia|]. rewrite Nat2Z.id.
    assert (Hi2 : option_map (fun jn : nat * pnode V => (fst (fst (snd jn)), map rename (snd (fst (snd jn))), snd (snd jn))) (nth_error kp i) = Some (p, srcs', par))
      by (rewrite <- Hi; symmetry; apply nth_error_map).
    clear Hi. rename Hi2 into Hi. destruct (nth_error kp i) as [[j [[p0 srcs] par0]]|] eqn:Ei; [|discriminate].
    cbn in Hi. injection Hi as <- <- <-. destruct (kp_nth i j _ Ei) as [Hp Hk]. rewrite (kept_nth_hidden i j Hk).
    destruct Hg as (_ & Hf & _). apply (Hf j p0 srcs par0 Hp).
  - cbn [g_edges]. exact prune_edges.
Qed.

Theorem prune_ok : exists keep prog' outs', reduced ni keep prog outs prog' outs' /\ length outs' = no /\
  circuit (prune_graph g ni no) ni prog' outs'.
Proof. exists keep, prog', outs'. split; [apply prune_reduced|]. split; [apply map_length|apply prune_circuit]. Qed.

End Prune.
