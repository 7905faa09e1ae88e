(** The plugin's messages. *)
From Coq Require Import Ascii String Lia.
From Verif Require Import Model.Base Model.CsvProbe Model.WorkerLog Spec.WorkerLog.
Local Open Scope list_scope.

Section Log.
Variable level_name : Z -> text.
Variable worker_id : nat -> text.
Variables (hostname process_id : text).
Variable root_level : Z.
Notation step := (lstep level_name worker_id hostname process_id root_level).
Notation run := (lrun level_name worker_id hostname process_id root_level).
Notation msgl := (message level_name hostname process_id).
Notation prints := (prints level_name worker_id hostname process_id).

Lemma set_up_app h e wk : set_up (h ++ [e]) wk <-> set_up h wk \/ exists v, e = ESetup v wk.
Proof.
  unfold set_up. split.
  - intros (v & H). apply in_app_iff in H. destruct H as [H | [H | []]]; [left|right]; exists v; assumption.
  - intros [(v & H) | (v & ->)]; exists v; apply in_app_iff; [left; exact H|right; left; reflexivity].
Qed.
Lemma set_up_other h e wk : (forall v, e <> ESetup v wk) -> set_up (h ++ [e]) wk <-> set_up h wk.
Proof. intros N. rewrite set_up_app. split; [intros [H | (v & E)]; [exact H|exfalso; exact (N v E)]|auto]. Qed.

(** the state after a history *)
Definition inv (h : list levent) (w : lworld) : Prop :=
  (forall wk, lw_attr w wk = Some Shared /\ set_up h wk \/ lw_attr w wk = None /\ ~ set_up h wk) /\
  (forall wk, set_up h wk -> exists v, last_fresh h v /\ lw_level w = Some (threshold v)) /\
  (lw_level w <> None -> exists v, last_fresh h v /\ lw_level w = Some (threshold v)) /\ lw_own w = [].

Lemma log_shared wk level msg w : lw_attr w wk = Some Shared ->
  worker_log level_name hostname process_id root_level wk level msg w =
  (Ok tt, if enabled root_level w level then mk_lw (lw_level w) (lw_attr w) (lw_out w ++ [msgl level msg]) (lw_own w) else w).
Proof. intros E. unfold worker_log. rewrite E. reflexivity. Qed.

Lemma step_inv h e w : inv h w -> exists lines ok, prints h e lines ok /\
  (fst (step e w) = if ok then Ok tt else Err AttributeError) /\ lw_out (snd (step e w)) = lw_out w ++ lines /\ inv (h ++ [e]) (snd (step e w)).
Proof.
  intros (A & L & L' & O). destruct e as [v wk | wk | wk level msg]; cbn [lstep].
  - unfold setup. destruct (A wk) as [(Ea & Su) | (Ea & Su)]; rewrite Ea.
    + exists [msgl 30%Z (lit "already has a logger")], true. split; [constructor; exact Su|]. rewrite (log_shared wk WARNING _ w Ea). cbn [fst snd].
      destruct (L wk Su) as (v0 & F & El). assert (En : enabled root_level w WARNING = true) by (unfold enabled; rewrite El; destruct v0; reflexivity). rewrite En.
      split; [reflexivity|]. split; [reflexivity|]. unfold inv. cbn [lw_attr lw_level lw_own].
      assert (SU : forall k, set_up (h ++ [ESetup v wk]) k <-> set_up h k).
      { intros k. rewrite set_up_app. split; [|auto]. intros [H | (v' & H)]; [exact H|]. injection H as <- <-. exact Su. }
      split; [intros k; rewrite SU; apply A|]. split; [intros k _; exists v0; split; [apply fresh_again; assumption|exact El]|].
      split; [intros _; exists v0; split; [apply fresh_again; assumption|exact El]|exact O].
    + exists [msgl 20%Z (lit "worker setup for " ++ worker_id wk)], true. split; [constructor; exact Su|].
      rewrite (log_shared wk INFO) by (cbn [setup_logger lw_attr]; rewrite Nat.eqb_refl; reflexivity). cbn [fst snd].
      assert (En : enabled root_level (setup_logger v wk w) INFO = true) by (unfold enabled, setup_logger; cbn [lw_level]; destruct v; reflexivity). rewrite En.
      split; [reflexivity|]. split; [reflexivity|]. unfold inv, setup_logger. cbn [lw_attr lw_level lw_own].
      assert (T : forall P : Prop, P -> exists v0, last_fresh (h ++ [ESetup v wk]) v0 /\ Some (if v then DEBUG else INFO) = Some (threshold v0)).
      { intros P _. exists v. split; [apply fresh_here, Su|destruct v; reflexivity]. }
      split.
      * intros k. rewrite set_up_app. destruct (k =? wk) eqn:K.
        -- apply Nat.eqb_eq in K. subst k. left. split; [reflexivity|]. right. exists v. reflexivity.
        -- apply Nat.eqb_neq in K. destruct (A k) as [(E1 & E2) | (E1 & E2)]; [left|right]; (split; [exact E1|]).
           ++ left. exact E2.
           ++ intros [H | (v' & H)]; [exact (E2 H)|]. injection H as _ H. congruence.
      * split; [intros k; apply T|]. split; [apply T|exact O].
  - assert (SU : forall k, set_up (h ++ [ETeardown wk]) k <-> set_up h k) by (intros k; apply set_up_other; discriminate).
    unfold teardown. destruct (A wk) as [(Ea & Su) | (Ea & Su)].
    + exists [msgl 20%Z (lit "Tearing down worker " ++ worker_id wk)], true. split; [constructor; exact Su|]. rewrite (log_shared wk INFO _ w Ea). cbn [fst snd].
      destruct (L wk Su) as (v0 & F & El). assert (En : enabled root_level w INFO = true) by (unfold enabled; rewrite El; destruct v0; reflexivity). rewrite En.
      split; [reflexivity|]. split; [reflexivity|]. unfold inv. cbn [lw_attr lw_level lw_own].
      split; [intros k; rewrite SU; apply A|]. split; [intros k _; exists v0; split; [apply fresh_teardown; exact F|exact El]|].
      split; [intros _; exists v0; split; [apply fresh_teardown; exact F|exact El]|exact O].
    + exists [], false. split; [constructor; exact Su|]. unfold worker_log. rewrite Ea. cbn [fst snd]. split; [reflexivity|]. rewrite app_nil_r. split; [reflexivity|].
      split; [intros k; rewrite SU; apply A|]. split; [|split; [|exact O]].
      * intros k H. rewrite SU in H. destruct (L k H) as (v0 & F & El). exists v0. split; [apply fresh_teardown; exact F|exact El].
      * intros H. destruct (L' H) as (v0 & F & El). exists v0. split; [apply fresh_teardown; exact F|exact El].
  - assert (SU : forall k, set_up (h ++ [ELog wk level msg]) k <-> set_up h k) by (intros k; apply set_up_other; discriminate).
    destruct (A wk) as [(Ea & Su) | (Ea & Su)].
    + destruct (L wk Su) as (v0 & F & El). rewrite (log_shared wk level msg w Ea). cbn [fst snd]. destruct (enabled root_level w level) eqn:En; unfold enabled in En; rewrite El in En.
      * exists [msgl level msg], true. apply Z.leb_le in En. split; [apply p_log with v0; assumption|]. split; [reflexivity|]. split; [reflexivity|]. unfold inv. cbn [lw_attr lw_level lw_own].
        split; [intros k; rewrite SU; apply A|]. split; [intros k _; exists v0; split; [apply fresh_log; exact F|exact El]|].
        split; [intros _; exists v0; split; [apply fresh_log; exact F|exact El]|exact O].
      * exists [], true. apply Z.leb_gt in En. split; [apply p_quiet with v0; assumption|]. split; [reflexivity|]. rewrite app_nil_r. split; [reflexivity|].
        split; [intros k; rewrite SU; apply A|]. split; [intros k _; exists v0; split; [apply fresh_log; exact F|exact El]|].
        split; [intros _; exists v0; split; [apply fresh_log; exact F|exact El]|exact O].
    + exists [], false. split; [constructor; exact Su|]. unfold worker_log. rewrite Ea. cbn [fst snd]. split; [reflexivity|]. rewrite app_nil_r. split; [reflexivity|].
      split; [intros k; rewrite SU; apply A|]. split; [|split; [|exact O]].
      * intros k H. rewrite SU in H. destruct (L k H) as (v0 & F & El). exists v0. split; [apply fresh_log; exact F|exact El].
      * intros H. destruct (L' H) as (v0 & F & El). exists v0. split; [apply fresh_log; exact F|exact El].
Qed.

Lemma run_app h e w : run (h ++ [e]) w = snd (step e (run h w)).
Proof. unfold lrun. rewrite fold_left_app. reflexivity. Qed.
Lemma inv0 : inv [] lw0.
Proof.
  split; [intros wk; right; split; [reflexivity|intros (v & [])]|]. split; [intros wk (v & [])|]. split; [intros H; contradiction|reflexivity].
Qed.
Lemma run_inv h : inv h (run h lw0).
Proof.
  induction h as [|e h IH] using rev_ind; [exact inv0|]. rewrite run_app. destruct (step_inv h e _ IH) as (l & ok & _ & _ & _ & H). exact H.
Qed.
Theorem messages h e : exists lines ok, prints h e lines ok /\
  fst (step e (run h lw0)) = (if ok then Ok tt else Err AttributeError) /\ lw_out (run (h ++ [e]) lw0) = lw_out (run h lw0) ++ lines.
Proof.
  destruct (step_inv h e _ (run_inv h)) as (l & ok & P & R & O & _). exists l, ok. rewrite run_app. auto.
Qed.
Lemma fresh_unique h v v' : last_fresh h v -> last_fresh h v' -> v = v'.
Proof.
  intros H. revert v'. induction H as [h v wk N | h v w wk S0 H IH | h v wk H IH | h v wk level msg H IH]; intros v' H'; inversion H' as [h1 v1 wk1 N1 E1 | h1 v1 w1 wk1 S1 H1 E1 | h1 v1 wk1 H1 E1 | h1 v1 wk1 l1 m1 H1 E1];
    apply app_inj_tail in E1; destruct E1 as (-> & E1); try discriminate; injection E1; intros; subst; auto; contradiction.
Qed.
Lemma fresh_exists h : (exists wk, set_up h wk) -> exists v, last_fresh h v.
Proof.
  intros (wk & H). destruct (run_inv h) as (_ & L & _). destruct (L wk H) as (v & F & _). exists v. exact F.
Qed.
Lemma prints_unique h e l ok l' ok' : prints h e l ok -> prints h e l' ok' -> l = l' /\ ok = ok'.
Proof.
  intros H H'. inversion H; subst; inversion H'; subst; auto; try contradiction;
    match goal with A : last_fresh h ?a, B : last_fresh h ?b |- _ => pose proof (fresh_unique h a b A B); subst; lia | _ => idtac end.
Qed.
(** another registration of the plugin, whatever its verbosity, changes nothing but the warning it prints *)
Lemma again_unchanged h v wk e : set_up h wk -> lw_level (run (h ++ [ESetup v wk]) lw0) = lw_level (run h lw0) /\
  (forall l ok, prints h e l ok -> prints (h ++ [ESetup v wk]) e l ok).
Proof.
  intros S0. assert (SU : forall k, set_up (h ++ [ESetup v wk]) k <-> set_up h k).
  { intros k. rewrite set_up_app. split; [|auto]. intros [H | (v' & H)]; [exact H|]. injection H as <- <-. exact S0. }
  split.
  - rewrite run_app. destruct (run_inv h) as (A & L & _). destruct (A wk) as [(Ea & _) | (_ & N)]; [|contradiction].
    cbn [lstep]. unfold setup. rewrite Ea, (log_shared wk WARNING _ _ Ea). cbn [snd]. destruct (enabled _ _ _); reflexivity.
  - intros l ok H. inversion H; subst; try (constructor; rewrite SU; assumption);
      [eapply p_log|eapply p_quiet]; try (rewrite SU; eassumption); try eassumption; apply fresh_again; assumption.
Qed.
(** a worker with a logger of its own keeps it *)
Lemma own_logger wk w : lw_attr w wk = Some Own -> forall e level msg, own_message worker_id wk e level msg ->
  fst (step e w) = Ok tt /\ lw_level (snd (step e w)) = lw_level w /\ lw_out (snd (step e w)) = lw_out w /\
  (forall k, lw_attr (snd (step e w)) k = lw_attr w k) /\ lw_own (snd (step e w)) = lw_own w ++ [(wk, (level, msg))].
Proof.
  intros E e level msg H. inversion H; subst; cbn [lstep]; unfold setup, teardown, worker_log; rewrite E; repeat split.
Qed.
End Log.
