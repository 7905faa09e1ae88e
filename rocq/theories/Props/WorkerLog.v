(** C86: what the logging plugin prints for the workers of a process. *)
From Coq Require Import Ascii String.
From Verif Require Import Model.Base Model.CsvProbe Model.WorkerLog Spec.WorkerLog Proofs.WorkerLog.
Local Open Scope list_scope.

Section Log.
Variables (level_name : Z -> text) (worker_id : nat -> text) (hostname process_id : text) (root_level : Z).
Notation step := (lstep level_name worker_id hostname process_id root_level).
Notation run := (lrun level_name worker_id hostname process_id root_level).

(** after any history, each event prints what [prints] says and nothing else *)
Theorem C86_messages h e : exists lines ok, prints level_name worker_id hostname process_id h e lines ok /\
  fst (step e (run h lw0)) = (if ok then Ok tt else Err AttributeError) /\ lw_out (run (h ++ [e]) lw0) = lw_out (run h lw0) ++ lines.
Proof. exact (messages level_name worker_id hostname process_id root_level h e). Qed.

(** [prints] leaves no choice *)
Theorem C86_deterministic h e l ok l' ok' : prints level_name worker_id hostname process_id h e l ok ->
  prints level_name worker_id hostname process_id h e l' ok' -> l = l' /\ ok = ok'.
Proof. exact (prints_unique level_name worker_id hostname process_id h e l ok l' ok'). Qed.

(** registering the plugin again, with another verbosity, has no effect on later messages *)
Theorem C86_second_setup h v wk e : set_up h wk -> lw_level (run (h ++ [ESetup v wk]) lw0) = lw_level (run h lw0) /\
  (forall l ok, prints level_name worker_id hostname process_id h e l ok -> prints level_name worker_id hostname process_id (h ++ [ESetup v wk]) e l ok).
Proof. exact (again_unchanged level_name worker_id hostname process_id root_level h v wk e). Qed.
(** a worker that came with a logger of its own keeps it, and its messages go there *)
Theorem C86_own_logger wk w : lw_attr w wk = Some Own -> forall e level msg, own_message worker_id wk e level msg ->
  fst (step e w) = Ok tt /\ lw_level (snd (step e w)) = lw_level w /\ lw_out (snd (step e w)) = lw_out w /\
  (forall k, lw_attr (snd (step e w)) k = lw_attr w k) /\ lw_own (snd (step e w)) = lw_own w ++ [(wk, (level, msg))].
Proof. exact (own_logger level_name worker_id hostname process_id root_level wk w). Qed.
End Log.
Print Assumptions C86_own_logger.
Print Assumptions C86_messages.
Print Assumptions C86_deterministic.
Print Assumptions C86_second_setup.

(** the verbosity is not the worker's own: a verbose worker loses its DEBUG messages when a quiet one joins the process *)
Theorem C86_own_verbosity_refuted : exists h wk msg, In (ESetup true wk) h /\ (forall v, In (ESetup v wk) h -> v = true) /\
  forall level_name worker_id hostname process_id root_level,
    prints level_name worker_id hostname process_id h (ELog wk 10 msg) [] true /\
    lw_out (lrun level_name worker_id hostname process_id root_level (h ++ [ELog wk 10 msg]) lw0) =
    lw_out (lrun level_name worker_id hostname process_id root_level h lw0).
Proof.
  exists [ESetup true 0; ESetup false 1], 0, (lit "x"). split; [left; reflexivity|].
  split; [intros v [H | [H | []]]; [injection H as <-; reflexivity|discriminate]|]. intros. split; [|reflexivity].
  apply p_quiet with false; [exists true; left; reflexivity| |reflexivity].
  apply (fresh_here [ESetup true 0] false 1). intros (v & [H | []]). discriminate.
Qed.
Print Assumptions C86_own_verbosity_refuted.

(** a line does not tell which worker of the process logged it *)
Theorem C86_names_the_worker_refuted : exists h wk wk' msg, wk <> wk' /\ set_up h wk /\ set_up h wk' /\
  forall level_name worker_id hostname process_id root_level, worker_id wk <> worker_id wk' ->
    lw_out (lrun level_name worker_id hostname process_id root_level (h ++ [ELog wk 20 msg]) lw0) =
    lw_out (lrun level_name worker_id hostname process_id root_level (h ++ [ELog wk' 20 msg]) lw0).
Proof.
  exists [ESetup true 0; ESetup true 1], 0, 1, (lit "x"). split; [discriminate|]. split; [exists true; left; reflexivity|]. split; [exists true; right; left; reflexivity|].
  intros. reflexivity.
Qed.
Print Assumptions C86_names_the_worker_refuted.

Example C86_example : lw_out (lrun ex_level ex_worker (lit "h") (lit "7") 30 ex_events lw0) =
  [lit "h - 7 - INFO : worker setup for a"; lit "h - 7 - DEBUG : x"; lit "h - 7 - INFO : worker setup for b"; lit "h - 7 - WARNING : already has a logger"; lit "h - 7 - INFO : u"].
Proof. vm_compute. reflexivity. Qed.
Example C86_second_example : set_up ex_events 1 /\ last_fresh ex_events false /\ ~ set_up ex_events 2 /\
  fst (lstep ex_level ex_worker (lit "h") (lit "7") 30 (ETeardown 2) (lrun ex_level ex_worker (lit "h") (lit "7") 30 ex_events lw0)) = Err AttributeError.
Proof.
  split; [exists true; cbn; tauto|]. split; [|split; [|vm_compute; reflexivity]].
  - apply (fresh_log [ESetup true 0; ELog 0 10 (lit "x"); ESetup false 1; ELog 0 10 (lit "y"); ESetup true 1; ELog 1 10 (lit "z")]).
    apply (fresh_log [ESetup true 0; ELog 0 10 (lit "x"); ESetup false 1; ELog 0 10 (lit "y"); ESetup true 1]).
    apply (fresh_again [ESetup true 0; ELog 0 10 (lit "x"); ESetup false 1; ELog 0 10 (lit "y")]); [exists false; cbn; tauto|].
    apply (fresh_log [ESetup true 0; ELog 0 10 (lit "x"); ESetup false 1]). apply (fresh_here [ESetup true 0; ELog 0 10 (lit "x")]).
    intros (v & [H | [H | []]]); discriminate.
  - intros (v & H). cbn in H. repeat (destruct H as [H | H]; [discriminate|]). contradiction.
Qed.
Example C86_own_example : let w := mk_lw None (fun i => if i =? 0 then Some Own else None) [] [] in
  lw_own (lrun ex_level ex_worker (lit "h") (lit "7") 30 [ESetup true 0; ELog 0 10 (lit "x")] w) = [(0, (30%Z, lit "already has a logger")); (0, (10%Z, lit "x"))].
Proof. vm_compute. reflexivity. Qed.
