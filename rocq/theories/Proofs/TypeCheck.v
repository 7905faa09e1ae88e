From Coq Require Import Lia.
From Verif Require Import Model.Base Model.TypeCheck Spec.TypeCheck.

Section S.
Context {I It St : Type}.
Notation operator := (operator I It St).
Notation pval := (pval I It).

Lemma kind_list (v : pval) : is_list v = true <-> has_kind KList v.
Proof. split; [destruct v; try discriminate; cbn; eauto|intros (l & ->); reflexivity]. Qed.
Lemma kind_iter (v : pval) : is_iterator v = true <-> has_kind KIter v.
Proof. split; [destruct v; try discriminate; cbn; eauto|intros (l & ->); reflexivity]. Qed.
Lemma kinds_differ k k' (v : pval) : has_kind k v -> has_kind k' v -> k = k'.
Proof. destruct k, k'; intros (a & ->) (b & E); congruence || reflexivity. Qed.
Lemma curry_kind k : ~ has_kind k (@PCurry I It).
Proof. destruct k; intros (a & E); discriminate. Qed.

Definition good_in (d : deco) : pval -> bool := match takes d with KList => is_list | KIter => is_iterator end.
Definition good_out (d : deco) : pval -> bool := match gives d with KList => is_list | KIter => is_iterator end.
Lemma decorated_is d (f : body I It St) : decorated d f = typecheck (good_in d) (good_out d) f.
Proof. destruct d; reflexivity. Qed.
Lemma good_in_iff d v : good_in d v = true <-> has_kind (takes d) v.
Proof. unfold good_in. destruct (takes d); [apply kind_list|apply kind_iter]. Qed.
Lemma good_out_iff d v : good_out d v = true <-> has_kind (gives d) v.
Proof. unfold good_out. destruct (gives d); [apply kind_list|apply kind_iter]. Qed.

Lemma call_wrong (o : operator) s v : ~ has_kind (takes (op_deco o)) v -> call o s v = (Err ValueError, s).
Proof.
  intros H. unfold call. rewrite decorated_is. unfold typecheck. destruct (good_in (op_deco o) v) eqn:E; [exfalso; apply H, good_in_iff, E|reflexivity].
Qed.
Lemma call_missing (o : operator) s v : op_missing o = true -> has_kind (takes (op_deco o)) v -> call o s v = (Ok PCurry, s).
Proof.
  intros M H. unfold call. rewrite decorated_is, M. unfold typecheck. rewrite (proj2 (good_in_iff _ _) H). reflexivity.
Qed.
Lemma call_complete (o : operator) s v : complete o -> has_kind (takes (op_deco o)) v ->
  call o s v = match op_body o s v with
               | (Ok v', s') => if good_out (op_deco o) v' then (Ok v', s') else (Err ValueError, s')
               | (Err e, s') => (Err e, s')
               end.
Proof.
  intros M H. unfold call. rewrite decorated_is, M. unfold typecheck. rewrite (proj2 (good_in_iff _ _) H). cbn [negb].
  destruct (op_body o s v) as [[v'|e] s']; [destruct (good_out (op_deco o) v'); reflexivity|destruct e; try reflexivity; rewrite M; reflexivity].
Qed.
Lemma call_honest (o : operator) s v : complete o -> honest o -> has_kind (takes (op_deco o)) v -> call o s v = op_body o s v.
Proof.
  intros M Hh H. rewrite call_complete by assumption. destruct (op_body o s v) as [[v'|e] s'] eqn:E; [|reflexivity].
  rewrite (proj2 (good_out_iff _ _) (Hh _ _ _ _ H E)). reflexivity.
Qed.

Lemma pipe_app (ops ops' : list operator) : forall s v, pipe (ops ++ ops') s v = match pipe ops s v with (Ok v', s') => pipe ops' s' v' | (Err e, s') => (Err e, s') end.
Proof. induction ops as [|o r IH]; intros s v; [reflexivity|]. cbn. destruct (call o s v) as [[v'|e] s']; [apply IH|reflexivity]. Qed.

Lemma transparent (ops : list operator) : forall k s v, connected k ops -> Forall complete ops -> Forall honest ops -> has_kind k v ->
  pipe ops s v = unchecked ops s v /\ forall v' s', unchecked ops s v = (Ok v', s') -> has_kind (result_kind k ops) v'.
Proof.
  induction ops as [|o r IH]; intros k s v C F H K.
  - split; [reflexivity|]. intros v' s' E. injection E as <- <-. exact K.
  - destruct C as (C1 & C2). pose proof (Forall_inv F) as F1. pose proof (Forall_inv_tail F) as F2. pose proof (Forall_inv H) as H1. pose proof (Forall_inv_tail H) as H2.
    assert (K' : has_kind (takes (op_deco o)) v) by (rewrite C1; exact K). cbn [pipe unchecked result_kind]. rewrite (call_honest o s v F1 H1 K').
    destruct (op_body o s v) as [[v1|e] s1] eqn:E; [|split; [reflexivity|discriminate]].
    apply IH; auto. eapply H1; eauto.
Qed.

Lemma bad_connection k (pre : list operator) b post s v : connected k pre -> Forall complete pre -> Forall honest pre -> has_kind k v ->
  takes (op_deco b) <> result_kind k pre ->
  pipe (pre ++ b :: post) s v = match unchecked pre s v with (Ok _, s') => (Err ValueError, s') | (Err e, s') => (Err e, s') end.
Proof.
  intros C F H K N. rewrite pipe_app. destruct (transparent pre k s v C F H K) as (E & R). rewrite E. destruct (unchecked pre s v) as [[v'|e] s'] eqn:U; [|reflexivity].
  cbn [pipe]. rewrite call_wrong; [reflexivity|]. intros K'. apply N. eapply kinds_differ; [exact K'|]. eapply R. reflexivity.
Qed.
Lemma lazy_unchecked (ops : list operator) : forall s v, Forall lazy ops -> snd (unchecked ops s v) = s.
Proof.
  induction ops as [|o r IH]; intros s v F; [reflexivity|]. pose proof (Forall_inv F s v) as F1. cbn [unchecked]. destruct (op_body o s v) as [[v1|e] s1]; cbn in *; subst; [|reflexivity].
  apply IH. apply (Forall_inv_tail F).
Qed.
Lemma bad_connection_lazy k (pre : list operator) b post s v : connected k pre -> Forall complete pre -> Forall honest pre -> Forall lazy pre -> has_kind k v ->
  takes (op_deco b) <> result_kind k pre -> snd (pipe (pre ++ b :: post) s v) = s /\ exists e, fst (pipe (pre ++ b :: post) s v) = Err e.
Proof.
  intros C F H L K N. rewrite (bad_connection k pre b post s v C F H K N). pose proof (lazy_unchecked pre s v L) as E. destruct (unchecked pre s v) as [[v'|e] s']; cbn in *; eauto.
Qed.

Lemma missing_argument k (pre : list operator) a post s v : connected k pre -> Forall complete pre -> Forall honest pre -> has_kind k v ->
  takes (op_deco a) = result_kind k pre -> op_missing a = true ->
  pipe (pre ++ a :: post) s v =
  match unchecked pre s v with
  | (Ok _, s') => (match post with [] => Ok PCurry | _ => Err ValueError end, s')
  | (Err e, s') => (Err e, s')
  end.
Proof.
  intros C F H K T M. rewrite pipe_app. destruct (transparent pre k s v C F H K) as (E & R). rewrite E. destruct (unchecked pre s v) as [[v'|e] s'] eqn:U; [|reflexivity].
  cbn [pipe]. rewrite call_missing; [|exact M|rewrite T; eapply R; reflexivity]. destruct post as [|b post]; [reflexivity|]. cbn [pipe]. rewrite call_wrong; [reflexivity|apply curry_kind].
Qed.

(** whatever the operators: what comes out has the promised kind *)
Lemma call_kind (o : operator) s v v' s' : call o s v = (Ok v', s') ->
  has_kind (takes (op_deco o)) v /\ (if op_missing o then v' = PCurry else has_kind (gives (op_deco o)) v' /\ op_body o s v = (Ok v', s')).
Proof.
  intros E. destruct (good_in (op_deco o) v) eqn:G.
  - apply good_in_iff in G. split; [exact G|]. destruct (op_missing o) eqn:M; [rewrite call_missing in E by assumption; congruence|].
    rewrite call_complete in E by assumption. destruct (op_body o s v) as [[v1|e] s1]; [|discriminate]. destruct (good_out (op_deco o) v1) eqn:G'; [|discriminate].
    injection E as <- <-. split; [apply good_out_iff, G'|reflexivity].
  - rewrite call_wrong in E; [discriminate|]. intros K. apply good_in_iff in K. congruence.
Qed.
Lemma pipe_sound (ops : list operator) : forall s v v' s', pipe ops s v = (Ok v', s') -> forall k, has_kind k v -> Forall complete ops ->
  connected k ops /\ has_kind (result_kind k ops) v' /\ unchecked ops s v = (Ok v', s').
Proof.
  induction ops as [|o r IH]; intros s v v' s' E k K F.
  - injection E as <- <-. cbn. auto.
  - cbn [pipe] in E. destruct (call o s v) as [[v1|e] s1] eqn:E1; [|discriminate]. destruct (call_kind o s v v1 s1 E1) as (T & G).
    rewrite (Forall_inv F) in G. destruct G as (G & B). destruct (IH s1 v1 v' s' E _ G (Forall_inv_tail F)) as (C & R & U). cbn [connected result_kind unchecked]. rewrite B.
    split; [split; [eapply kinds_differ; eassumption|exact C]|]. split; assumption.
Qed.
Lemma dishonest (o : operator) s v v' s' post : complete o -> has_kind (takes (op_deco o)) v -> op_body o s v = (Ok v', s') -> ~ has_kind (gives (op_deco o)) v' ->
  pipe (o :: post) s v = (Err ValueError, s').
Proof.
  intros M K E N. cbn [pipe]. rewrite call_complete, E by assumption. destruct (good_out (op_deco o) v') eqn:G; [exfalso; apply N, good_out_iff, G|reflexivity].
Qed.
End S.
