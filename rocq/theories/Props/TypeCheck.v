(** C88: the type-checking decorators. *)
From Verif Require Import Model.Base Model.TypeCheck Spec.TypeCheck Proofs.TypeCheck.

(** In a well connected pipeline of functions that keep their decorators' promises the checks change nothing. *)
Theorem C88_transparent :
  forall I It St (ops : list (operator I It St)) k s v,
  connected k ops -> Forall complete ops -> Forall honest ops -> has_kind k v ->
  pipe ops s v = unchecked ops s v /\ forall v' s', unchecked ops s v = (Ok v', s') -> has_kind (result_kind k ops) v'.
Proof. exact @transparent. Qed.
Print Assumptions C88_transparent.

(** Conversely, if a pipeline of complete operators, honest or not, runs to its end, it was well connected and every
    operator kept its promise; the result is that of the bodies. *)
Theorem C88_sound :
  forall I It St (ops : list (operator I It St)) s v v' s', pipe ops s v = (Ok v', s') ->
  forall k, has_kind k v -> Forall complete ops ->
  connected k ops /\ has_kind (result_kind k ops) v' /\ unchecked ops s v = (Ok v', s').
Proof. exact @pipe_sound. Qed.
Print Assumptions C88_sound.

(** An operator behind one that gives the wrong thing raises ValueError; neither it nor anything behind it has run. *)
Theorem C88_bad_connection :
  forall I It St k (pre : list (operator I It St)) b post s v,
  connected k pre -> Forall complete pre -> Forall honest pre -> has_kind k v ->
  takes (op_deco b) <> result_kind k pre ->
  pipe (pre ++ b :: post) s v = match unchecked pre s v with (Ok _, s') => (Err ValueError, s') | (Err e, s') => (Err e, s') end.
Proof. exact @bad_connection. Qed.
Print Assumptions C88_bad_connection.

(** If only generator functions stand before it, nothing at all has happened. *)
Theorem C88_bad_connection_before_any_work :
  forall I It St k (pre : list (operator I It St)) b post s v,
  connected k pre -> Forall complete pre -> Forall honest pre -> Forall lazy pre -> has_kind k v ->
  takes (op_deco b) <> result_kind k pre ->
  snd (pipe (pre ++ b :: post) s v) = s /\ exists e, fst (pipe (pre ++ b :: post) s v) = Err e.
Proof. exact @bad_connection_lazy. Qed.
Print Assumptions C88_bad_connection_before_any_work.

(** A forgotten argument is a ValueError of the next operator; in the last place it is not noticed: the pipeline returns
    the curry object. *)
Theorem C88_missing_argument :
  forall I It St k (pre : list (operator I It St)) a post s v,
  connected k pre -> Forall complete pre -> Forall honest pre -> has_kind k v ->
  takes (op_deco a) = result_kind k pre -> op_missing a = true ->
  pipe (pre ++ a :: post) s v =
  match unchecked pre s v with
  | (Ok _, s') => (match post with [] => Ok PCurry | _ => Err ValueError end, s')
  | (Err e, s') => (Err e, s')
  end.
Proof. exact @missing_argument. Qed.
Print Assumptions C88_missing_argument.

(** A function that returns something else than promised is a ValueError, after it has run. *)
Theorem C88_broken_promise :
  forall I It St (o : operator I It St) s v v' s' post, complete o -> has_kind (takes (op_deco o)) v ->
  op_body o s v = (Ok v', s') -> ~ has_kind (gives (op_deco o)) v' ->
  pipe (o :: post) s v = (Err ValueError, s').
Proof. exact @dishonest. Qed.
Print Assumptions C88_broken_promise.

Example C88_example :
  let good := [ex_select; ex_clone; ex_pool 2] in
  connected KList good /\ Forall complete good /\ Forall honest good /\ Forall lazy [ex_select; ex_clone] /\
  pipe good 0 (PList [1; 2; 3]) = (Ok (PList [11; 12]), 2) /\
  pipe [ex_select; ex_pool 2; ex_clone] 0 (PList [1; 2; 3]) = (Err ValueError, 2) /\
  pipe [ex_clone; ex_pool 2] 0 (PList [1; 2; 3]) = (Err ValueError, 0) /\
  pipe [ex_select; ex_clone; ex_pool_missing; ex_select] 0 (PList [1; 2; 3]) = (Err ValueError, 0) /\
  pipe [ex_select; ex_clone; ex_pool_missing] 0 (PList [1; 2; 3]) = (Ok PCurry, 0).
Proof.
  cbv zeta. split; [repeat split|]. split; [repeat constructor|]. split.
  { repeat constructor; intros s v v' s' (a & ->) E; cbn in E; injection E as <- <-; cbn; eauto. }
  split; [repeat constructor; intros s [| | |]; reflexivity|]. repeat split.
Qed.
