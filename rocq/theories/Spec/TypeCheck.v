(** Which operators fit together, and what a pipeline does if nobody checks. *)
From Verif Require Import Model.Base Model.TypeCheck.

Inductive kind := KList | KIter.
Definition takes (d : deco) : kind := match d with ListList | ListIter => KList | _ => KIter end.
Definition gives (d : deco) : kind := match d with ListList | IterList => KList | _ => KIter end.

Section S.
Context {I It St : Type}.
Definition has_kind (k : kind) (v : pval I It) : Prop :=
  match k with KList => exists l, v = PList l | KIter => exists it, v = PIter it end.

(** what the first operator gets, and each one what the one before it gives *)
Fixpoint connected (k : kind) (ops : list (operator I It St)) : Prop :=
  match ops with [] => True | o :: r => takes (op_deco o) = k /\ connected (gives (op_deco o)) r end.
(** kind of what comes out of [ops] *)
Fixpoint result_kind (k : kind) (ops : list (operator I It St)) : kind :=
  match ops with [] => k | o :: r => result_kind (gives (op_deco o)) r end.

(** The function keeps the promise of its decorator: given the right thing it raises or returns the right thing. *)
Definition honest (o : operator I It St) : Prop :=
  forall s v v' s', has_kind (takes (op_deco o)) v -> op_body o s v = (Ok v', s') -> has_kind (gives (op_deco o)) v'.
(** All arguments given. *)
Definition complete (o : operator I It St) : Prop := op_missing o = false.
(** A generator function: calling it does nothing yet. *)
Definition lazy (o : operator I It St) : Prop := forall s v, snd (op_body o s v) = s.

(** the bodies one after the other, without any checks *)
Fixpoint unchecked (ops : list (operator I It St)) (s : St) (v : pval I It) : result (pval I It) * St :=
  match ops with
  | [] => (Ok v, s)
  | o :: r => match op_body o s v with (Ok v', s') => unchecked r s' v' | (Err e, s') => (Err e, s') end
  end.
End S.

(** ** examples: the state counts how many individuals have been drawn; an iterator is what it will yield *)
Definition ex_select : operator nat (list nat) nat := mk_op ListIter false (fun s v => match v with PList l => (Ok (PIter l), s) | _ => (Err AttributeError, s) end).
Definition ex_clone : operator nat (list nat) nat := mk_op IterIter false (fun s v => match v with PIter l => (Ok (PIter (map (plus 10) l)), s) | _ => (Err AttributeError, s) end).
Definition ex_pool (n : nat) : operator nat (list nat) nat :=
  mk_op IterList false (fun s v => match v with PIter l => (Ok (PList (firstn n l)), s + n) | _ => (Err AttributeError, s) end).
Definition ex_pool_missing : operator nat (list nat) nat := mk_op IterList true (op_body (ex_pool 0)).
