(** The type-checking decorators of operators, leap_ec/ops.py:75-230, currying (leap_ec/util.py:22-26) and toolz.pipe. *)
From Verif Require Import Model.Base.

Section TypeCheck.
(** individuals, iterators, and everything an operator may change (streams, counters, populations, iterators) *)
Context {I It St : Type}.

(** What is handed from operator to operator: a list, an iterator, a curry object, anything else; leap_ec/ops.py:91-99. *)
Inductive pval := PList (l : list I) | PIter (it : It) | PCurry | POther.
(** isinstance(_, list), leap_ec/ops.py:131 *)
Definition is_list (v : pval) : bool := match v with PList _ => true | _ => false end.
(** isinstance(_, collections.abc.Iterator), leap_ec/ops.py:91 *)
Definition is_iterator (v : pval) : bool := match v with PIter _ => true | _ => false end.

(** An operator with all its other arguments: what it returns or raises, and the state afterwards; leap_ec/ops.py:75-230. *)
Definition body := St -> pval -> result pval * St.

(** The common shape of the four decorators, leap_ec/ops.py:89-112, 129-152, 168-191, 207-230.  The two messages for wrong input
    (lines 92-102) are both ValueErrors. *)
Definition typecheck (good_in good_out : pval -> bool) (f : body) : body := fun s v =>
  if negb (good_in v) then (Err ValueError, s)
  else match f s v with
       | (Ok v', s') => if negb (good_out v') then (Err ValueError, s') else (Ok v', s')
       | (Err e, s') => (Err e, s')
       end.
(** leap_ec/ops.py:78-114 *)
Definition iteriter_op : body -> body := typecheck is_iterator is_iterator.
(** leap_ec/ops.py:117-154 *)
Definition listlist_op : body -> body := typecheck is_list is_list.
(** leap_ec/ops.py:157-193 *)
Definition listiter_op : body -> body := typecheck is_list is_iterator.
(** leap_ec/ops.py:196-232 *)
Definition iterlist_op : body -> body := typecheck is_iterator is_list.

(** The decorated functions with their keyword arguments, leap_ec/ops.py:236-241 and so on; [op_missing]: a required argument was not given. *)
Inductive deco := IterIter | ListList | ListIter | IterList.
(** leap_ec/ops.py:236-241, continued *)
Record operator := mk_op { op_deco : deco; op_missing : bool; op_body : body }.
(** the decorator applied, leap_ec/ops.py:236-237 *)
Definition decorated (d : deco) : body -> body :=
  match d with IterIter => iteriter_op | ListList => listlist_op | ListIter => listiter_op | IterList => iterlist_op end.
(** wrap_curry, leap_ec/util.py:22-26, around the decorator, leap_ec/ops.py:236-237: the decorated function is called; if an
    argument is missing, the call of the function itself (line 104) is a TypeError, which toolz.curry answers with a new curry
    object. *)
Definition call (o : operator) : body := fun s v =>
  match decorated (op_deco o) (if op_missing o then fun s _ => (Err TypeError, s) else op_body o) s v with
  | (Err TypeError, s') => if op_missing o then (Ok PCurry, s') else (Err TypeError, s')
  | r => r
  end.
(** toolz.pipe, used at leap_ec/algorithm.py:134 *)
Fixpoint pipe (ops : list operator) (s : St) (v : pval) : result pval * St :=
  match ops with
  | [] => (Ok v, s)
  | o :: r => match call o s v with
              | (Ok v', s') => pipe r s' v'
              | (Err e, s') => (Err e, s')
              end
  end.
End TypeCheck.
Arguments pval : clear implicits.
Arguments body : clear implicits.
Arguments operator : clear implicits.
