(** Python list primitives the selection operators are built from. *)
From Verif Require Import Model.Base.

Section Cmp.
Context {A : Type}.

(** Python [max(iterable)]: CPython keeps the first element and replaces it by a later [item]
    when [item > current].  [pymax_from gt cur rest]. *)
(** called at leap_ec/ops.py:940-953 *)
Fixpoint pymax_from (gt : A -> A -> bool) (cur : A) (l : list A) : A :=
  match l with
  | [] => cur
  | x :: r => pymax_from gt (if gt x cur then x else cur) r
  end.

(** called at leap_ec/ops.py:940-953 *)
Definition pymax (gt : A -> A -> bool) (l : list A) : option A :=
  match l with [] => None | x :: r => Some (pymax_from gt x r) end.

(** Python [min(iterable)]: replaces when [item < current]. *)
(** called at leap_ec/ops.py:940-953 *)
Fixpoint pymin_from (lt : A -> A -> bool) (cur : A) (l : list A) : A :=
  match l with
  | [] => cur
  | x :: r => pymin_from lt (if lt x cur then x else cur) r
  end.

(** [sorted(l, reverse=True)]: stable descending sort that only asks [<].  Modelled as insertion
    sort: elements are inserted from the right, an element goes before an equal one that followed
    it in the input (Python: "the reverse parameter still maintains sort stability"). *)
(** part of toolz.topk, called at leap_ec/ops.py:814-823 *)
Fixpoint insert_desc (lt : A -> A -> bool) (x : A) (l : list A) : list A :=
  match l with
  | [] => [x]
  | y :: r => if lt x y then y :: insert_desc lt x r else x :: y :: r
  end.

(** part of toolz.topk, called at leap_ec/ops.py:814-823 *)
Fixpoint sort_desc (lt : A -> A -> bool) (l : list A) : list A :=
  match l with
  | [] => []
  | x :: r => insert_desc lt x (sort_desc lt r)
  end.

(** [sorted(l)]: stable ascending sort. *)
(** called at leap_ec/multiobjective/ops.py:220-227 *)
Fixpoint insert_asc (lt : A -> A -> bool) (x : A) (l : list A) : list A :=
  match l with
  | [] => [x]
  | y :: r => if lt y x then y :: insert_asc lt x r else x :: y :: r
  end.

(** called at leap_ec/multiobjective/ops.py:220-227 *)
Fixpoint sort_asc (lt : A -> A -> bool) (l : list A) : list A :=
  match l with
  | [] => []
  | x :: r => insert_asc lt x (sort_asc lt r)
  end.

(** [toolz.topk(k, seq)] = [tuple(heapq.nlargest(k, seq))].  CPython's nlargest answers k = 1 with
    [max] (which asks [>]).  If the input has a length ([sized]) no larger than k it is
    [sorted(seq, reverse=True)[:k]] (which asks [<]).  Otherwise it works on pairs (element,
    -position) whose comparison first asks [==] of the elements, then [<]; on a tie the earlier
    element counts as the larger.  The pairs are modelled as sorted and cut (the documented
    equivalence [sorted(seq, reverse=True)[:k]]), not as CPython's bounded heap: the two agree
    whenever the comparison is a total order.  Sorting inserts from the right, so of two [==]
    elements the one being inserted is the earlier, hence never the smaller.
    A negative k gives the empty list, as does k = 0. *)
(** called at leap_ec/ops.py:814-823, 890-900 *)
Definition topk (lt gt eq : A -> A -> bool) (sized : bool) (k : nat) (l : list A) : list A :=
  match k with
  | 0 => []
  | 1 => match l with [] => [] | x :: r => [pymax_from gt x r] end
  | _ =>
      if sized && (length l <=? k) then firstn k (sort_desc lt l)
      else firstn k (sort_desc (fun x y => negb (eq x y) && lt x y) l)
  end.
End Cmp.
