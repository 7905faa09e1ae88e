(** Scalar fitness comparison and the ordering of individuals. *)
From Verif Require Import Model.Base Model.PyList.

(** leap_ec/problem.py:88-120 ScalarProblem.worse_than.  [coin] is the outcome of
    [random.choice([True, False])], drawn only when both fitnesses are NaN. *)
Definition worse_than (maximize coin : bool) (first second : num) : bool :=
  if isnan first then
    if isnan second then coin else true
  else if isnan second then false
  else if maximize then num_ltb first second
  else num_ltb second first.

(** leap_ec/problem.py:122-139 ScalarProblem.equivalent. *)
Definition equivalent (first second : num) : bool :=
  if is_pyfloat first && is_pyfloat second
  then isclose first second
  else num_eqb first second.

(** leap_ec/individual.py:198-253 and the [functools.total_ordering] decorator (line 21): [__lt__]
    and [__eq__] come from the problem; the rest is derived from them as in CPython's functools:
    [a > b] is [not (a < b) and a != b], [a <= b] is [a < b or a == b], [a >= b] is [not (a < b)].
    Both individuals share the problem; comparisons with None (lines 206, 251) and unevaluated
    individuals (fitness None) are outside these functions.
    An evaluated individual is an identity and a fitness: selection looks at nothing else. *)
Record sind := mk_sind { si_id : nat; si_fit : num }.

Section IndCmp.
Variable maximize : bool.
(** outcome of the coin for the comparison [a < b] when both are NaN *)
Variable coin : sind -> sind -> bool.

(** leap_ec/individual.py:211-253 *)
Definition ind_lt (a b : sind) : bool := worse_than maximize (coin a b) (si_fit a) (si_fit b).
(** leap_ec/individual.py:198-209 *)
Definition ind_eq (a b : sind) : bool := equivalent (si_fit a) (si_fit b).
(** functools.total_ordering, leap_ec/individual.py:191-253 *)
Definition ind_gt (a b : sind) : bool := negb (ind_lt a b) && negb (ind_eq a b).
(** functools.total_ordering, leap_ec/individual.py:191-253 *)
Definition ind_le (a b : sind) : bool := ind_lt a b || ind_eq a b.
(** functools.total_ordering, leap_ec/individual.py:191-253 *)
Definition ind_ge (a b : sind) : bool := negb (ind_lt a b).

(** leap_ec/probe.py:1308-1320 best_of_gen: asserts a non-empty population, then [max]. *)
Definition best_of_gen (pop : list sind) : result sind :=
  match pymax ind_gt pop with
  | None => Err AssertionError
  | Some x => Ok x
  end.
End IndCmp.
