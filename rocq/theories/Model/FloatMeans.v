(** np.sum and np.mean in binary64, for lists of any length.  numpy adds the numbers up in an order that depends on their
    number, the memory layout and the processor (blocks of 128, eight running sums each, halves added pairwise); the
    theorems hold for every way of bracketing and ordering the additions. *)
From Verif Require Import Model.Base Model.Floats.
From Coq Require Import QArith.
Local Open Scope Q_scope.

(** a way to add up: the number at a position, or the sum of two such sums *)
(** np.mean, called at leap_ec/problem.py:345, 358; np.sum, called at leap_ec/ops.py:668, 744 *)
Inductive adding := Item (i : nat) | Plus (a b : adding).

(** np.mean, called at leap_ec/problem.py:345, 358 *)
Fixpoint sum_in (o : adding) (l : list Q) : Q :=
  match o with
  | Item i => nth i l 0
  | Plus a b => fadd (sum_in a l) (sum_in b l)
  end.

(** leap_ec/problem.py:342-345, 353-359: np.mean *)
Definition mean_in (o : adding) (l : list Q) : Q := fdiv (sum_in o l) (of_int (Z.of_nat (length l))).

(** leap_ec/problem.py:342-345 AverageFitnessProblem.evaluate; [ev k]: the k-th evaluation of the wrapped problem *)
Definition average_f (o : adding) (ev : nat -> Q) (n : nat) : Q := mean_in o (map ev (seq 0 n)).
