(** Selection operators of leap_ec/ops.py.
    The type-checking decorators (leap_ec/ops.py:77-230) are not modelled except where noted: arguments are
    assumed to have the right Python type.  Each operator is written over an arbitrary element type
    with the comparison results [lt], [gt], [eq] that Python obtains for [<], [>], [==], either of
    the individuals themselves or, when a [key] is given, of their keys. *)
From Verif Require Import Model.Base Model.PyList.

Section Ops.
Context {A : Type}.
Variable lt gt eq : A -> A -> bool.

(** leap_ec/ops.py:778-823 truncation_selection.  With parents the input of topk is
    [itertools.chain], which has no length. *)
Definition truncation_selection (offspring : list A) (size : nat) (parents : option (list A))
  : list A :=
  match parents with
  | Some ps => topk lt gt eq false size (offspring ++ ps)
  | None => topk lt gt eq true size offspring
  end.

(** leap_ec/ops.py:829-900 elitist_survival.  Returns the survivors and the caller's [offspring]
    list, which the code extends in place with the elites (line 892). *)
Definition elitist_survival (offspring parents : list A) (k : nat) : list A * list A :=
  let original_num_offspring := length offspring in
  let elites := topk lt gt eq true k parents in
  let offspring' := offspring ++ elites in
  (topk lt gt eq true original_num_offspring offspring', offspring').

(** leap_ec/ops.py:906-953 tournament_selection, one turn of the loop.  [choices] is what
    [random.choices(range(len(population)), k=k)] drew; drawing from an empty range raises
    IndexError.  [max]/[min] of no choices (k = 0) raises ValueError.  [indices] is the caller's
    list, or None.  Returns the yielded individual and the new contents of [indices]. *)
Definition judge (select_worst : bool) (population : list A) (default : A) : nat -> nat -> bool :=
  if select_worst then fun i j => lt (nth i population default) (nth j population default)
  else fun i j => gt (nth i population default) (nth j population default).

(** leap_ec/ops.py:906-953, continued *)
Definition tournament_turn (population : list A) (select_worst : bool) (choices : list nat)
    (indices : option (list nat)) : result (A * option (list nat)) :=
  match population with
  | [] => Err IndexError
  | d :: _ =>
      match choices with
      | [] => Err ValueError
      | c :: cs =>
          let best_idx :=
            if select_worst then pymin_from (judge true population d) c cs
            else pymax_from (judge false population d) c cs in
          match nth_error population best_idx with
          | Some x => Ok (x, option_map (fun _ => [best_idx]) indices)
          | None => Err IndexError
          end
      end
  end.

(** replace position i of a list *)
(** used for the history of leap_ec/ops.py:1032-1062 *)
Fixpoint set_nth (i : nat) (x : A) (l : list A) : list A :=
  match l, i with
  | [], _ => []
  | _ :: r, 0 => x :: r
  | y :: r, S i' => y :: set_nth i' x r
  end.

(** leap_ec/ops.py:959-993 insertion_selection.  The [return] at line 993 is inside the loop, so
    only the first child is considered; with no children the loop body never runs, the function
    returns None and the decorator [listlist_op] (leap_ec/ops.py:137-141) raises ValueError.
    [draws] are the results of [random.randrange(len(copied_parents))], which raises ValueError on
    no parents.  [max(child, parent)] keeps the child unless parent > child. *)
Definition insertion_selection (offspring parents : list A) (draws : list nat) : result (list A) :=
  match offspring with
  | [] => Err ValueError
  | child :: _ =>
      match parents with
      | [] => Err ValueError
      | d0 :: _ =>
          let i := hd 0 draws in
          let parent := nth i parents d0 in
          Ok (set_nth i (if gt parent child then parent else child) parents)
      end
  end.
End Ops.

(** leap_ec/ops.py:999-1026 naive_cyclic_selection: itertools.cycle over enumerate(population).
    Generator state: the position of the next element.  [None]: the generator ends (empty
    population).  Yields the individual and the contents of [indices]. *)
Definition naive_cyclic_pull {A} (population : list A) (indices : option (list nat)) (pos : nat)
  : option (A * option (list nat) * nat) :=
  match nth_error population pos with
  | Some x =>
      let next := if S pos <? length population then S pos else 0 in
      Some (x, option_map (fun _ => [pos]) indices, next)
  | None => None
  end.

(** leap_ec/ops.py:999-1026, continued *)
Fixpoint naive_cyclic_draws {A} (population : list A) (indices : option (list nat)) (n pos : nat)
  : list (A * option (list nat)) :=
  match n with
  | 0 => []
  | S n' =>
      match naive_cyclic_pull population indices pos with
      | None => []
      | Some (x, ix, pos') => (x, ix) :: naive_cyclic_draws population indices n' pos'
      end
  end.

(** leap_ec/ops.py:1032-1062 cyclic_selection.  State: individuals left in the current tour, and
    the saved tour.  During the first tour ([first = true]) each yielded individual is appended to
    [saved]; when a tour is exhausted [saved] is shuffled.  [shuffle c] is what the c-th
    [random.shuffle] does to the list. *)
Record cyc_state (A : Type) := mk_cyc { cy_first : bool; cy_todo : list A; cy_saved : list A; cy_round : nat }.
Arguments mk_cyc {A}. Arguments cy_first {A}. Arguments cy_todo {A}.
Arguments cy_saved {A}. Arguments cy_round {A}.

(** leap_ec/ops.py:1032-1062, continued *)
Definition cyclic_init {A} (population : list A) : cyc_state A := mk_cyc true population [] 0.

(** leap_ec/ops.py:1032-1062, continued *)
Definition cyclic_pull {A} (shuffle : nat -> list A -> list A) (st : cyc_state A)
  : option (A * cyc_state A) :=
  match cy_todo st with
  | x :: r =>
      Some (x, mk_cyc (cy_first st) r
                 (if cy_first st then cy_saved st ++ [x] else cy_saved st) (cy_round st))
  | [] =>
      (* tour finished: "while saved: random.shuffle(saved); for individual in saved: yield" *)
      match cy_saved st with
      | [] => None
      | _ =>
          let s := shuffle (cy_round st) (cy_saved st) in
          match s with
          | [] => None
          | x :: r => Some (x, mk_cyc false r s (S (cy_round st)))
          end
      end
  end.

(** leap_ec/ops.py:1032-1062 *)
Fixpoint cyclic_draws {A} (shuffle : nat -> list A -> list A) (n : nat) (st : cyc_state A) : list A :=
  match n with
  | 0 => []
  | S n' =>
      match cyclic_pull shuffle st with
      | None => []
      | Some (x, st') => x :: cyclic_draws shuffle n' st'
      end
  end.

(** leap_ec/ops.py:1068-1083 random_selection, one turn; [i] is the drawn index. *)
Definition random_turn {A} (population : list A) (i : nat) (indices : option (list nat))
  : result (A * option (list nat)) :=
  match nth_error population i with
  | Some x => Ok (x, option_map (fun _ => [i]) indices)
  | None => Err IndexError
  end.
