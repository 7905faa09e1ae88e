(** Multi-objective optimisation with RobustIndividual: an evaluation that raises leaves the float nan as fitness
    (leap_ec/individual.py:293-299), where the multi-objective operators expect an array of numbers. *)
From Verif Require Import Model.Base Model.PyList Model.Selection Model.Pareto Model.Crowding.

Section Failures.
(** the individuals (by identity) whose fitness is the float nan; leap_ec/individual.py:297.  The vector of such a [mo] is not
    looked at. *)
Variable failed : nat -> bool.
Variable mx : list bool.

(** leap_ec/multiobjective/problems.py:93-94, leap_ec/multiobjective/ops.py:133: fitness * maximize; numpy makes an array of
    NaN from the float nan *)
Definition row_of (x : mo) : list num :=
  if failed (o_id x) then repeat NNan (length mx) else signed mx (o_fit x).

(** leap_ec/individual.py:211-253, leap_ec/multiobjective/problems.py:67-100: [a < b] *)
Definition robust_lt (a b : mo) : bool := dominated_vec (row_of a) (row_of b).
(** leap_ec/individual.py:198-209, leap_ec/multiobjective/problems.py:100-115: [a == b] *)
Definition robust_eq (a b : mo) : bool := negb (robust_lt a b) && negb (robust_lt b a).
(** functools.total_ordering, leap_ec/individual.py:16: [a > b] *)
Definition robust_gt (a b : mo) : bool := negb (robust_lt a b) && negb (robust_eq a b).

(** ** leap_ec/multiobjective/ops.py:112-168 rank_ordinal_sort on rows that may be all NaN (NumPy 1.21 or later) *)

(** the order in which NumPy sorts: NaN last; leap_ec/multiobjective/ops.py:132-139 *)
Definition np_ltb (a b : num) : bool := num_ltb a b || (isnan b && negb (isnan a)).
(** np.unique(..., axis=0) sorts rows as records, field by field; leap_ec/multiobjective/ops.py:132-135 *)
Fixpoint np_lex (a b : list num) : bool :=
  match a, b with
  | x :: a', y :: b' => if np_ltb x y then true else if np_ltb y x then false else np_lex a' b'
  | _, _ => false
  end.
(** unique_fitnesses: no two records with a NaN are equal; leap_ec/multiobjective/ops.py:132-135 *)
Definition np_unique_rows (rows : list (list num)) : list (list num) := drop_dups (sort_asc np_lex rows).
(** orig_inv_idx, leap_ec/multiobjective/ops.py:132-135: rows with a NaN come last, in their order ([next]: the place of the
    next one).  NumPy's sort of records is not stable, but exchanges at most rows that are all NaN. *)
Fixpoint np_inverse (unique : list (list num)) (next : nat) (rows : list (list num)) : list nat :=
  match rows with
  | [] => []
  | r :: rest => if row_eqb r r then index_of r unique :: np_inverse unique next rest
                 else next :: np_inverse unique (S next) rest
  end.
(** leap_ec/multiobjective/ops.py:139 *)
Definition np_permutation (rows : list (list num)) (k : nat) : list nat :=
  rev (sort_asc (fun i j => np_ltb (entry rows i k) (entry rows j k)) (seq 0 (length rows))).
(** leap_ec/multiobjective/ops.py:142-145: np.unique of one objective counts all NaN as one value *)
Fixpoint np_first (v : num) (l : list num) : nat :=
  match l with [] => 0 | x :: r => if num_eqb v x || (isnan v && isnan x) then 0 else S (np_first v r) end.
(** leap_ec/multiobjective/ops.py:142-145, continued *)
Definition np_objective_rank (rows : list (list num)) (i k : nat) : nat :=
  np_first (entry rows i k) (map (fun j => entry rows j k) (np_permutation rows k)).
(** objective_ranks[i], leap_ec/multiobjective/ops.py:142-145 *)
Definition np_ranks_of (rows : list (list num)) (i : nat) : list nat :=
  map (np_objective_rank rows i) (seq 0 (length mx)).
(** leap_ec/multiobjective/ops.py:148-162: one turn *)
Definition np_turn (rows : list (list num)) (ranks : nat -> nat) (i : nat) : nat -> nat :=
  let ri := np_ranks_of rows i in
  let k := argmax ri in
  let dominable := skipn (np_objective_rank rows i k) (np_permutation rows k) in
  let updatable := filter (fun j => ranks i =? ranks j) dominable in
  let hit := filter (fun j => forallb (fun p => fst p <=? snd p) (combine ri (np_ranks_of rows j))) updatable in
  fun j => if existsb (Nat.eqb j) hit then S (ranks j) else ranks j.
(** leap_ec/multiobjective/ops.py:147-162 *)
Definition np_ranks (rows : list (list num)) : nat -> nat :=
  fold_left (np_turn rows) (np_permutation rows 0) (fun _ => 0).
(** leap_ec/multiobjective/ops.py:112-168; an empty population fails in numpy *)
Definition robust_rank_ordinal_sort (population : list mo) (parents : option (list mo)) (before : nat -> nat)
  : result (list mo * (nat -> nat)) :=
  let working := match parents with Some ps => population ++ ps | None => population end in
  match working with
  | [] => Err IndexError
  | _ =>
      let all := map row_of working in
      let rows := np_unique_rows all in
      let inverse := np_inverse rows (length (filter (fun r => row_eqb r r) rows)) all in
      Ok (working,
          fold_left (fun rk p => set_at rk (o_id (fst p)) (np_ranks rows (snd p))) (combine working inverse) before)
  end.

(** ** leap_ec/multiobjective/ops.py:173-282 crowding distances *)

(** leap_ec/multiobjective/ops.py:194-208: fitness[objective] of a float is a TypeError; leap_ec/multiobjective/problems.py:59:
    there is at least one objective *)
Definition robust_per_rank (ranked_population : list mo) (d : nat -> val) : result (list mo * (nat -> val)) :=
  if existsb (fun x => failed (o_id x)) ranked_population then Err TypeError
  else Ok (per_rank_crowding_calc mx ranked_population d).
(** leap_ec/multiobjective/ops.py:271-280: the loop over the ranks *)
Fixpoint robust_ranks (rank : nat -> nat) (pop : list mo) (rs : list nat) (d : nat -> val) : result (list mo * (nat -> val)) :=
  match rs with
  | [] => Ok ([], d)
  | r :: rs' =>
      bind (robust_per_rank (filter (fun x => rank (o_id x) =? r) pop) d) (fun '(out, d1) =>
      bind (robust_ranks rank pop rs' d1) (fun '(outs, d2) => Ok (out ++ outs, d2)))
  end.
(** leap_ec/multiobjective/ops.py:244-282 crowding_distance_calc *)
Definition robust_crowding (rank : nat -> nat) (population : list mo) (d : nat -> val) : result (list mo * (nat -> val)) :=
  match population with
  | [] => Err IndexError
  | _ => robust_ranks rank population (first_ranks rank population []) d
  end.

(** ** leap_ec/multiobjective/nsga2.py:105-133 generalized_nsga_2 *)

(** its argument rank_func, given parents, offspring and the rank attributes so far; leap_ec/multiobjective/nsga2.py:23 *)
Variable rank_func : list mo -> list mo -> (nat -> nat) -> result (list mo * (nat -> nat)).

(** leap_ec/multiobjective/nsga2.py:117-127: what follows the pipeline in one generation *)
Definition robust_survival (parents offspring : list mo) (a : attrs) : result (list mo * attrs) :=
  bind (rank_func parents offspring (at_rank a)) (fun '(pool, rank) =>
  bind (robust_crowding rank pool (at_dist a)) (fun '(crowded, d) =>
  Ok (truncation_selection (key_lt rank d) (fun x y => key_lt rank d y x) (key_eq rank d)
        crowded (length parents) None, mk_attrs rank d))).

(** leap_ec/multiobjective/nsga2.py:115-133: the loop *)
Fixpoint robust_loop (pipeline : nat -> list mo -> list mo) (stop : nat -> list mo -> bool) (left g : nat) (parents : list mo)
    (a : attrs) : result (list mo * attrs) :=
  match left with
  | 0 => Ok (parents, a)
  | S left' =>
      if stop g parents then Ok (parents, a)
      else bind (robust_survival parents (pipeline g parents) a) (fun '(next, a') =>
           robust_loop pipeline stop left' (S g) next a')
  end.
End Failures.

(** the two choices documented for rank_func, leap_ec/multiobjective/nsga2.py:23, 43-46 *)
Definition by_rank_ordinal (failed : nat -> bool) (mx : list bool) (parents offspring : list mo) (before : nat -> nat)
  : result (list mo * (nat -> nat)) := robust_rank_ordinal_sort failed mx offspring (Some parents) before.
(** leap_ec/multiobjective/nsga2.py:43-46; enough fuel for the sort to end *)
Definition by_fast_sort (failed : nat -> bool) (mx : list bool) (parents offspring : list mo) (before : nat -> nat)
  : result (list mo * (nat -> nat)) :=
  match fast_nondominated_sort (robust_gt failed mx) (S (length (offspring ++ parents))) offspring (Some parents)
          (mk_fns (fun _ => []) (fun _ => 0%Z) before) with
  | Some (Ok (pool, st)) => Ok (pool, f_rank st)
  | Some (Err e) => Err e
  | None => Err RuntimeError
  end.
