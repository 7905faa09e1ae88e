(** Multi-objective comparison and non-dominated sorting. *)
From Verif Require Import Model.Base Model.PyList.

(** numpy: multiplication by -1 *)
(** leap_ec/multiobjective/problems.py:67-100 *)
Definition num_neg (n : num) : num :=
  match n with
  | NInt z => NInt (- z)
  | NFlt b MInf => NFlt b PInf
  | NFlt b PInf => NFlt b MInf
  | NFlt b (Fin q) => NFlt b (Fin (- q)%Q)
  | NNan => NNan
  end.

(** Python/numpy [a <= b] on numbers; False when one is NaN *)
(** leap_ec/multiobjective/problems.py:99-100 *)
Definition num_leb (a b : num) : bool := num_ltb a b || num_eqb a b.

(** leap_ec/multiobjective/problems.py:65 [np.where(maximize, 1, -1)]; lines 93-94
    [fitnesses * self.maximize].  Vectors are as long as [maximize] (numpy would otherwise raise or
    broadcast). *)
Definition signed (maximize : list bool) (f : list num) : list num :=
  map (fun p : bool * num => if fst p then snd p else num_neg (snd p)) (combine maximize f).

(** leap_ec/multiobjective/problems.py:99-100 on two signed vectors: all(second >= first) and any(second > first) *)
Definition dominated_vec (first second : list num) : bool :=
  forallb (fun p => num_leb (fst p) (snd p)) (combine first second)
  && existsb (fun p => num_ltb (fst p) (snd p)) (combine first second).

(** leap_ec/multiobjective/problems.py:67-100 MultiObjectiveProblem.worse_than *)
Definition mo_worse_than (maximize : list bool) (first second : list num) : bool :=
  dominated_vec (signed maximize first) (signed maximize second).

(** leap_ec/multiobjective/problems.py:100-115 equivalent *)
Definition mo_equivalent (maximize : list bool) (first second : list num) : bool :=
  negb (mo_worse_than maximize first second) && negb (mo_worse_than maximize second first).

(** An evaluated individual as an object: its identity and its fitness vector. *)
(** the individuals of leap_ec/multiobjective/ops.py:41-168 *)
Record mo := mk_mo { o_id : nat; o_fit : list num }.

(** leap_ec/individual.py:198-253 with functools.total_ordering: [a > b] is [not (a < b) and a != b].
    All individuals share the problem. *)
Definition mo_lt (mx : list bool) (a b : mo) : bool := mo_worse_than mx (o_fit a) (o_fit b).
(** leap_ec/individual.py:198-253, continued *)
Definition mo_eq (mx : list bool) (a b : mo) : bool := mo_equivalent mx (o_fit a) (o_fit b).
(** leap_ec/individual.py:198-253, continued *)
Definition mo_gt (mx : list bool) (a b : mo) : bool := negb (mo_lt mx a b) && negb (mo_eq mx a b).
(** leap_ec/individual.py:198-253, continued *)
Definition mo_le (mx : list bool) (a b : mo) : bool := mo_lt mx a b || mo_eq mx a b.
(** leap_ec/individual.py:198-253, continued *)
Definition mo_ge (mx : list bool) (a b : mo) : bool := negb (mo_lt mx a b).

(** ** leap_ec/multiobjective/ops.py:41-107 fast_nondominated_sort
    The attributes written on the individuals: [dominates] (objects), [dominated_by], [rank].  The
    attributes belong to the object, so a population holding the same object twice is representable.
    The isinstance assertion (line 60) is not modelled, except that population[0] must exist. *)
Record fns := mk_fns { f_dominates : nat -> list mo; f_count : nat -> Z; f_rank : nat -> nat }.

(** leap_ec/multiobjective/ops.py:41-107, continued *)
Definition set_at {B} (f : nat -> B) (k : nat) (v : B) : nat -> B := fun n => if n =? k then v else f n.

Section Fns.
(** [gt a b]: the Python expression [a > b] *)
Variable gt : mo -> mo -> bool.

(** leap_ec/multiobjective/ops.py:79-85: the inner loop for one individual: the list [dominates] and the counter *)
Fixpoint fns_inner (ind : mo) (others : list mo) (doms : list mo) (cnt : Z) : list mo * Z :=
  match others with
  | [] => (doms, cnt)
  | other :: rest =>
      if o_id ind =? o_id other then fns_inner ind rest doms cnt
      else if gt ind other then fns_inner ind rest (doms ++ [other]) cnt
      else if gt other ind then fns_inner ind rest doms (cnt + 1)%Z
      else fns_inner ind rest doms cnt
  end.

(** leap_ec/multiobjective/ops.py:71-89: first pass; [front] is ranks[1] *)
Fixpoint fns_first (working todo : list mo) (st : fns) (front : list mo) : fns * list mo :=
  match todo with
  | [] => (st, front)
  | ind :: rest =>
      let '(doms, cnt) := fns_inner ind working [] 0%Z in
      let first := (cnt =? 0)%Z in
      let st' := mk_fns (set_at (f_dominates st) (o_id ind) doms)
                        (set_at (f_count st) (o_id ind) cnt)
                        (set_at (f_rank st) (o_id ind) (if first then 1 else 0)) in
      fns_first working rest st' (if first then front ++ [ind] else front)
  end.

(** leap_ec/multiobjective/ops.py:96-100: decrement each listed individual; those reaching 0 get rank [i+1] and join
    [next] *)
Fixpoint fns_release (i : nat) (others : list mo) (st : fns) (next : list mo) : fns * list mo :=
  match others with
  | [] => (st, next)
  | other :: rest =>
      let c := (f_count st (o_id other) - 1)%Z in
      let st1 := mk_fns (f_dominates st) (set_at (f_count st) (o_id other) c) (f_rank st) in
      if (c =? 0)%Z
      then fns_release i rest
             (mk_fns (f_dominates st1) (f_count st1) (set_at (f_rank st1) (o_id other) (S i)))
             (next ++ [other])
      else fns_release i rest st1 next
  end.

(** leap_ec/multiobjective/ops.py:95-100: one front *)
Fixpoint fns_front (i : nat) (front : list mo) (st : fns) (next : list mo) : fns * list mo :=
  match front with
  | [] => (st, next)
  | ind :: rest =>
      let '(st', next') := fns_release i (f_dominates st (o_id ind)) st next in
      fns_front i rest st' next'
  end.

(** leap_ec/multiobjective/ops.py:92-103: [while ranks.get(i, []) != []] (the comparison of a list with [] only looks at the
    length); None: the loop did not end within [fuel] rounds *)
Fixpoint fns_loop (fuel i : nat) (front : list mo) (st : fns) : option fns :=
  match front with
  | [] => Some st
  | _ =>
      match fuel with
      | 0 => None
      | S fuel' =>
          let '(st', next) := fns_front i front st [] in
          fns_loop fuel' (S i) next st'
      end
  end.

(** attributes before the call are irrelevant: every individual's are reset in the first pass *)
(** leap_ec/multiobjective/ops.py:41-107 *)
Definition fast_nondominated_sort (fuel : nat) (population : list mo) (parents : option (list mo))
    (before : fns) : option (result (list mo * fns)) :=
  match population with
  | [] => Some (Err IndexError)
  | _ =>
      let working := match parents with Some ps => population ++ ps | None => population end in
      let '(st, front) := fns_first working working before [] in
      match fns_loop fuel 1 front st with
      | None => None
      | Some st' => Some (Ok (working, st'))
      end
  end.
End Fns.

(** ** leap_ec/multiobjective/ops.py:112-168 rank_ordinal_sort
    The numpy functions are written out for arrays without NaN: [np.unique(rows, axis=0)] sorts the
    rows lexicographically and removes duplicates; [np.argsort(kind="stable")]; fancy indexing.
    [np.uint] counters cannot overflow here and are naturals. *)
Fixpoint lex_ltb (a b : list num) : bool :=
  match a, b with
  | x :: a', y :: b' => num_ltb x y || (num_eqb x y && lex_ltb a' b')
  | _, _ => false
  end.
(** leap_ec/multiobjective/ops.py:112-168, continued *)
Definition row_eqb (a b : list num) : bool :=
  (length a =? length b) && forallb (fun p => num_eqb (fst p) (snd p)) (combine a b).

(** leap_ec/multiobjective/ops.py:112-168, continued *)
Fixpoint drop_dups (l : list (list num)) : list (list num) :=
  match l with
  | x :: r =>
      match r with
      | y :: _ => if row_eqb x y then drop_dups r else x :: drop_dups r
      | [] => [x]
      end
  | [] => []
  end.
(** unique_fitnesses, leap_ec/multiobjective/ops.py:132-135 *)
Definition unique_rows (rows : list (list num)) : list (list num) := drop_dups (sort_asc lex_ltb rows).
(** orig_inv_idx: the position of the row among the unique rows *)
(** leap_ec/multiobjective/ops.py:132-135 *)
Fixpoint index_of (r : list num) (l : list (list num)) : nat :=
  match l with [] => 0 | x :: l' => if row_eqb r x then 0 else S (index_of r l') end.

(** the rows of leap_ec/multiobjective/ops.py:132-145 *)
Definition entry (rows : list (list num)) (i k : nat) : num := nth k (nth i rows []) NNan.

(** leap_ec/multiobjective/ops.py:139: row k of the transposed argsort, reversed *)
Definition permutation_of (rows : list (list num)) (k : nat) : list nat :=
  rev (sort_asc (fun i j => num_ltb (entry rows i k) (entry rows j k)) (seq 0 (length rows))).

(** leap_ec/multiobjective/ops.py:142-145: unique_idx[inv_idx] is the position of the first occurrence of the value *)
Fixpoint first_occurrence (v : num) (l : list num) : nat :=
  match l with [] => 0 | x :: r => if num_eqb v x then 0 else S (first_occurrence v r) end.
(** leap_ec/multiobjective/ops.py:142-145, continued *)
Definition objective_rank (rows : list (list num)) (i k : nat) : nat :=
  first_occurrence (entry rows i k) (map (fun j => entry rows j k) (permutation_of rows k)).

(** objective_ranks[i] *)
(** leap_ec/multiobjective/ops.py:142-145 *)
Definition ranks_of (rows : list (list num)) (m i : nat) : list nat :=
  map (objective_rank rows i) (seq 0 m).

(** np.argmax: the first position of the largest value *)
(** leap_ec/multiobjective/ops.py:148-162 *)
Fixpoint argmax_from (best bestv pos : nat) (l : list nat) : nat :=
  match l with
  | [] => best
  | v :: r => if bestv <? v then argmax_from pos v (S pos) r else argmax_from best bestv (S pos) r
  end.
(** leap_ec/multiobjective/ops.py:148-162 *)
Definition argmax (l : list nat) : nat :=
  match l with [] => 0 | v :: r => argmax_from 0 v 1 r end.

(** leap_ec/multiobjective/ops.py:148-162: one turn *)
Definition ros_turn (rows : list (list num)) (m : nat) (ranks : nat -> nat) (i : nat) : nat -> nat :=
  let ri := ranks_of rows m i in
  let k := argmax ri in
  let dominable := skipn (objective_rank rows i k) (permutation_of rows k) in
  let updatable := filter (fun j => ranks i =? ranks j) dominable in
  let hit := filter (fun j => forallb (fun p => fst p <=? snd p) (combine ri (ranks_of rows m j))) updatable in
  fun j => if existsb (Nat.eqb j) hit then S (ranks j) else ranks j.

(** leap_ec/multiobjective/ops.py:148-162, continued *)
Definition ros_ranks (rows : list (list num)) (m : nat) : nat -> nat :=
  fold_left (ros_turn rows m) (permutation_of rows 0) (fun _ => 0).

(** Returns the population (the caller's list, extended in place by [population += parents], line
    129) and the new rank attributes.  An empty population fails in numpy. *)
(** leap_ec/multiobjective/ops.py:112-168 *)
Definition rank_ordinal_sort (mx : list bool) (population : list mo) (parents : option (list mo))
    (before : nat -> nat) : result (list mo * (nat -> nat)) :=
  let working := match parents with Some ps => population ++ ps | None => population end in
  match working with
  | [] => Err IndexError
  | _ =>
      let rows := unique_rows (map (fun x => signed mx (o_fit x)) working) in
      let ranks := ros_ranks rows (length mx) in
      Ok (working,
          fold_left (fun rk x => set_at rk (o_id x) (ranks (index_of (signed mx (o_fit x)) rows)))
            working before)
  end.
