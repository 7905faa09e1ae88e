(** Incremental non-dominated layers of leap_ec/multiobjective/asynchronous.py.  All individuals share
    one multi-objective problem with directions [mx]. *)
From Verif Require Import Model.Base Model.PyList Model.Pareto Model.Crowding.

(** leap_ec/multiobjective/asynchronous.py:11-25 _find_start_layer: binary search.  [lo] and [hi] as in the code ([hi] may
    become -1); None: not finished within [fuel] rounds. *)
Fixpoint find_start_loop (mx : list bool) (fuel : nat) (ind : mo) (layers : list (list mo)) (lo hi : Z) : option Z :=
  match fuel with
  | 0 => None
  | S fuel' =>
      if (lo <=? hi)%Z then
        let mid := ((lo + hi) / 2)%Z in
        if negb (existsb (fun i => mo_gt mx i ind) (nth (Z.to_nat mid) layers []))
        then find_start_loop mx fuel' ind layers lo (mid - 1)%Z
        else find_start_loop mx fuel' ind layers (mid + 1)%Z hi
      else Some lo
  end.
(** leap_ec/multiobjective/asynchronous.py:11-25, continued *)
Definition find_start_layer (mx : list bool) (ind : mo) (layers : list (list mo)) : option Z :=
  find_start_loop mx (S (length layers)) ind layers 0 (Z.of_nat (length layers) - 1).

(** np.max over two numbers: NaN propagates *)
(** leap_ec/multiobjective/asynchronous.py:33-36 *)
Definition np_max2 (a b : num) : num :=
  if isnan a then a else if isnan b then b else if num_ltb a b then b else a.
(** leap_ec/multiobjective/asynchronous.py:33-36 *)
Fixpoint row_max (a b : list num) : list num :=
  match a, b with x :: a', y :: b' => np_max2 x y :: row_max a' b' | _, _ => [] end.

(** leap_ec/multiobjective/asynchronous.py:33-36: zenith; np.max of no rows is an error, here the empty vector (never used: the caller
    checks that there are moving points) *)
Definition zenith (mx : list bool) (moving : list mo) : list num :=
  match map (fun x => signed mx (o_fit x)) moving with
  | [] => []
  | r :: rs => fold_left row_max rs r
  end.

(** leap_ec/multiobjective/asynchronous.py:27-47 _split_dominated: (nondominated, dominated) *)
Definition below_zenith (mx : list bool) (z : list num) (x : mo) : bool :=
  dominated_vec (signed mx (o_fit x)) z.
(** leap_ec/multiobjective/asynchronous.py:27-47, continued *)
Definition split_dominated (mx : list bool) (moving layer : list mo) : list mo * list mo :=
  let z := zenith mx moving in
  (filter (fun x => negb (below_zenith mx z x)) layer, filter (below_zenith mx z) layer).

(** leap_ec/multiobjective/asynchronous.py:49-56 _set_domination *)
Definition set_domination (mx : list bool) (pop_a pop_b : list mo) : list bool :=
  map (fun ri => existsb (fun li => mo_gt mx li ri) pop_a) pop_b.

(** leap_ec/multiobjective/asynchronous.py:82-124 *)
Definition set_rank (r : nat) (l : list mo) (rank : nat -> nat) : nat -> nat :=
  fold_left (fun rk x => set_at rk (o_id x) r) l rank.

(** leap_ec/multiobjective/asynchronous.py:96-98: [r] is the rank of the first layer of the list *)
Fixpoint set_ranks_from (r : nat) (layers : list (list mo)) (rank : nat -> nat) : nat -> nat :=
  match layers with
  | [] => rank
  | lp :: rest => set_ranks_from (S r) rest (set_rank r lp rank)
  end.

(** leap_ec/multiobjective/asynchronous.py:109-113: zip(dominated, true_dominated) *)
Definition chosen (b : bool) (dominated : list mo) (truth : list bool) : list mo :=
  map fst (filter (fun p : mo * bool => Bool.eqb (snd p) b) (combine dominated truth)).

(** leap_ec/multiobjective/asynchronous.py:82-124: the loop from [depth] on; [rest] is layer_pops[depth:].  Returns the new
    layer_pops[depth:], the ranks and the end depth. *)
Fixpoint enlu_loop (mx : list bool) (depth : nat) (moving : list mo) (rest : list (list mo)) (rank : nat -> nat)
  : list (list mo) * (nat -> nat) * nat :=
  match rest with
  | [] =>
      match moving with
      | [] => ([], rank, depth)
      | _ => ([moving], set_rank (S depth) moving rank, S depth)
      end
  | layer :: rest' =>
      match moving with
      | [] => (rest, rank, depth)
      | _ =>
          let '(nondominated, dominated) := split_dominated mx moving layer in
          let truth := set_domination mx moving dominated in
          match nondominated with
          | [] => (moving :: rest, set_ranks_from (S depth) (moving :: rest) rank, S depth)
          | _ =>
              let layer' := (nondominated ++ moving) ++ chosen false dominated truth in
              let '(rest'', rank', e) :=
                enlu_loop mx (S depth) (chosen true dominated truth) rest' (set_rank (S depth) layer' rank) in
              (layer' :: rest'', rank', e)
          end
      end
  end.

(** leap_ec/multiobjective/asynchronous.py:58-124 enlu_inds_rank: new layers, ranks, (start, end) *)
Definition enlu_inds_rank (mx : list bool) (ind : mo) (layers : list (list mo)) (rank : nat -> nat)
  : option (list (list mo) * (nat -> nat) * (nat * nat)) :=
  match find_start_layer mx ind layers with
  | None => None
  | Some s =>
      let s := Z.to_nat s in
      let '(rest, rank', e) := enlu_loop mx s [ind] (skipn s layers) rank in
      Some (firstn s layers ++ rest, rank', (s, e))
  end.

(** ** leap_ec/multiobjective/asynchronous.py:127-156 ENLUInserter.__call__ *)
Record inserter := mk_ins { ins_layers : list (list mo); ins_attrs : attrs }.

(** leap_ec/multiobjective/asynchronous.py:139-140; the returned lists are ignored *)
Definition crowd_layers (mx : list bool) (layers : list (list mo)) (d : nat -> val) : nat -> val :=
  fold_left (fun d lp => snd (per_rank_crowding_calc mx lp d)) layers d.

(** leap_ec/multiobjective/asynchronous.py:144: position of the first smallest distance *)
Definition min_index (d : nat -> val) (l : list mo) : nat :=
  match l with
  | [] => 0
  | x :: _ => fst (pymin_from (fun a b : nat * mo => vlt (d (o_id (snd a))) (d (o_id (snd b))))
                     (0, x) (combine (seq 1 (length l - 1)) (tl l)))
  end.

(** leap_ec/multiobjective/asynchronous.py:144-146 *)
Fixpoint remove_nth {A} (i : nat) (l : list A) : list A :=
  match l, i with
  | [], _ => []
  | _ :: r, 0 => r
  | x :: r, S i' => x :: remove_nth i' r
  end.

(** One call; returns the removed individual, if any, and the new state.  The new flat population is
    [concat (ins_layers st)]. *)
(** leap_ec/multiobjective/asynchronous.py:133-156 *)
Definition inserter_call (mx : list bool) (pop_size : nat) (ind : mo) (st : inserter)
  : option (option mo * inserter) :=
  match enlu_inds_rank mx ind (ins_layers st) (at_rank (ins_attrs st)) with
  | None => None
  | Some (layers, rank, (s, e)) =>
      let d := crowd_layers mx (firstn (e - s) (skipn s layers)) (at_dist (ins_attrs st)) in
      if pop_size <? length (concat layers) then
        let lastl := last layers [] in
        let rem := min_index d lastl in
        match remove_nth rem lastl with
        | [] => Some (nth_error lastl rem, mk_ins (removelast layers) (mk_attrs rank d))
        | l' => Some (nth_error lastl rem,
                      mk_ins (removelast layers ++ [l']) (mk_attrs rank (snd (per_rank_crowding_calc mx l' d))))
        end
      else Some (None, mk_ins layers (mk_attrs rank d))
  end.

(** a history of insertions into an inserter created by __init__ *)
(** histories of leap_ec/multiobjective/asynchronous.py:127-156 *)
Fixpoint insert_all (mx : list bool) (pop_size : nat) (inds : list mo) (st : inserter) : option (list (option mo) * inserter) :=
  match inds with
  | [] => Some ([], st)
  | x :: r =>
      match inserter_call mx pop_size x st with
      | None => None
      | Some (dropped, st') =>
          match insert_all mx pop_size r st' with
          | None => None
          | Some (ds, st'') => Some (dropped :: ds, st'')
          end
      end
  end.

(** the same for enlu_inds_rank alone (no capacity) *)
(** histories of leap_ec/multiobjective/asynchronous.py:58-124 *)
Fixpoint enlu_all (mx : list bool) (inds : list mo) (layers : list (list mo)) (rank : nat -> nat)
  : option (list (list mo) * (nat -> nat)) :=
  match inds with
  | [] => Some (layers, rank)
  | x :: r =>
      match enlu_inds_rank mx x layers rank with
      | None => None
      | Some (layers', rank', _) => enlu_all mx r layers' rank'
      end
  end.
