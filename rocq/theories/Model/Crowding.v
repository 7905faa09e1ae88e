(** Crowding distance and the NSGA-II generation. *)
From Verif Require Import Model.Base Model.PyList Model.Selection Model.Pareto.

(** Float arithmetic on values; None is NaN.  Exact on finite values.  Division follows numpy (no
    exception on a zero divisor). *)
(** the values computed at leap_ec/multiobjective/ops.py:185-240 *)
Definition val := option ext.

(** the arithmetic of leap_ec/multiobjective/ops.py:185-240 *)
Definition ext_opp (a : ext) : ext :=
  match a with MInf => PInf | PInf => MInf | Fin q => Fin (- q)%Q end.
(** the arithmetic of leap_ec/multiobjective/ops.py:185-240 *)
Definition vneg (a : val) : val := option_map ext_opp a.
(** leap_ec/multiobjective/ops.py:235-240 *)
Definition vadd (a b : val) : val :=
  match a, b with
  | Some (Fin x), Some (Fin y) => Some (Fin (x + y)%Q)
  | Some PInf, Some MInf => None
  | Some MInf, Some PInf => None
  | Some PInf, Some _ => Some PInf
  | Some MInf, Some _ => Some MInf
  | Some (Fin _), Some y => Some y
  | _, _ => None
  end.
(** leap_ec/multiobjective/ops.py:210, 235-240 *)
Definition vsub (a b : val) : val := vadd a (vneg b).
(** leap_ec/multiobjective/ops.py:235-240 *)
Definition vdiv (a b : val) : val :=
  match a, b with
  | Some (Fin x), Some (Fin y) =>
      if Qeq_bool y 0 then (if Qeq_bool x 0 then None else Some (if Qltb 0 x then PInf else MInf))
      else Some (Fin (x / y)%Q)
  | Some (Fin _), Some _ => Some (Fin 0%Q)
  | Some x, Some (Fin y) => Some (if Qltb y 0 then ext_opp x else x)
  | _, _ => None
  end.
(** leap_ec/multiobjective/ops.py:185-227 *)
Definition vlt (a b : val) : bool := match a, b with Some x, Some y => ext_ltb x y | _, _ => false end.
(** the comparisons of leap_ec/multiobjective/ops.py:210-240 *)
Definition veq (a b : val) : bool := match a, b with Some x, Some y => ext_eqb x y | _, _ => false end.

(** Python's two-argument [min] and [max] *)
(** leap_ec/multiobjective/ops.py:185-208 *)
Definition min2 (a b : val) : val := if vlt b a then b else a.
(** leap_ec/multiobjective/ops.py:185-208 *)
Definition max2 (a b : val) : val := if vlt a b then b else a.

(** fitness[objective] *)
(** leap_ec/multiobjective/ops.py:185-240 *)
Definition fit_at (k : nat) (x : mo) : val := num_val (nth k (o_fit x) NNan).

(** ** leap_ec/multiobjective/ops.py:173-242 per_rank_crowding_calc
    [mk] is [is_maximizing[objective] != -1].  (np.NINF, used in lines 186 and 190, no longer exists
    in NumPy 2; an older NumPy is assumed.) *)

(** leap_ec/multiobjective/ops.py:185-208: f_min and f_max of one objective, and line 210 their difference *)
Definition objective_range (k : nat) (mk : bool) (pop : list mo) : val :=
  if mk then
    vsub (fold_left (fun a x => max2 a (fit_at k x)) pop (Some MInf))
         (fold_left (fun a x => min2 a (fit_at k x)) pop (Some PInf))
  else
    vsub (fold_left (fun a x => min2 a (fit_at k x)) pop (Some PInf))
         (fold_left (fun a x => max2 a (fit_at k x)) pop (Some MInf)).

(** leap_ec/multiobjective/ops.py:220-227.  The sort is modelled as a stable insertion sort, which agrees with Python's for
    keys without NaN. *)
Definition sort_objective (k : nat) (mk : bool) (pop : list mo) : list mo :=
  if mk then sort_asc (fun x y => vlt (fit_at k x) (fit_at k y)) pop
  else sort_asc (fun x y => vlt (vneg (fit_at k x)) (vneg (fit_at k y))) pop.

(** leap_ec/multiobjective/ops.py:235-240: [l] starts at position i, [prev] is at position i-1 *)
Fixpoint crowd_inner (k : nat) (range : val) (prev : mo) (l : list mo) (d : nat -> val) : nat -> val :=
  match l with
  | cur :: rest =>
      match rest with
      | next :: _ =>
          crowd_inner k range cur rest
            (set_at d (o_id cur) (vadd (d (o_id cur)) (vdiv (vsub (fit_at k next) (fit_at k prev)) range)))
      | [] => d
      end
  | [] => d
  end.

(** leap_ec/multiobjective/ops.py:230-240 *)
Definition crowd_walk (k : nat) (range : val) (sorted : list mo) (d : nat -> val) : nat -> val :=
  match sorted with
  | [] => d
  | first :: rest =>
      crowd_inner k range first rest
        (set_at (set_at d (o_id (last rest first)) (Some PInf)) (o_id first) (Some PInf))
  end.

(** leap_ec/multiobjective/ops.py:214-240: the loop over the objectives [k], [k+1], ... *)
Fixpoint crowd_objectives (k : nat) (mx : list bool) (pop : list mo) (sorted_pop : list mo)
    (d : nat -> val) : list mo * (nat -> val) :=
  match mx with
  | [] => (sorted_pop, d)
  | mk :: mx' =>
      let range := objective_range k mk pop in
      if veq range (Some (Fin 0%Q)) then crowd_objectives (S k) mx' pop sorted_pop d
      else
        let s := sort_objective k mk pop in
        crowd_objectives (S k) mx' pop s (crowd_walk k range s d)
  end.

(** [d]: the distance attributes of all objects *)
(** leap_ec/multiobjective/ops.py:173-242 *)
Definition per_rank_crowding_calc (mx : list bool) (ranked_population : list mo) (d : nat -> val)
  : list mo * (nat -> val) :=
  crowd_objectives 0 mx ranked_population []
    (fold_left (fun d x => set_at d (o_id x) (Some (Fin 0%Q))) ranked_population d).

(** toolz.groupby: the keys in order of first appearance *)
(** leap_ec/multiobjective/ops.py:244-282 *)
Fixpoint first_ranks (rank : nat -> nat) (pop : list mo) (seen : list nat) : list nat :=
  match pop with
  | [] => []
  | x :: r =>
      if existsb (Nat.eqb (rank (o_id x))) seen then first_ranks rank r seen
      else rank (o_id x) :: first_ranks rank r (rank (o_id x) :: seen)
  end.

(** leap_ec/multiobjective/ops.py:244-282 *)
Fixpoint crowd_ranks (mx : list bool) (rank : nat -> nat) (pop : list mo) (rs : list nat) (d : nat -> val)
  : list mo * (nat -> val) :=
  match rs with
  | [] => ([], d)
  | r :: rs' =>
      let '(out, d1) := per_rank_crowding_calc mx (filter (fun x => rank (o_id x) =? r) pop) d in
      let '(outs, d2) := crowd_ranks mx rank pop rs' d1 in
      (out ++ outs, d2)
  end.

(** leap_ec/multiobjective/ops.py:244-282 crowding_distance_calc *)
Definition crowding_distance_calc (mx : list bool) (rank : nat -> nat) (population : list mo) (d : nat -> val)
  : result (list mo * (nat -> val)) :=
  match population with
  | [] => Err IndexError
  | _ => Ok (crowd_ranks mx rank population (first_ranks rank population []) d)
  end.

(** ** leap_ec/multiobjective/nsga2.py:117-127: what follows the pipeline in one generation.
    Comparison of the keys (-x.rank, x.distance) as Python tuples. *)
Definition key_lt (rank : nat -> nat) (d : nat -> val) (a b : mo) : bool :=
  if rank (o_id a) =? rank (o_id b) then negb (veq (d (o_id a)) (d (o_id b))) && vlt (d (o_id a)) (d (o_id b))
  else rank (o_id b) <? rank (o_id a).
(** leap_ec/multiobjective/nsga2.py:117-127, continued *)
Definition key_eq (rank : nat -> nat) (d : nat -> val) (a b : mo) : bool :=
  (rank (o_id a) =? rank (o_id b)) && veq (d (o_id a)) (d (o_id b)).

(** leap_ec/multiobjective/nsga2.py:117-127, continued *)
Record attrs := mk_attrs { at_rank : nat -> nat; at_dist : nat -> val }.

(** [offspring]: the individuals leaving the user's pipeline; the default rank function *)
(** leap_ec/multiobjective/nsga2.py:117-127 *)
Definition nsga2_survival (mx : list bool) (parents offspring : list mo) (a : attrs)
  : result (list mo * attrs) :=
  bind (rank_ordinal_sort mx offspring (Some parents) (at_rank a)) (fun '(pool, rank) =>
  bind (crowding_distance_calc mx rank pool (at_dist a)) (fun '(crowded, d) =>
  Ok (truncation_selection (key_lt rank d) (fun x y => key_lt rank d y x) (key_eq rank d)
        crowded (length parents) None, mk_attrs rank d))).

(** leap_ec/multiobjective/nsga2.py:115-133: the loop; [pipeline g parents] is what the pipeline makes of the parents in
    generation g, [stop] may look at the generation and the parents *)
Fixpoint nsga2_loop (mx : list bool) (pipeline : nat -> list mo -> list mo) (stop : nat -> list mo -> bool)
    (left g : nat) (parents : list mo) (a : attrs) : result (list mo * attrs) :=
  match left with
  | 0 => Ok (parents, a)
  | S left' =>
      if stop g parents then Ok (parents, a)
      else bind (nsga2_survival mx parents (pipeline g parents) a) (fun '(next, a') =>
           nsga2_loop mx pipeline stop left' (S g) next a')
  end.
