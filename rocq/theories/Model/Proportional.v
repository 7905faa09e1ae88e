(** Fitness-proportional selection of leap_ec/ops.py.  Keys are finite numbers, arithmetic is exact
    (floating-point rounding is not modelled). *)
From Verif Require Import Model.Base.
From Coq Require Import Qpower.

(** the [offset] argument: a number or the string 'pop-min' *)
(** leap_ec/ops.py:1475-1495 *)
Inductive offset := OffPopMin | OffVal (q : Q).

(** values.sum(), leap_ec/ops.py:618-772 *)
Definition Qsum (l : list Q) : Q := fold_right Qplus 0%Q l.

(** ndarray.min: ValueError on an empty array *)
(** leap_ec/ops.py:1475-1495 *)
Definition np_min (l : list Q) : result Q :=
  match l with
  | [] => Err ValueError
  | x :: r => Ok (fold_left Qmin r x)
  end.

(** leap_ec/ops.py:1475-1495 compute_population_values; [keys] are the metric's values, [exponent] >= 0 *)
Definition compute_population_values (keys : list Q) (off : offset) (exponent : nat) : result (list Q) :=
  bind (match off with OffVal q => Ok q | OffPopMin => bind (np_min keys) (fun m => Ok (- m)%Q) end)
       (fun o => Ok (map (fun v => ((v + o) ^ Z.of_nat exponent)%Q) keys)).

(** (values < 0.0).any() *)
(** leap_ec/ops.py:1475-1495 *)
Definition any_negative (values : list Q) : bool := existsb (fun v => Qltb v 0) values.

(** itertools.accumulate *)
(** inside random.choices, called at leap_ec/ops.py:618-673 *)
Fixpoint accumulate (acc : Q) (l : list Q) : list Q :=
  match l with [] => [] | x :: r => (acc + x)%Q :: accumulate (acc + x)%Q r end.

(** bisect.bisect_right(a, x, lo, lo + len(l)) on ascending data: first position holding more than x *)
(** inside random.choices, called at leap_ec/ops.py:618-673 *)
Fixpoint bisect_right (l : list Q) (x : Q) (lo : nat) : nat :=
  match l with [] => lo | y :: r => if Qltb x y then lo else bisect_right r x (S lo) end.

(** random.choices(population, weights)[0], Python's Lib/random.py: [u] is random() in [0,1).
    Weights with total <= 0 raise ValueError. Returns the position. *)
Definition choices_index (weights : list Q) (u : Q) : result nat :=
  match weights with
  | [] => Err IndexError
  | _ =>
      let cum := accumulate 0 weights in
      let total := last cum 0%Q in
      if Qle_bool total 0 then Err ValueError
      else Ok (bisect_right (firstn (length weights - 1) cum) (u * total)%Q 0)
  end.

(** leap_ec/ops.py:618-673 proportional_selection: what the generator does on one pull (the checks run on the
    first pull).  0/0 proportions are NaN, for which random.choices raises ValueError (total not
    finite). *)
Definition proportional_turn {A} (population : list A) (keys : list Q) (off : offset) (exponent : nat)
    (u : Q) : result A :=
  bind (compute_population_values keys off exponent) (fun values =>
  if any_negative values then Err ValueError
  else
    let total := Qsum values in
    if Qeq_bool total 0 then
      match population with [] => Err IndexError | _ => Err ValueError end
    else
      bind (choices_index (map (fun v => (v / total)%Q) values) u) (fun i =>
      match nth_error population i with Some x => Ok x | None => Err IndexError end)).

(** ** leap_ec/ops.py:679-772 sus_selection *)
Record sus_state := mk_sus {
  sus_values : list Q;
  sus_n : nat;
  sus_points : list Q;
  sus_sel : nat;        (* selection_idx *)
  sus_pop : nat;        (* population_idx *)
  sus_sum : Q           (* running_sum *)
}.

(** leap_ec/ops.py:745-747: [random_start + i*even_spacing for i in range(0, n)] *)
Definition sus_mk_points (start spacing : Q) (n : nat) : list Q :=
  map (fun i => (start + inject_Z (Z.of_nat i) * spacing)%Q) (seq 0 n).

(** leap_ec/ops.py:745-747, continued *)
Definition sus_spacing (values : list Q) (n : nat) : Q := (Qsum values / inject_Z (Z.of_nat n))%Q.

(** leap_ec/ops.py:726-750, executed on the first pull.  [n]: the argument (None: len(population), which is the
    number of keys).  [start]: np.random.uniform(0, even_spacing) *)
Definition sus_init (keys : list Q) (n : option Z) (off : offset) (exponent : nat) (start : Q)
  : result sus_state :=
  let n := match n with None => Z.of_nat (length keys) | Some z => z end in
  if Z.leb n 0 then Err ValueError
  else
    bind (compute_population_values keys off exponent) (fun values =>
    if any_negative values then Err ValueError
    else
      let n := Z.to_nat n in
      Ok (mk_sus values n (sus_mk_points start (sus_spacing values n) n) 0 0 0)).

(** leap_ec/ops.py:765-767: the inner while loop; [rest] = values[population_idx:] *)
Fixpoint sus_advance (rest : list Q) (idx : nat) (sum point : Q) : result (nat * Q) :=
  if Qltb sum point then
    match rest with
    | [] => Err IndexError
    | v :: r => sus_advance r (S idx) (sum + v)%Q point
    end
  else Ok (idx, sum).

(** population[idx - 1], where index -1 is the last element *)
(** leap_ec/ops.py:751-772 *)
Definition py_prev {A} (l : list A) (idx : nat) : result A :=
  match nth_error l (match idx with 0 => length l - 1 | S i => i end) with
  | Some x => Ok x
  | None => Err IndexError
  end.

(** leap_ec/ops.py:751-772: one turn of the endless loop.  [start]: the value drawn if the points are
    resampled in this turn. *)
Definition sus_pull {A} (population : list A) (shuffle : bool) (start : Q) (s : sus_state)
  : result (A * sus_state) :=
  let s :=
    if sus_sel s =? length (sus_points s) then
      mk_sus (sus_values s) (sus_n s)
        (if shuffle then sus_mk_points start (sus_spacing (sus_values s) (sus_n s)) (sus_n s)
         else sus_points s) 0 0 0
    else s in
  match nth_error (sus_points s) (sus_sel s) with
  | None => Err IndexError
  | Some point =>
      bind (sus_advance (skipn (sus_pop s) (sus_values s)) (sus_pop s) (sus_sum s) point) (fun '(idx, sum) =>
      bind (py_prev population idx) (fun x =>
      Ok (x, mk_sus (sus_values s) (sus_n s) (sus_points s) (S (sus_sel s)) idx sum)))
  end.

(** a sequence of pulls, the k-th with its own draw *)
(** histories of leap_ec/ops.py:679-772 *)
Fixpoint sus_pulls {A} (population : list A) (shuffle : bool) (starts : list Q) (s : sus_state)
  : result (list A * sus_state) :=
  match starts with
  | [] => Ok ([], s)
  | d :: r =>
      bind (sus_pull population shuffle d s) (fun '(x, s') =>
      bind (sus_pulls population shuffle r s') (fun '(xs, s'') => Ok (x :: xs, s'')))
  end.
