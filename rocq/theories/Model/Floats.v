(** Binary64 arithmetic (IEEE 754, round to nearest, ties to even) in the places of LEAP where rounding decides what
    happens.  The other files compute with exact numbers; here every +, -, * and / of the code is followed by [rnd].
    A float is the rational number it stands for.  Subnormal numbers are modelled; overflow is not (exponents are
    unbounded above), and neither are infinities, NaN and the sign of zero. *)
From Verif Require Import Model.Base Model.Rules Model.Proportional.
From Coq Require Import QArith Qabs Qpower Qround.
Local Open Scope Q_scope.

(** 2 to the power of [e] *)
(** the arithmetic of every expression cited below, e.g. leap_ec/ops.py:1469 *)
Definition pow2 (e : Z) : Q := Qpower (2 # 1) e.

(** the largest e with 2^e <= |q|, for q other than 0 *)
(** the arithmetic of every expression cited below, e.g. leap_ec/ops.py:1469 *)
Definition expo (q : Q) : Z :=
  let e := (Z.log2 (Z.abs (Qnum q)) - Z.log2 (Z.pos (Qden q)))%Z in
  if Qle_bool (pow2 e) (Qabs q) then e else (e - 1)%Z.

(** the float nearest to [q]: a multiple of 2^(e-52), where 2^e <= |q| < 2^(e+1), but never finer than 2^-1074 *)
(** the arithmetic of every expression cited below, e.g. leap_ec/ops.py:1469 *)
Definition rnd (q : Q) : Q :=
  if Qeq_bool q 0 then 0
  else let f := Z.max (expo q - 52) (-1074) in
       Qred (inject_Z (round_even (q / pow2 f)) * pow2 f).

(** the four operations, on floats; e.g. leap_ec/ops.py:745-747.  Dividing by zero is not modelled: no caller below does. *)
Definition fadd (a b : Q) : Q := rnd (a + b).
(** leap_ec/binary_rep/decoders.py:165 *)
Definition fsub (a b : Q) : Q := rnd (a - b).
(** leap_ec/ops.py:745-747 *)
Definition fmul (a b : Q) : Q := rnd (a * b).
(** leap_ec/ops.py:745 *)
Definition fdiv (a b : Q) : Q := rnd (a / b).

(** an int where a float is expected; exact as long as it has at most 53 bits, rounded beyond *)
(** leap_ec/ops.py:745-747 *)
Definition of_int (z : Z) : Q := rnd (inject_Z z).

(** np.random.uniform(low, high): numpy computes low + (high - low)*u from u in [0,1) *)
(** leap_ec/ops.py:746, 756; leap_ec/real_rep/initializers.py:43 *)
Definition uniform (low high u : Q) : Q := fadd low (fmul (fsub high low) u).

(** ** leap_ec/ops.py:726-772 sus_selection once more, in floats *)
(** [total]: what np.sum returned for the values (numpy may add them in any order).  The points. *)
(** leap_ec/ops.py:744-747, 756-758 *)
Definition sus_points_f (total : Q) (n : nat) (u : Q) : list Q :=
  let spacing := fdiv total (of_int (Z.of_nat n)) in
  let start := uniform 0 spacing u in
  map (fun i => fadd start (fmul (of_int (Z.of_nat i)) spacing)) (seq 0 n).

(** leap_ec/ops.py:765-767: the inner while loop; [rest] = values[population_idx:] *)
Fixpoint sus_advance_f (rest : list Q) (idx : nat) (sum point : Q) : result (nat * Q) :=
  if Qltb sum point then
    match rest with
    | [] => Err IndexError
    | v :: r => sus_advance_f r (S idx) (fadd sum v) point
    end
  else Ok (idx, sum).

(** leap_ec/ops.py:751-772: the turns of the loop for the points still to come *)
Fixpoint sus_walk_f {A} (population : list A) (values : list Q) (idx : nat) (sum : Q) (points : list Q)
  : result (list A) :=
  match points with
  | [] => Ok []
  | p :: ps =>
      bind (sus_advance_f (skipn idx values) idx sum p) (fun '(idx, sum) =>
      bind (py_prev population idx) (fun x =>
      bind (sus_walk_f population values idx sum ps) (fun xs => Ok (x :: xs))))
  end.

(** leap_ec/ops.py:744-772: one pass over the [n] points, from the draw to the last individual *)
Definition sus_pass_f {A} (population : list A) (values : list Q) (total : Q) (n : nat) (u : Q) : result (list A) :=
  sus_walk_f population values 0 0 (sus_points_f total n u).

(** leap_ec/ops.py:668-673 proportional_selection: one random.choices call on the values and their np.sum [total], which
    is positive; [u] is random().  random.choices adds the weights up, and looks for u times the last sum among all sums
    but the last. *)
Fixpoint accumulate_f (acc : Q) (l : list Q) : list Q :=
  match l with [] => [] | x :: r => fadd acc x :: accumulate_f (fadd acc x) r end.
(** leap_ec/ops.py:668-673, continued *)
Definition choices_index_f (weights : list Q) (u : Q) : result nat :=
  match weights with
  | [] => Err IndexError
  | _ =>
      let cum := accumulate_f 0 weights in
      let total := last cum 0 in
      if Qle_bool total 0 then Err ValueError
      else Ok (bisect_right (firstn (length weights - 1) cum) (fmul u total) 0)
  end.
(** leap_ec/ops.py:668-673, continued *)
Definition proportional_turn_f {A} (population : list A) (values : list Q) (total u : Q) : result A :=
  bind (choices_index_f (map (fun v => fdiv v total) values) u) (fun i =>
  match nth_error population i with Some x => Ok x | None => Err IndexError end).

(** leap_ec/real_rep/initializers.py:38-43: np.random.uniform(low, high, size=len(bounds)); [us]: one draw per gene *)
Fixpoint create_real_f (bounds : list (Q * Q)) (us : list Q) : list Q :=
  match bounds, us with
  | (l, h) :: bounds, u :: us => uniform l h u :: create_real_f bounds us
  | _, _ => []
  end.

(** leap_ec/ops.py:1469: 1.0 / len(individual_genome) * expected_num_mutations *)
Definition expected_probability_f (expected : Q) (len : nat) : result Q :=
  if (len =? 0)%nat then Err ZeroDivisionError
  else Ok (fmul (fdiv 1 (of_int (Z.of_nat len))) expected).

(** leap_ec/binary_rep/decoders.py:164-165: the step of a segment of [bits] bits *)
Definition increment_f (bits : nat) (lower upper : Q) : Q :=
  fdiv (fsub upper lower) (of_int (2 ^ Z.of_nat bits - 1)).

(** leap_ec/binary_rep/decoders.py:167-171: the value of a segment whose bits read as the integer [code] *)
Definition decode_f (bits : nat) (lower upper : Q) (code : Z) : Q :=
  fadd lower (fmul (of_int code) (increment_f bits lower upper)).

(** leap_ec/real_rep/problems.py:1363-1366: a coordinate carried over from the new bounds to the old ones *)
Definition scaled_point_f (old_bounds new_bounds : Q * Q) (x : Q) : Q :=
  fadd (fst old_bounds)
    (fmul (fdiv (fsub x (fst new_bounds)) (fsub (snd new_bounds) (fst new_bounds)))
          (fsub (snd old_bounds) (fst old_bounds))).

(** np.mean of a list of fewer than eight floats: added up from the left, then divided (longer lists are added up in
    another order, which is not modelled) *)
(** leap_ec/problem.py:342-345, 353-359 *)
Definition mean_f (l : list Q) : Q := fdiv (fold_left fadd l 0) (of_int (Z.of_nat (length l))).
