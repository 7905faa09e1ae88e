(** The multi-objective benchmarks of leap_ec/multiobjective/problems.py.  Phenomes are numpy arrays of
    finite floats, taken as exact reals (integers for ZDT5).  Both objectives are minimised
    (leap_ec/multiobjective/problems.py:140, 180).  The second objective is [None] when numpy computes NaN
    or an infinity. *)
From Coq Require Import Reals.
From Verif Require Import Model.Base Model.RealFunctions.
Open Scope R_scope.

(** leap_ec/multiobjective/problems.py:142-150 SCHProblem.evaluate *)
Definition sch (x : R) : R * R := (x ^ 2, (x - 2) ^ 2).

(** numpy division, as at leap_ec/multiobjective/problems.py:236: a zero divisor gives NaN or infinity *)
Definition np_div (a b : R) : option R := if Req_EM_T b 0 then None else Some (a / b).
(** np.sqrt, as at leap_ec/multiobjective/problems.py:242: NaN for negative numbers *)
Definition np_sqrt (a : R) : option R := if Rlt_dec a 0 then None else Some (sqrt a).
(** NaN or infinite operands as at leap_ec/multiobjective/problems.py:242-244 are taken to give NaN or an
    infinity again (0 / inf = 0 is not modelled; it needs n = 1 with a longer phenome) *)
Definition obind (a : option R) (f : R -> option R) : option R :=
  match a with Some v => f v | None => None end.

(** leap_ec/multiobjective/problems.py:230-232: all elements between lo and hi *)
Definition all_between (lo hi : R) (x : list R) : bool :=
  forallb (fun v => (if Rle_dec lo v then true else false) && (if Rle_dec v hi then true else false)) x.
(** leap_ec/multiobjective/problems.py:221-223, 279-281, 337-339, 550-552 bounds *)
Definition unit_bounds (n : nat) : list (R * R) := repeat (0, 1) n.
(** leap_ec/multiobjective/problems.py:395-397 ZDT4 bounds *)
Definition zdt4_bounds (n : nat) : list (R * R) := (0, 1) :: repeat (-5, 5) (n - 1).

(** leap_ec/multiobjective/problems.py:234-236, 292-294, 350-352: g of ZDT1, ZDT2 and ZDT3 *)
Definition zdt_g (n : nat) (tail : list R) : option R :=
  obind (np_div (9 * r_sum tail) (INR n - 1)) (fun v => Some (1 + v)).
(** leap_ec/multiobjective/problems.py:410-412: g of ZDT4 *)
Definition zdt4_g (n : nat) (tail : list R) : R :=
  1 + 10 * (INR n - 1) + r_sum (map (fun v => v ^ 2 - 10 * cos (4 * PI * v)) tail).
(** leap_ec/multiobjective/problems.py:563-565: g of ZDT6; the power 0.25 of a negative number is NaN *)
Definition zdt6_g (n : nat) (tail : list R) : option R :=
  obind (np_div (r_sum tail) (INR n - 1)) (fun v => obind (np_sqrt v) (fun w => Some (1 + 9 * sqrt w))).

(** leap_ec/multiobjective/problems.py:225-246 ZDT1Problem.evaluate *)
Definition zdt1 (n : nat) (check : bool) (x : list R) : result (R * option R) :=
  if check && negb (all_between 0 1 x) then Err AssertionError
  else match x with
  | [] => Err IndexError
  | x0 :: tail => Ok (x0, obind (zdt_g n tail) (fun g =>
      obind (np_div x0 g) (fun q => obind (np_sqrt q) (fun r => Some (g * (1 - r))))))
  end.
(** leap_ec/multiobjective/problems.py:283-304 ZDT2Problem.evaluate *)
Definition zdt2 (n : nat) (check : bool) (x : list R) : result (R * option R) :=
  if check && negb (all_between 0 1 x) then Err AssertionError
  else match x with
  | [] => Err IndexError
  | x0 :: tail => Ok (x0, obind (zdt_g n tail) (fun g =>
      obind (np_div x0 g) (fun q => Some (g * (1 - q ^ 2)))))
  end.
(** leap_ec/multiobjective/problems.py:341-363 ZDT3Problem.evaluate *)
Definition zdt3 (n : nat) (check : bool) (x : list R) : result (R * option R) :=
  if check && negb (all_between 0 1 x) then Err AssertionError
  else match x with
  | [] => Err IndexError
  | x0 :: tail => Ok (x0, obind (zdt_g n tail) (fun g =>
      obind (np_div x0 g) (fun q => obind (np_sqrt q) (fun r =>
        Some (g * (1 - r - q * sin (10 * PI * x0)))))))
  end.
(** leap_ec/multiobjective/problems.py:399-422 ZDT4Problem.evaluate; the check reads phenome[0] *)
Definition zdt4 (n : nat) (check : bool) (x : list R) : result (R * option R) :=
  match x with
  | [] => Err IndexError
  | x0 :: tail =>
      if check && negb (all_between 0 1 [x0] && all_between (-5) 5 tail) then Err AssertionError
      else let g := zdt4_g n tail in
        Ok (x0, obind (np_div x0 g) (fun q => obind (np_sqrt q) (fun r => Some (g * (1 - r)))))
  end.
(** leap_ec/multiobjective/problems.py:554-575 ZDT6Problem.evaluate *)
Definition zdt6 (n : nat) (check : bool) (x : list R) : result (R * option R) :=
  if check && negb (all_between 0 1 x) then Err AssertionError
  else match x with
  | [] => Err IndexError
  | x0 :: tail =>
      let f1 := 1 - exp (-4 * x0) * sin (6 * PI * x0) ^ 6 in
      Ok (f1, obind (zdt6_g n tail) (fun g => obind (np_div f1 g) (fun q => Some (g * (1 - q ^ 2)))))
  end.

(** leap_ec/multiobjective/problems.py:464-466, 468-473: phenome_length of ZDT5 with n >= 1 *)
Definition zdt5_length (n : nat) : nat := 30 + (n - 1) * 5.
(** leap_ec/multiobjective/problems.py:492-497: phenome[i:i+5] for i in range(30, len, 5); [fuel] >= the
    number of pieces *)
Fixpoint fives (fuel : nat) (l : list Z) : list (list Z) :=
  match fuel, l with
  | _, [] | O, _ => []
  | S fuel', _ => firstn 5 l :: fives fuel' (skipn 5 l)
  end.
(** np.sum at leap_ec/multiobjective/problems.py:501-511 *)
Definition z_sum (l : list Z) : Z := fold_left Z.add l 0%Z.
(** leap_ec/multiobjective/problems.py:499-504 v *)
Definition zdt5_v (piece : list Z) : Z := (if z_sum piece <? 5 then 2 + z_sum piece else 1)%Z.
(** leap_ec/multiobjective/problems.py:479-518 ZDT5Problem.evaluate *)
Definition zdt5 (n : nat) (check : bool) (x : list Z) : result (Z * option Q) :=
  if check && negb (length x =? zdt5_length n)%nat then Err AssertionError
  else if check && negb (forallb (fun b => (b =? 0)%Z || (b =? 1)%Z) x) then Err AssertionError
  else
    let f1 := (1 + z_sum (firstn 30 x))%Z in
    let g := z_sum (map zdt5_v (fives (length x) (skipn 30 x))) in
    Ok (f1, if (f1 =? 0)%Z then None else Some (inject_Z g * (1 / inject_Z f1))%Q).
