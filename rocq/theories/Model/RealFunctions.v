(** The transcendental benchmarks of leap_ec/real_rep/problems.py and random_orthonormal_matrix, over
    Coq's real numbers: floats are taken as exact reals.  Phenomes are numpy arrays (these classes raise
    ValueError on anything else, which is not repeated here). *)
From Coq Require Import Reals.
From Verif Require Import Model.Base.
Open Scope R_scope.

(** np.sum, np.prod, np.dot, elementwise operations *)
(** used by leap_ec/real_rep/problems.py:123-139, 509-522, 567-581, 628-651, 726-745, 887-900 *)
Definition r_sum (l : list R) : R := fold_left Rplus l 0.
(** used by leap_ec/real_rep/problems.py:509-522 *)
Definition r_prod (l : list R) : R := fold_left Rmult l 1.
(** used by leap_ec/real_rep/problems.py:509-522, 1012-1027 *)
Definition r_map2 (f : R -> R -> R) (a b : list R) : list R := map (fun p => f (fst p) (snd p)) (combine a b).
(** used by leap_ec/real_rep/problems.py:1383-1422 *)
Definition r_dot (a b : list R) : R := r_sum (r_map2 Rmult a b).

(** leap_ec/real_rep/problems.py:123-139 RastriginProblem.evaluate (the array and the list branch are the same formula) *)
Definition rastrigin (a : R) (x : list R) : R :=
  a * INR (length x) + r_sum (map (fun v => v ^ 2 - a * cos (2 * PI * v)) x).

(** leap_ec/real_rep/problems.py:509-522 GriewankProblem.evaluate *)
Definition griewank (x : list R) : R :=
  let t1 := r_sum (map (fun v => v ^ 2 / 4000) x) in
  let i_vector := map (fun i => sqrt (INR i)) (seq 1 (length x)) in
  let t2 := r_prod (map cos (r_map2 Rdiv x i_vector)) in
  t1 - t2 + 1.

(** leap_ec/real_rep/problems.py:567-581 AckleyProblem.evaluate; 1.0 / 0 raises ZeroDivisionError *)
Definition ackley (a b c : R) (x : list R) : result R :=
  match x with
  | [] => Err ZeroDivisionError
  | _ =>
      let d := INR (length x) in
      let t1 := - a * exp (- b * sqrt (1 / d * r_sum (map (fun v => v ^ 2) x))) in
      let t2 := exp (1 / d * r_sum (map (fun v => cos (c * v)) x)) in
      Ok (t1 - t2 + a + exp 1)
  end.

(** leap_ec/real_rep/problems.py:628-651 WeierstrassProblem.evaluate; the loops add up from 0 *)
Definition weierstrass (kmax : nat) (a b : R) (x : list R) : R :=
  let t1 v := r_sum (map (fun k => a ^ k * cos (2 * PI * b ^ k * (v + 0.5))) (seq 0 kmax)) in
  let t2 := r_sum (map (fun k => a ^ k * cos (PI * b ^ k)) (seq 0 kmax)) in
  r_sum (map t1 x) - INR (length x) * t2.

(** leap_ec/real_rep/problems.py:709-724, 726-745 LangermannProblem; [a]: the m rows of the matrix.  Asking for more
    entries of c than there are raises IndexError. *)
Definition langermann (m : nat) (c : list R) (a : list (list R)) (x : list R) : result R :=
  if (length a =? m)%nat && forallb (fun row => (length row =? length (nth 0 a []))%nat) a then
    if (length x =? length (nth 0 a []))%nat then
      if (m <=? length c)%nat then
        Ok (fold_left (fun res p => let '(ci, row) := p in
              let q := r_sum (map (fun d => d ^ 2) (r_map2 Rminus x row)) in
              res - ci * exp (-1 / PI * q) * cos (PI * q)) (combine c a) 0)
      else Err IndexError
    else Err ValueError
  else Err ValueError.

(** leap_ec/real_rep/problems.py:812-821 LunacekProblem.__init__ with the default s and mu_2.  Square roots of negative
    numbers are NaN in numpy; Coq's sqrt gives 0, so the theorems exclude them. *)
Definition lunacek_s (N : nat) : R := 1 - 1 / (2 * sqrt (INR N + 20) - 8.2).
(** leap_ec/real_rep/problems.py:812-821, continued *)
Definition lunacek_mu2 (N : nat) (mu1 d : R) : R := - sqrt ((mu1 ^ 2 - d) / lunacek_s N).
(** leap_ec/real_rep/problems.py:823-841 evaluate *)
Definition lunacek (d mu1 mu2 s : R) (x : list R) : R :=
  let sphere1 := r_sum (map (fun v => (v - mu1) ^ 2) x) in
  let sphere2 := d * INR (length x) + s * r_sum (map (fun v => (v - mu2) ^ 2) x) in
  let sinusoid := 10 * r_sum (map (fun v => 1 - cos (2 * PI * (v - mu1))) x) in
  Rmin sphere1 sphere2 + sinusoid.

(** leap_ec/real_rep/problems.py:887-900 SchwefelProblem.evaluate *)
Definition schwefel (alpha : R) (x : list R) : R :=
  r_sum (map (fun v => - v * sin (sqrt (Rabs v))) x) + alpha * INR (length x).

(** leap_ec/real_rep/problems.py:934-938, 940-947 GaussianProblem: __init__ stores 1 for both [width] and [height] whatever the
    arguments (lines 937-938); a width that is not positive is an AssertionError *)
Definition gaussian (width height : R) (x : list R) : result R :=
  if Rlt_dec 0 width then
    let self_width := 1 in
    let self_height := 1 in
    Ok (self_height * exp (- r_sum (map (fun v => (v / self_width) ^ 2) x)))
  else Err AssertionError.

(** leap_ec/real_rep/problems.py:1003-1010, 1012-1027 CosineFamilyProblem; arrays of different lengths cannot be multiplied (numpy's
    broadcasting of length-1 arrays is not modelled).  [gs], [ls]: global and local optima counts. *)
Definition cosine_family (alpha : R) (gs ls : list R) (x : list R) : result R :=
  if (length ls =? length gs)%nat then
    if (length x =? length gs)%nat then
      let term1 := map (fun p => - cos ((fst p - 1) * 2 * PI * snd p)) (combine gs x) in
      let term2 := map (fun p => - alpha * cos ((fst (fst p) - 1) * 2 * PI * snd (fst p) * snd p)) (combine (combine gs ls) x) in
      Ok (r_sum (r_map2 Rplus term1 term2) / (2 * INR (length gs)))
    else Err ValueError
  else Err AssertionError.

(** ** leap_ec/real_rep/problems.py:1383-1422 random_orthonormal_matrix *)
Definition v_sub (a b : list R) : list R := r_map2 Rminus a b.
(** leap_ec/real_rep/problems.py:1383-1422, continued *)
Definition v_add (a b : list R) : list R := r_map2 Rplus a b.
(** leap_ec/real_rep/problems.py:1383-1422, continued *)
Definition v_scale (c : R) (a : list R) : list R := map (fun v => c * v) a.
(** leap_ec/real_rep/problems.py:1383-1422, continued *)
Definition v_norm (a : list R) : R := sqrt (r_dot a a).

(** leap_ec/real_rep/problems.py:1400-1401: row - sum([np.dot(row, prev) * prev for prev in previous_rows]); sum() starts from
    the integer 0, so with no previous rows nothing is subtracted *)
Definition residual (previous : list (list R)) (row : list R) : list R :=
  v_sub row (fold_left v_add (map (fun prev => v_scale (r_dot row prev) prev) previous) (repeat 0 (length row))).

(** leap_ec/real_rep/problems.py:1398-1402: the loop over the rows; [None]: a residual is zero, so that row of the matrix
    becomes NaN *)
Fixpoint gram_schmidt (previous rows : list (list R)) : option (list (list R)) :=
  match rows with
  | [] => Some previous
  | row :: rest =>
      let r := residual previous row in
      if Req_EM_T (v_norm r) 0 then None
      else gram_schmidt (previous ++ [map (fun v => v / v_norm r) r]) rest
  end.

(** round(v, 5) == t for t = 0 or 1: within half a unit of the fifth decimal (ties go to the even digit) *)
(** leap_ec/real_rep/problems.py:1383-1422 *)
Definition rounds_to (t v : R) : bool := if Rle_dec (Rabs (v - t)) (5 / 1000000) then true else false.
(** np.allclose(m.dot(m.T), np.identity(len(m))) with the default tolerances *)
(** leap_ec/real_rep/problems.py:1418 *)
Definition close (a b : R) : bool := if Rle_dec (Rabs (a - b)) (1 / 100000000 + 1 / 100000 * Rabs b) then true else false.
(** leap_ec/real_rep/problems.py:1418 *)
Definition close_to_orthonormal (m : list (list R)) : bool :=
  forallb (fun i => forallb (fun j =>
    close (r_dot (nth i m []) (nth j m [])) (if (i =? j)%nat then 1 else 0)) (seq 0 (length m))) (seq 0 (length m)).

(** [draws]: the rows drawn from the normal distribution.  A NaN fails the assertions. *)
(** leap_ec/real_rep/problems.py:1383-1422 *)
Definition random_orthonormal_matrix (draws : list (list R)) : result (list (list R)) :=
  match draws with
  | [] => Err IndexError                                    (* matrix[0] *)
  | _ =>
      match gram_schmidt [] draws with
      | None => Err AssertionError
      | Some m =>
          if rounds_to 1 (v_norm (nth 0 m [])) then
            match nth_error m 1 with
            | None => Err IndexError                        (* matrix[1] *)
            | Some row1 =>
                if rounds_to 0 (r_dot (nth 0 m []) row1) then
                  if close_to_orthonormal m then Ok m else Err AssertionError
                else Err AssertionError
            end
          else Err AssertionError
      end
  end.

(** leap_ec/int_rep/ops.py:297-307 _binomial_p_from_std; n = 0 divides by zero (numpy scalars, which would
    give nan or infinity instead, are not modelled) *)
Definition binomial_p_from_std (n : Z) (std : R) : result R :=
  if (n =? 0)%Z then Err ZeroDivisionError
  else if Rlt_dec 1 (4 * std ^ 2 / IZR n) then Err ValueError
  else Ok ((1 - sqrt (1 - 4 * std ^ 2 / IZR n)) / 2).
