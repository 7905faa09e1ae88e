(** The algebraic real-valued benchmarks of leap_ec/real_rep/problems.py and the problems that
    transform the search space.  Floats are exact rationals; nothing rounds or overflows.  A phenome is
    a numpy array unless a definition says "list". *)
From Coq Require Import Qround.
From Verif Require Import Model.Base.

(** np.sum, sum() *)
(** used by leap_ec/real_rep/problems.py:62, 209, 285, 354, 448 *)
Definition np_sum (l : list Q) : Q := fold_left Qplus l 0%Q.
(** elementwise operation on two arrays of equal length *)
(** used by leap_ec/real_rep/problems.py:195-209, 1306-1329 *)
Definition map2 (f : Q -> Q -> Q) (a b : list Q) : list Q := map (fun p => f (fst p) (snd p)) (combine a b).
(** np.dot of two vectors of equal length *)
(** used by leap_ec/real_rep/problems.py:1557-1561 *)
Definition dot (a b : list Q) : Q := np_sum (map2 Qmult a b).

(** leap_ec/real_rep/problems.py:50-63 SpheroidProblem.evaluate; the array branch and the list branch *)
Definition spheroid_array (phenome : list Q) : Q := np_sum (map (fun x => x ^ 2)%Q phenome).
(** leap_ec/real_rep/problems.py:50-63, continued *)
Definition spheroid_list (phenome : list Q) : Q := fold_left (fun s x => s + x ^ 2)%Q phenome 0%Q.

(** leap_ec/real_rep/problems.py:195-209 RosenbrockProblem.evaluate, arrays: phenome[1:] against phenome[:-1] *)
Definition rosenbrock_array (phenome : list Q) : Q :=
  np_sum (map2 (fun x_p x => 100 * (x_p - x ^ 2) ^ 2 + (x - 1) ^ 2)%Q (tl phenome) (removelast phenome)).
(** leap_ec/real_rep/problems.py:211-215 lists: the loop over enumerate(phenome[0:-1]) *)
Definition rosenbrock_list (phenome : list Q) : Q :=
  fold_left (fun s p => let '(i, x) := p in
                        let x_p := nth (i + 1) phenome 0%Q in
                        s + (100 * (x_p - x ^ 2) ^ 2 + (x - 1) ^ 2))%Q
    (combine (seq 0 (length (removelast phenome))) (removelast phenome)) 0%Q.

(** leap_ec/real_rep/problems.py:273-285 StepProblem.evaluate *)
Definition step_evaluate (phenome : list Q) : Q := np_sum (map (fun x => inject_Z (Qfloor x)) phenome).

(** leap_ec/real_rep/problems.py:340-354 NoisyQuarticProblem.evaluate; [noise]: the normal draws, one per gene *)
Definition noisy_quartic (phenome noise : list Q) : Q :=
  (dot (map (fun i => inject_Z (Z.of_nat i) + 1) (seq 0 (length phenome))) (map (fun x => x ^ 4) phenome)
   + np_sum noise)%Q.

(** leap_ec/real_rep/problems.py:424-425 ShekelProblem.points *)
Definition shekel_points : list (list Q) :=
  [ concat (repeat [-32#1; -16#1; 0; 16#1; 32#1]%Q 5);
    (repeat (-32#1) 5 ++ repeat (-16#1) 5 ++ repeat 0 5 ++ repeat (16#1) 5 ++ repeat (32#1) 5)%Q ].
(** leap_ec/real_rep/problems.py:435-448 ShekelProblem.evaluate; [c] has at least 25 entries (IndexError otherwise).  A
    zero divisor is not modelled: it gives numpy's inf, whereas Coq's 1/0 is 0; the theorems exclude it. *)
Definition shekel_evaluate (k : Q) (c : list Q) (phenome : list Q) : result Q :=
  match phenome with
  | [x0; x1] =>
      if 25 <=? length c then
        let f j := (nth j c 0 + (x0 - nth j (nth 0 shekel_points []) 0) ^ 6
                              + (x1 - nth j (nth 1 shekel_points []) 0) ^ 6)%Q in
        Ok (1 / (1 / k + np_sum (map (fun j => 1 / f j) (seq 0 25))))%Q
      else Err IndexError
  | _ => Err AssertionError
  end.
(** leap_ec/real_rep/problems.py:430 the default c *)
Definition shekel_default_c : list Q := map (fun i => inject_Z (Z.of_nat i)) (seq 1 25).

(** ** Transformed problems: [inner] is the wrapped problem's evaluate, [bounds] its bounds attribute *)
Section Wrapped.
Variable inner : list Q -> result Q.

(** leap_ec/real_rep/problems.py:1306-1329 TranslatedProblem.evaluate.  [is_array]: the phenome is a numpy array *)
Definition translated_evaluate (offset : list Q) (is_array : bool) (phenome : list Q) : result Q :=
  if length phenome =? length offset then
    if is_array then inner (map2 Qminus phenome offset) else Err ValueError
  else Err AssertionError.

(** leap_ec/real_rep/problems.py:1359-1368 ScaledProblem.evaluate.  Equal new bounds divide by zero: numpy gives inf or
    NaN, not modelled (Coq's x/0 is 0; the theorems exclude it). *)
Definition scaled_point (old_bounds new_bounds : Q * Q) (x : Q) : Q :=
  (fst old_bounds + (x - fst new_bounds) / (snd new_bounds - fst new_bounds) * (snd old_bounds - fst old_bounds))%Q.
(** leap_ec/real_rep/problems.py:1359-1368, continued *)
Definition scaled_evaluate (old_bounds new_bounds : Q * Q) (is_array : bool) (phenome : list Q) : result Q :=
  if is_array then inner (map (scaled_point old_bounds new_bounds) phenome) else Err ValueError.

(** leap_ec/real_rep/problems.py:1557-1561 MatrixTransformedProblem.evaluate; a matrix is the list of its rows.  matmul
    raises ValueError on a row whose length is not the phenome's. *)
Definition mat_vec (m : list (list Q)) (v : list Q) : list Q := map (fun row => dot row v) m.
(** leap_ec/real_rep/problems.py:1557-1561, continued *)
Definition matrix_evaluate (m : list (list Q)) (phenome : list Q) : result Q :=
  if length phenome =? length m then
    if forallb (fun row => length row =? length phenome) m then inner (mat_vec m phenome) else Err ValueError
  else Err AssertionError.
End Wrapped.

(** leap_ec/real_rep/problems.py:1468-1477 MatrixTransformedProblem.__init__: accepts the matrix, or raises.  np.array of
    ragged rows is an error too. *)
Definition matrix_problem (m : list (list Q)) : result (list (list Q)) :=
  match m with
  | [] => Err IndexError
  | r :: _ => if length m =? length r
              then if forallb (fun row => length row =? length r) m then Ok m else Err ValueError
              else Err AssertionError
  end.

(** ** Parabaloids *)
(** leap_ec/real_rep/problems.py:1216-1229 *)
Definition column (m : list (list Q)) (j : nat) : list Q := map (fun row => nth j row 0%Q) m.
(** leap_ec/real_rep/problems.py:1216-1229 *)
Definition square (m : list (list Q)) : bool := forallb (fun row => length row =? length m) m.
(** leap_ec/real_rep/problems.py:1216-1229 *)
Definition transpose (m : list (list Q)) : list (list Q) := map (column m) (seq 0 (length m)).
(** a @ b for square matrices of the same size *)
(** leap_ec/real_rep/problems.py:1216-1229 *)
Definition mat_mul (a b : list (list Q)) : list (list Q) :=
  map (fun row => map (fun j => dot row (column b j)) (seq 0 (length b))) a.
(** v @ m *)
(** leap_ec/real_rep/problems.py:1228-1229 *)
Definition vec_mat (v : list Q) (m : list (list Q)) : list Q :=
  map (fun j => dot v (column m j)) (seq 0 (length m)).

(** leap_ec/real_rep/problems.py:1222: np.allclose(D, np.diag(np.diagonal(D))) with the default tolerances: the entries off the
    diagonal are compared with 0 *)
Definition close_to_diagonal (d : list (list Q)) : bool :=
  forallb (fun i => forallb (fun j =>
     (i =? j) || Qle_bool (Qabs (nth j (nth i d []) 0)) (1 # 100000000))%Q
    (seq 0 (length d))) (seq 0 (length d)).

(** leap_ec/real_rep/problems.py:1216-1226 ParabaloidProblem.__init__: the matrix kept.  Shapes: only square matrices of the
    same size are modelled, other shapes are reported as ValueError (numpy broadcasts some of them). *)
Definition parabaloid_matrix (d r : list (list Q)) : result (list (list Q)) :=
  if square d && square r && (length d =? length r) then
    if close_to_diagonal d then Ok (mat_mul (mat_mul (transpose r) d) r) else Err AssertionError
  else Err ValueError.

(** leap_ec/real_rep/problems.py:1228-1229 evaluate: phenome.T @ matrix @ phenome *)
Definition parabaloid_evaluate (matrix : list (list Q)) (phenome : list Q) : result Q :=
  if length phenome =? length matrix then Ok (dot (vec_mat phenome matrix) phenome) else Err ValueError.

(** ** leap_ec/real_rep/problems.py:1106-1124 QuadraticFamilyProblem: the basins built by __init__ *)
Record basin := mk_basin { ba_matrix : list (list Q); ba_offset : list Q; ba_value : Q }.

(** leap_ec/real_rep/problems.py:1106-1124, continued *)
Fixpoint map_result {A B} (f : A -> result B) (l : list A) : result (list B) :=
  match l with
  | [] => Ok []
  | x :: r => bind (f x) (fun y => bind (map_result f r) (fun ys => Ok (y :: ys)))
  end.

(** leap_ec/real_rep/problems.py:1106-1124, continued *)
Definition quadratic_family (ds rs : list (list (list Q))) (offsets : list (list Q)) (values : list Q)
  : result (list basin) :=
  if (length ds =? length rs) && (length offsets =? length rs) && (length values =? length rs) then
    bind (map_result (fun dr => parabaloid_matrix (fst dr) (snd dr)) (combine ds rs)) (fun ms =>
    Ok (map (fun p => mk_basin (fst (fst p)) (snd (fst p)) (snd p)) (combine (combine ms offsets) values)))
  else Err AssertionError.

(** FitnessOffsetProblem(TranslatedProblem(ParabaloidProblem)).evaluate (leap_ec/problem.py:290-291) *)
Definition basin_evaluate (is_array : bool) (phenome : list Q) (b : basin) : result Q :=
  bind (translated_evaluate (parabaloid_evaluate (ba_matrix b)) (ba_offset b) is_array phenome)
       (fun v => Ok (v + ba_value b)%Q).

(** leap_ec/real_rep/problems.py:1134-1136; np.min of an empty list raises ValueError *)
Definition quadratic_evaluate (p : list basin) (is_array : bool) (phenome : list Q) : result Q :=
  bind (map_result (basin_evaluate is_array phenome) p) (fun vs =>
  match vs with [] => Err ValueError | v :: r => Ok (fold_left Qmin r v) end).

(** leap_ec/real_rep/problems.py:1139-1166 QuadraticFamilyProblem.generate.  [widths]: the diagonals drawn, one vector per
    basin, from width_bounds; [rotations]: the matrices returned by random_orthonormal_matrix;
    [offsets]: vectors from offset_bounds; [extra]: the num_basins - num_global_optima values from
    fitness_offset_bounds.  Returns the problem, its bounds and its global_optimum attribute. *)
Definition diag (d : list Q) : list (list Q) :=
  map (fun i => map (fun j => if i =? j then nth i d 0 else 0)%Q (seq 0 (length d))) (seq 0 (length d)).
(** leap_ec/real_rep/problems.py:1139-1166, continued *)
Definition quadratic_generate (num_basins num_global_optima : nat) (width_bounds offset_bounds : Q * Q)
    (widths : list (list Q)) (rotations : list (list (list Q))) (offsets : list (list Q)) (extra : list Q)
  : result (list basin * (Q * Q) * option (list Q)) :=
  if Qle_bool (fst width_bounds) (snd width_bounds) && Qle_bool (fst offset_bounds) (snd offset_bounds)
     && (num_global_optima <=? num_basins) then
    bind (quadratic_family (map diag widths) rotations offsets (repeat 0%Q num_global_optima ++ extra)) (fun p =>
    Ok (p, (- (2) * snd width_bounds, 2 * snd width_bounds)%Q,
        if 0 <? num_global_optima then nth_error offsets 0 else None))
  else Err AssertionError.
