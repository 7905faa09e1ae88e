(** C57-C59: the algebraic real-valued benchmarks, transformed problems and the quadratic family. *)
From Coq Require Import Lia Lqa Qabs Qround.
From Verif Require Import Model.Base Model.RealProblems Spec.Problems Spec.RealProblems
  Proofs.RealProblems Proofs.Quadratic.

(** C57. *)
Theorem C57_spheroid :
  forall x,
  (spheroid_array x == sq_length x)%Q /\ (spheroid_list x == spheroid_array x)%Q /\
  (0 <= spheroid_array x)%Q /\
  ((spheroid_array x == 0)%Q <-> Forall (fun v => v == 0)%Q x).
Proof. exact spheroid_spec. Qed.
Print Assumptions C57_spheroid.

Theorem C57_rosenbrock :
  forall x,
  (rosenbrock_list x == rosenbrock_array x)%Q /\
  (rosenbrock_array x == sumn (length x - 1)
     (fun i => 100 * (at_ x (S i) - at_ x i ^ 2) ^ 2 + (at_ x i - 1) ^ 2))%Q /\
  (0 <= rosenbrock_array x)%Q /\
  (2 <= length x -> (rosenbrock_array x == 0)%Q <-> Forall (fun v => v == 1)%Q x).
Proof. exact rosenbrock_spec. Qed.
Print Assumptions C57_rosenbrock.

(** Step: integer valued, flat on unit cells; the largest value for genes up to b is n * floor(b),
    reached exactly when every gene is at least floor(b). *)
Theorem C57_step :
  forall x,
  (exists z, step_evaluate x == inject_Z z)%Q /\
  (forall y, map Qfloor y = map Qfloor x -> (step_evaluate y == step_evaluate x)%Q) /\
  (forall b, Forall (fun v => v <= b)%Q x ->
     (step_evaluate x <= inject_Z (Z.of_nat (length x)) * inject_Z (Qfloor b))%Q /\
     ((step_evaluate x == inject_Z (Z.of_nat (length x)) * inject_Z (Qfloor b))%Q <->
      Forall (fun v => inject_Z (Qfloor b) <= v)%Q x)).
Proof. exact step_spec. Qed.
Print Assumptions C57_step.

Theorem C57_noisy_quartic :
  forall x noise,
  let clean := sumn (length x) (fun i => inject_Z (Z.of_nat (S i)) * at_ x i ^ 4)%Q in
  (noisy_quartic x noise == clean + Qsum noise)%Q /\ (0 <= clean)%Q /\
  ((clean == 0)%Q <-> Forall (fun v => v == 0)%Q x).
Proof. exact quartic_spec. Qed.
Print Assumptions C57_noisy_quartic.

Theorem C57_shekel :
  forall k c x0 x1,
  (0 < k)%Q -> 25 <= length c -> Forall (fun v => 0 < v)%Q c ->
  exists v, shekel_evaluate k c [x0; x1] = Ok v /\
    (0 < v < k)%Q /\ (forall j, j < 25 -> (v < foxhole (fun j => nth j c 0%Q) x0 x1 j)%Q) /\
    (1 / v == 1 / k + sumn 25 (fun j => 1 / foxhole (fun j => nth j c 0%Q) x0 x1 j))%Q.
Proof. exact shekel_spec. Qed.
Print Assumptions C57_shekel.

(** With the default constants 1, ..., 25. *)
Theorem C57_shekel_defaults :
  forall x0 x1,
  exists v, shekel_evaluate 500 shekel_default_c [x0; x1] = Ok v /\ (0 < v < 500)%Q /\
    (1 / v == 1 / 500 + sumn 25 (fun j => 1 / foxhole (fun j => inject_Z (Z.of_nat j + 1)) x0 x1 j))%Q.
Proof. exact shekel_defaults. Qed.
Print Assumptions C57_shekel_defaults.

Example C57_example :
  Qred (spheroid_list [1#2; -(2)]%Q) = (17#4)%Q /\ Qred (rosenbrock_array [1; 1; 2]%Q) = (100#1)%Q /\
  Qred (step_evaluate [51#10; 5; -(1#2)]%Q) = (9#1)%Q /\
  Qred (noisy_quartic [1; -(2)]%Q [1#2; 1#4]%Q) = (135#4)%Q /\
  (0 < 500)%Q /\ 25 <= length shekel_default_c /\ Forall (fun v => 0 < v)%Q shekel_default_c /\
  (exists v, shekel_evaluate 500%Q shekel_default_c [-32#1; -32#1]%Q = Ok v /\ (99#100 < v < 1)%Q).
Proof.
  repeat (match goal with |- _ /\ _ => split end); try reflexivity.
  - repeat (apply Forall_cons; [reflexivity|]). apply Forall_nil.
  - eexists. split; [reflexivity|]. vm_compute. split; reflexivity.
Qed.

(** C58.  The translated problem's value at x is the wrapped problem's value at x - offset; so what
    happened at x happens at x + offset. *)
Theorem C58_translated :
  forall inner o x, length x = length o ->
  (exists y, translated_evaluate inner o true x = inner y /\ length y = length x /\
     forall i, i < length x -> (at_ y i == at_ x i - at_ o i)%Q) /\
  (exists y, translated_evaluate inner o true (map2 Qplus x o) = inner y /\ same_point y x).
Proof. exact (fun inner o x H => conj (translated_spec inner o x H) (translated_back inner o x H)). Qed.
Print Assumptions C58_translated.

Theorem C58_translated_rejects :
  forall inner o is_array x,
  (length x <> length o -> translated_evaluate inner o is_array x = Err AssertionError) /\
  (length x = length o -> translated_evaluate inner o false x = Err ValueError).
Proof. exact translated_errors. Qed.
Print Assumptions C58_translated_rejects.

(** The scaled problem looks at the point with the same relative position in the old bounds; it takes
    arrays only. *)
Theorem C58_scaled :
  forall inner old new x, (fst new < snd new)%Q ->
  scaled_evaluate inner old new false x = Err ValueError /\
  exists y, scaled_evaluate inner old new true x = inner y /\ length y = length x /\
    (forall i, i < length x ->
       ((at_ y i - fst old) * (snd new - fst new) == (at_ x i - fst new) * (snd old - fst old))%Q /\
       (at_ x i == fst new -> at_ y i == fst old)%Q /\ (at_ x i == snd new -> at_ y i == snd old)%Q /\
       ((fst old <= snd old)%Q -> (fst new <= at_ x i <= snd new)%Q ->
        (fst old <= at_ y i <= snd old)%Q)).
Proof. exact scaled_spec. Qed.
Print Assumptions C58_scaled.

(** The matrix problem looks at the image of x; a matrix with orthonormal rows keeps distances from
    the origin. *)
Theorem C58_matrix :
  forall inner n m x, is_square n m -> length x = n ->
  exists y, matrix_evaluate inner m x = inner y /\ length y = n /\
    (forall i, i < n -> (at_ y i == image n m x i)%Q) /\
    (orthonormal_rows n m -> (sq_length y == sq_length x)%Q).
Proof. exact matrix_spec. Qed.
Print Assumptions C58_matrix.

Theorem C58_matrix_rejects :
  forall inner m x,
  (length x <> length m -> matrix_evaluate inner m x = Err AssertionError) /\
  (length x = length m -> (exists row, In row m /\ length row <> length x) -> matrix_evaluate inner m x = Err ValueError).
Proof. exact matrix_rejects. Qed.
Print Assumptions C58_matrix_rejects.

Theorem C58_matrix_must_be_square :
  forall m, (exists m', matrix_problem m = Ok m') <-> (m <> [] /\ is_square (length m) m).
Proof. exact matrix_problem_spec. Qed.
Print Assumptions C58_matrix_must_be_square.

Example C58_example :
  let sphere x := Ok (Qred (spheroid_array x)) in
  let r := [[3#5; 4#5]; [-4#5; 3#5]]%Q in
  translated_evaluate sphere [1; 2]%Q true [2; 4]%Q = Ok (5#1)%Q /\
  translated_evaluate sphere [1; 2]%Q true [2]%Q = Err AssertionError /\
  scaled_evaluate sphere (-(5), 5)%Q (0, 1)%Q true [1#2; 1]%Q = Ok (25#1)%Q /\
  is_square 2 r /\ orthonormal_rows 2 r /\
  matrix_evaluate sphere r [5; 10]%Q = Ok (125#1)%Q /\ matrix_problem r = Ok r /\
  matrix_evaluate sphere r [5]%Q = Err AssertionError /\ matrix_evaluate sphere [[1]; [1; 2]]%Q [5; 1]%Q = Err ValueError.
Proof.
  cbv zeta. repeat (match goal with |- _ /\ _ => split end); try reflexivity.
  - repeat constructor.
  - intros [|[|i]] [|[|k]] Hi Hk; try (exfalso; lia); reflexivity.
Qed.

(** C59. *)
Theorem C59_lowest_basin :
  forall n ds rs centres values x,
  basins_ok n ds rs centres values -> ds <> [] -> length x = n ->
  exists p v, quadratic_family ds rs centres values = Ok p /\ quadratic_evaluate p true x = Ok v /\
    (forall i, i < length ds -> (v <= basin_at n ds rs centres values i x)%Q) /\
    (exists i, i < length ds /\ (v == basin_at n ds rs centres values i x)%Q).
Proof.
  exact (fun n ds rs centres values x ok H L =>
    match family_value n ds rs centres values ok x H L with
    | ex_intro _ v E => ex_intro _ _ (ex_intro _ v (conj (family_ok n ds rs centres values ok) E)) end).
Qed.
Print Assumptions C59_lowest_basin.

(** With no negative curvature, the centre of a basin with the least value is a global minimum. *)
Theorem C59_global_minimum :
  forall n ds rs centres values p,
  basins_ok n ds rs centres values -> ds <> [] -> quadratic_family ds rs centres values = Ok p ->
  (forall i k, i < length ds -> k < n -> (0 <= entry (nth i ds []) k k)%Q) ->
  forall b, b < length ds -> (forall i, i < length ds -> (nth b values 0 <= nth i values 0)%Q) ->
  (exists v, quadratic_evaluate p true (nth b centres []) = Ok v /\ (v == nth b values 0)%Q) /\
  (forall x, length x = n -> exists v, quadratic_evaluate p true x = Ok v /\ (nth b values 0 <= v)%Q).
Proof. exact quadratic_minimum. Qed.
Print Assumptions C59_global_minimum.

(** Generated instances: the announced global optimum and the other num_global_optima - 1 first centres
    have value 0, nothing is below 0, and (positive widths and offsets, orthonormal rotations) nothing
    else has value 0. *)
Theorem C59_generated :
  forall n nb ng wb ob widths rotations offsets extra,
  0 < ng <= nb -> (fst wb <= snd wb)%Q -> (fst ob <= snd ob)%Q ->
  length widths = nb -> length rotations = nb -> length offsets = nb -> length extra = nb - ng ->
  Forall (fun w => length w = n /\ Forall (fun v => 0 <= v)%Q w) widths ->
  Forall (is_square n) rotations -> Forall (fun o => length o = n) offsets ->
  Forall (fun v => 0 <= v)%Q extra ->
  exists p bounds o,
    quadratic_generate nb ng wb ob widths rotations offsets extra = Ok (p, bounds, Some o) /\
    nth_error offsets 0 = Some o /\
    (forall j, j < ng -> exists v, quadratic_evaluate p true (nth j offsets []) = Ok v /\ (v == 0)%Q) /\
    (forall x, length x = n -> exists v, quadratic_evaluate p true x = Ok v /\ (0 <= v)%Q /\
      (Forall (Forall (fun v => 0 < v)%Q) widths -> Forall (fun v => 0 < v)%Q extra ->
       Forall (orthonormal_rows n) rotations ->
       ((v == 0)%Q <-> exists j, j < ng /\ same_point x (nth j offsets [])))).
Proof. exact generate_spec. Qed.
Print Assumptions C59_generated.

(** A D that is not diagonal is refused, exactly beyond numpy's absolute tolerance. *)
Theorem C59_not_diagonal_rejected :
  forall n d r, is_square n d -> is_square n r ->
  (parabaloid_matrix d r = Err AssertionError <-> exists i j, i < n /\ j < n /\ i <> j /\ (1 # 100000000 < Qabs (entry d i j))%Q).
Proof. exact parabaloid_rejects. Qed.
Print Assumptions C59_not_diagonal_rejected.

(** Reversed bounds and more global optima than basins are refused. *)
Theorem C59_generate_rejects :
  forall nb ng wb ob widths rotations offsets extra,
  (snd wb < fst wb)%Q \/ (snd ob < fst ob)%Q \/ nb < ng ->
  quadratic_generate nb ng wb ob widths rotations offsets extra = Err AssertionError.
Proof. exact generate_rejects. Qed.
Print Assumptions C59_generate_rejects.

Example C59_rejects_example :
  parabaloid_matrix [[1; 1#10]; [0; 1]]%Q [[1; 0]; [0; 1]]%Q = Err AssertionError /\
  is_square 2 [[1; 1#10]; [0; 1]]%Q /\ is_square 2 [[1; 0]; [0; 1]]%Q /\ (1 # 100000000 < Qabs (entry [[1; 1#10]; [0; 1]] 0 1))%Q /\
  quadratic_generate 1 2 (1, 2)%Q (0, 1)%Q [] [] [] [] = Err AssertionError.
Proof. repeat (match goal with |- _ /\ _ => split end); try reflexivity; repeat constructor. Qed.

(** The bounds of a generated instance are derived from the widths, not from the offsets, so the global
    optimum can lie outside them. *)
Theorem C59_optimum_within_bounds_refuted :
  exists wb ob widths rotations offsets extra p lo hi o,
    (fst wb <= snd wb)%Q /\ (fst ob <= snd ob)%Q /\
    Forall (Forall (fun v => fst wb <= v <= snd wb)%Q) widths /\
    Forall (Forall (fun v => fst ob <= v <= snd ob)%Q) offsets /\
    quadratic_generate 1 1 wb ob widths rotations offsets extra = Ok (p, (lo, hi), Some o) /\
    (exists v, In v o /\ ~ (lo <= v <= hi)%Q).
Proof.
  exists (1, 1)%Q, (-(10), 10)%Q, [[1; 1]]%Q, [[[1; 0]; [0; 1]]]%Q, [[9; 3]]%Q, []. do 4 eexists.
  split; [vm_compute; discriminate|]. split; [vm_compute; discriminate|].
  split; [repeat constructor; vm_compute; discriminate|]. split; [repeat constructor; vm_compute; discriminate|].
  split; [vm_compute; reflexivity|]. exists 9%Q. split; [left; reflexivity|].
  intros [_ H]. vm_compute in H. apply H. reflexivity.
Qed.
Print Assumptions C59_optimum_within_bounds_refuted.

Example C59_example :
  let r := [[3#5; 4#5]; [-4#5; 3#5]]%Q in
  let i2 := [[1; 0]; [0; 1]]%Q in
  let ds := [diag [1; 2]; diag [3; 1]]%Q in
  basins_ok 2 ds [r; i2] [[0; 0]; [5; 5]]%Q [0; 10]%Q /\
  match quadratic_family ds [r; i2] [[0; 0]; [5; 5]]%Q [0; 10]%Q with
  | Ok p => match quadratic_evaluate p true [5; 5]%Q, quadratic_evaluate p true [0; 0]%Q, quadratic_evaluate p true [1; 0]%Q with
            | Ok a, Ok b, Ok c => Qred a = 10%Q /\ Qred b = 0%Q /\ Qred c = (41#25)%Q
            | _, _, _ => False end
  | Err _ => False end.
Proof.
  cbv zeta. split.
  - constructor; try reflexivity; try (repeat constructor; fail).
    repeat constructor; (try reflexivity); intros [|[|i]] [|[|k]] Hi Hk N; try (exfalso; lia); reflexivity.
  - vm_compute. repeat split.
Qed.
