(** Property C69: matching an image *)
From Coq Require Import Reals Lia Lra.
From Verif Require Import Model.Base Model.ImageXY Spec.RealFunctions Spec.ImageXY Proofs.ImageXY.
Local Open Scope nat_scope.

(** the fitness is the Euclidean distance between the image and what the executable shows, pixel by pixel, with
    fractions dropped; it is 0 exactly for a perfect match *)
Theorem C69_fitness (img : nat -> nat -> Z * Z * Z) (img_array : list (list Z)) (w h : nat)
  (executable : list Z -> list Z -> result (list (list Q))) (cr cg cb : list Q) (shown : nat -> nat -> Z * Z * Z) : 0 < w ->
  img_array = map (fun k => let '(r, g, b) := img (k mod w) (k / w) in [r; g; b]) (seq 0 (w * h)) ->
  executable (columns_of w h) (rows_of w h) = Ok [cr; cg; cb] -> length cr = w * h -> length cg = w * h -> length cb = w * h ->
  (forall x y, x < w -> y < h -> shows cr cg cb (y * w + x) (shown x y)) ->
  let d := sqrt (pixel_sum w h (fun x y => colour_distance2 (img x y) (shown x y))) in
  image_evaluate img img_array w h executable = Ok d /\ (d = 0%R <-> forall x y, x < w -> y < h -> img x y = shown x y).
Proof. exact (image_fitness img img_array w h executable cr cg cb shown). Qed.
Print Assumptions C69_fitness.
(** a 2 x 1 image; the red channel shows 1.5 and -0.5, that is 1 and 0: one red value differs by 3, one green one by 4 *)
Example C69_fitness_ex : image_evaluate (fun x y => if Nat.eqb x 0 then (4, 2, 3) else (0, 5, 6))%Z [[4; 2; 3]; [0; 5; 6]]%Z 2 1
  (fun xs ys => Ok [[3 # 2; -1 # 2]; [2; 1]; [3; 6]]%Q) = Ok 5%R.
Proof.
  destruct (C69_fitness (fun x y => if Nat.eqb x 0 then (4, 2, 3) else (0, 5, 6))%Z [[4; 2; 3]; [0; 5; 6]]%Z 2 1
    (fun xs ys => Ok [[3 # 2; -1 # 2]; [2; 1]; [3; 6]]%Q) [3 # 2; -1 # 2]%Q [2; 1]%Q [3; 6]%Q
    (fun x y => if Nat.eqb x 0 then (1, 2, 3) else (0, 1, 6))%Z) as [E _]; try reflexivity; [repeat constructor| |].
  - intros [|[|x]] [|y] Hx Hy; try (exfalso; revert Hx Hy; clear; lia).
    + exact (conj (trunc_spec (3 # 2)) (conj (trunc_spec 2) (trunc_spec 3))).
    + exact (conj (trunc_spec (-1 # 2)) (conj (trunc_spec 1) (trunc_spec 6))).
  - rewrite E. f_equal. unfold pixel_sum, R_sum, colour_distance2. cbn [seq map fold_right Nat.eqb].
    match goal with |- sqrt ?a = _ => replace a with (5 * 5)%R by ring end. apply sqrt_square. lra.
Qed.

(** pixel access and pixel list must agree *)
Theorem C69_mismatch (img : nat -> nat -> Z * Z * Z) (img_array : list (list Z)) (w h : nat)
  (executable : list Z -> list Z -> result (list (list Q))) : 0 < w ->
  img_array <> map (fun k => let '(r, g, b) := img (k mod w) (k / w) in [r; g; b]) (seq 0 (w * h)) ->
  image_evaluate img img_array w h executable = Err AssertionError.
Proof. exact (image_mismatch img img_array w h executable). Qed.
Print Assumptions C69_mismatch.
Example C69_mismatch_ex : image_evaluate (fun x y => (1, 2, 3)%Z) [[1; 2; 4]]%Z 1 1 (fun xs ys => Ok []) = Err AssertionError.
Proof. reflexivity. Qed.

(** one output is as good as three equal ones *)
Theorem C69_one_output : forall img img_array w h executable out,
  executable (columns_of w h) (rows_of w h) = Ok [out] -> 0 < w ->
  image_evaluate img img_array w h executable = image_evaluate img img_array w h (fun _ _ => Ok [out; out; out]).
Proof. exact image_one_output. Qed.
Print Assumptions C69_one_output.

(** an executable with one output instead of three is not rejected: its output is compared with all three channels *)
Theorem C69_three_outputs_refuted : exists img img_array w h executable (out : list Q) d, length img_array = w * h /\
  executable (columns_of w h) (rows_of w h) = Ok [out] /\ image_evaluate img img_array w h executable = Ok d /\ d = 0%R.
Proof.
  exists (fun _ _ => (7, 7, 7)%Z), [[7; 7; 7]]%Z, 1, 1, (fun _ _ => Ok [[7%Q]]), [7%Q]. eexists.
  split; [reflexivity|]. split; [reflexivity|]. split; [reflexivity|]. unfold frobenius. cbn. rewrite Rmult_0_l, !Rplus_0_l. apply sqrt_0.
Qed.
Print Assumptions C69_three_outputs_refuted.
