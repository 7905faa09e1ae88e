(** leap_ec/executable_rep/problems.py (ImageXYProblem).  Pixels are integers, an executable's outputs exact
    rationals, the distance a real number.  Reading the image file is left out: the problem is given the
    pixel access [img] (load) and the flat pixel list [img_array] (getdata), with width and height positive. *)
From Coq Require Import Reals.
From Verif Require Import Model.Base.

(** leap_ec/executable_rep/problems.py:234-237, 251-254 the order of iteration: y outside, x inside *)
Definition image_coords (width height : nat) : list (nat * nat) :=
  concat (map (fun y => map (fun x => (x, y)) (seq 0 width)) (seq 0 height)).

(** astype(int), leap_ec/executable_rep/problems.py:240: the fraction is dropped *)
Definition trunc (q : Q) : Z := Z.quot (Qnum q) (Zpos (Qden q)).

(** np.stack(fast_output, axis=1), leap_ec/executable_rep/problems.py:240: one row per position; nothing to stack, or
    arrays of different lengths, raise ValueError *)
Definition stack_columns (columns : list (list Q)) : result (list (list Q)) :=
  match columns with
  | [] => Err ValueError
  | c :: r => if forallb (fun d => length d =? length c) r
              then Ok (map (fun i => map (fun d => nth i d 0%Q) columns) (seq 0 (length c)))
              else Err ValueError
  end.

(** leap_ec/executable_rep/problems.py:228-241 generate_image *)
Definition generate_image (executable : list Z -> list Z -> result (list (list Q))) (width height : nat)
  : result (list (list Z)) :=
  let coords := image_coords width height in
  bind (executable (map (fun p => Z.of_nat (fst p)) coords) (map (fun p => Z.of_nat (snd p)) coords)) (fun out =>
  bind (stack_columns out) (fun rows => Ok (map (map trunc) rows))).

(** NumPy's broadcasting of one axis, leap_ec/executable_rep/problems.py:263: equal lengths, or one of them is 1 *)
Definition broadcast {A B C} (f : A -> B -> result C) (a : list A) (b : list B) : result (list C) :=
  let fix all2 a b := match a, b with
    | x :: a', y :: b' => bind (f x y) (fun c => bind (all2 a' b') (fun r => Ok (c :: r)))
    | _, _ => Ok [] end in
  if length a =? length b then all2 a b
  else match a, b with
       | _, [y] => all2 a (repeat y (length a))
       | [x], _ => all2 (repeat x (length b)) b
       | _, _ => Err ValueError
       end.

(** np.linalg.norm of a matrix, leap_ec/executable_rep/problems.py:263 *)
Definition frobenius (m : list (list Z)) : R :=
  sqrt (fold_left (fun acc z => acc + IZR z * IZR z)%R (concat m) 0%R).

(** equality of the pixel lists, leap_ec/executable_rep/problems.py:257 np.array_equal *)
Definition pixels_eqb (a b : list (list Z)) : bool :=
  if list_eq_dec (list_eq_dec Z.eq_dec) a b then true else false.

(** leap_ec/executable_rep/problems.py:243-263 evaluate *)
Definition image_evaluate (img : nat -> nat -> Z * Z * Z) (img_array : list (list Z)) (width height : nat)
    (executable : list Z -> list Z -> result (list (list Q))) : result R :=
  let img_triples := map (fun p => let '(r, g, b) := img (fst p) (snd p) in [r; g; b]) (image_coords width height) in
  if negb (pixels_eqb img_triples img_array) then Err AssertionError
  else bind (generate_image executable width height) (fun f_array =>
       bind (broadcast (broadcast (fun a b => Ok (a - b)%Z)) img_array f_array) (fun diff => Ok (frobenius diff))).
