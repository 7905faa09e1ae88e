(** Specifications for plots of two dimensions *)
From Verif Require Import Model.Base Model.Plot2D.

(** xs are the points lo, lo + g, lo + 2g, ... below hi, in this order *)
Definition ticks (lo hi g : Q) (xs : list Q) : Prop :=
  (forall k x, nth_error xs k = Some x -> x == lo + inject_Z (Z.of_nat k) * g /\ x < hi)%Q /\
  (forall k, (lo + inject_Z (Z.of_nat k) * g < hi)%Q -> k < length xs).

(** the grid of xs and ys: row j, column i *)
Definition grid_value {A} (m : list (list A)) (j i : nat) : option A :=
  match nth_error m j with Some row => nth_error row i | None => None end.
(** a matrix with n rows of m values *)
Definition shaped {A} (n m : nat) (l : list (list A)) : Prop := length l = n /\ Forall (fun row => length row = m) l.
(** v as a float *)
Definition floated (v w : num) : Prop := (forall z, w <> NInt z) /\ num_val w = num_val v.
(** the function has a value at every point, and does not answer with an int at the first one *)
Definition defined_on (fn : list Q -> result num) (pad xs ys : list Q) : Prop :=
  forall j i y x, nth_error ys j = Some y -> nth_error xs i = Some x ->
    exists v, fn (x :: y :: pad) = Ok v /\ (i = 0 -> j = 0 -> forall z, v <> NInt z).
(** all points of the grid, row by row *)
Definition points (pad xs ys : list Q) : list (list Q) := flat_map (fun y => map (fun x => x :: y :: pad) xs) ys.
(** the values of the hidden dimensions *)
Definition pad_values (p : padding) : list Q := match p with PadArray l => l | _ => [] end.
(** a range given, or the bounds of the problem *)
Definition chosen (l bounds : option (list Q)) : option (list Q) := match l with Some v => Some v | None => bounds end.

(** z is the integer v has before its decimal point *)
Definition cut (v : num) (z : Z) : Prop :=
  exists q, num_val v = Some (Fin q) /\
    ((0 <= q /\ inject_Z z <= q /\ q < inject_Z z + 1) \/ (q <= 0 /\ q <= inject_Z z /\ inject_Z z - 1 < q))%Q.

(** examples *)
Definition ex_sum (p : list Q) : result num := Ok (NFlt true (Fin (fold_right Qplus 0 p)))%Q.
Definition ex_step (p : list Q) : result num :=
  match p with
  | x :: _ => Ok (if Qle_bool x 0 then NInt 0 else NFlt true (Fin (1 # 2)%Q))
  | [] => Err IndexError
  end.
Definition ex_mixed (p : list Q) : result num :=
  match p with
  | x :: _ => Ok (if Qle_bool x (-3 # 1) then NInt 0 else NFlt true (Fin (x + (1 # 2))%Q))
  | [] => Err IndexError
  end.
