(** leap_ec/executable_rep/cgp.py:657-680 cgp_art_primitives, for one element of the arrays, over the real numbers.  NumPy
    divides by zero with a warning and gives inf or nan, which are not modelled: [None].  Integer arrays that overflow and
    rounding are not modelled. *)
From Coq Require Import Reals.
From Verif Require Import Model.Base Model.Cgp.
Local Open Scope R_scope.

(** astype(int), leap_ec/executable_rep/cgp.py:664-665: the fraction is dropped *)
Definition trunc_R (x : R) : Z := if Rlt_dec x 0 then (- Int_part (- x))%Z else Int_part x.
(** [x / y], leap_ec/executable_rep/cgp.py:666, 677 *)
Definition div_R (x y : R) : option R := if Req_EM_T y 0 then None else Some (x / y).
(** [x % m], leap_ec/executable_rep/cgp.py:672-673, 675, 678: x - m * floor(x / m) *)
Definition mod_R (x m : R) : option R := if Req_EM_T m 0 then None else Some (x - m * IZR (Int_part (x / m))).
(** a value computed from a value that may be missing *)
(** leap_ec/executable_rep/cgp.py:672-678 *)
Definition then_R (o : option R) (f : R -> option R) : option R := match o with Some v => f v | None => None end.

(** leap_ec/executable_rep/cgp.py:664 *)
Definition art_or (x y p : R) : option R := Some (IZR (Z.lor (trunc_R x) (trunc_R y))).
(** leap_ec/executable_rep/cgp.py:665 *)
Definition art_and (x y p : R) : option R := Some (IZR (Z.land (trunc_R p) (trunc_R x))).
(** leap_ec/executable_rep/cgp.py:666 *)
Definition art_divide (x y p : R) : option R := div_R x (1 + y + p).
(** leap_ec/executable_rep/cgp.py:667 *)
Definition art_product (x y p : R) : option R := Some (x * y * 255).
(** leap_ec/executable_rep/cgp.py:668 *)
Definition art_sum (x y p : R) : option R := Some ((x + y) * 255).
(** leap_ec/executable_rep/cgp.py:669 *)
Definition art_distance (x y p : R) : option R := Some (Rmax (x - y) (y - x)).
(** leap_ec/executable_rep/cgp.py:670 *)
Definition art_invert (x y p : R) : option R := Some (255 - x).
(** leap_ec/executable_rep/cgp.py:671 *)
Definition art_cos (x y p : R) : option R := Some (Rabs (cos x * 255)).
(** leap_ec/executable_rep/cgp.py:672 *)
Definition art_tan_degrees (x y p : R) : option R := then_R (mod_R x 45) (fun m => Some (Rabs (tan (m * PI / 180 * 255)))).
(** leap_ec/executable_rep/cgp.py:673 *)
Definition art_tan (x y p : R) : option R := mod_R (Rabs (tan x * 255)) 255.
(** leap_ec/executable_rep/cgp.py:674 *)
Definition art_radius (x y p : R) : option R := Some (Rmin (sqrt ((x - p) ^ 2 + (y - p) ^ 2)) 255).
(** leap_ec/executable_rep/cgp.py:675 *)
Definition art_modulo (x y p : R) : option R := then_R (mod_R x (p + 1)) (fun m => Some (m + (255 - p))).
(** leap_ec/executable_rep/cgp.py:676 *)
Definition art_mean (x y p : R) : option R := Some ((x + y) / 2).
(** leap_ec/executable_rep/cgp.py:677 *)
Definition art_ratio (x y p : R) : option R :=
  then_R (div_R (255 * (y + 1)) (x + 1)) (fun a => then_R (div_R (255 * (x + 1)) (y + 1)) (fun b => Some (Rmin a b))).
(** leap_ec/executable_rep/cgp.py:678 *)
Definition art_root (x y p : R) : option R := mod_R (sqrt (Rabs (x ^ 2 - p ^ 2 + y ^ 2 - p ^ 2))) 255.

(** a lambda x, y, p: it has no arity of its own, so all sources and the parameter are its arguments; a wrong number of
    arguments is a TypeError.  [None] is not an exception in NumPy: such calls are outside the model. *)
(** leap_ec/executable_rep/cgp.py:663-679 *)
Definition art_prim (f : R -> R -> R -> option R) : prim R :=
  mk_prim None (fun args => match args with
                            | [x; y; p] => match f x y p with Some v => Ok v | None => Err ZeroDivisionError end
                            | _ => Err TypeError
                            end).
(** leap_ec/executable_rep/cgp.py:657-679 cgp_art_primitives *)
Definition cgp_art_primitives : list (prim R) :=
  map art_prim [art_or; art_and; art_divide; art_product; art_sum; art_distance; art_invert; art_cos; art_tan_degrees; art_tan;
                art_radius; art_modulo; art_mean; art_ratio; art_root].
