(** The ready-made primitives of Cartesian genetic programming: leap_ec/executable_rep/cgp.py:41-97.
    Truth values are numbers: False is 0, True is 1 (in Python True == 1), every other number is truthy. *)
From Verif Require Import Model.Base Model.Cgp.

(** Python's [not v] for a number, used at leap_ec/executable_rep/cgp.py:80 and 97 *)
Definition py_not (v : Z) : Z := if (v =? 0)%Z then 1%Z else 0%Z.

(** leap_ec/executable_rep/cgp.py:41-63 FunctionPrimitive: the arity may not be negative; func is given *)
Definition function_primitive (f : list Z -> result Z) (arity : Z) : result (prim Z) :=
  if (arity <? 0)%Z then Err AssertionError else Ok (mk_prim (Some (Z.to_nat arity)) f).

(** leap_ec/executable_rep/cgp.py:79-80 NAND.__call__: [and] does not look at args[1] when args[0] is falsy *)
Definition nand_call (args : list Z) : result Z :=
  match args with
  | [] => Err IndexError
  | a :: r =>
      if (a =? 0)%Z then Ok (py_not a)
      else match r with [] => Err IndexError | b :: _ => Ok (py_not b) end
  end.
(** leap_ec/executable_rep/cgp.py:65-80 NAND *)
Definition nand : prim Z := mk_prim (Some 2) nand_call.

(** leap_ec/executable_rep/cgp.py:83-97 NotX *)
Definition not_x : prim Z :=
  mk_prim (Some 1) (fun args => match args with [] => Err IndexError | a :: _ => Ok (py_not a) end).
