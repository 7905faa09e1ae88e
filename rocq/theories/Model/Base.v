(** Shared vocabulary of the model: exceptions as values and Python numbers. *)
From Coq Require Export List Arith ZArith QArith Bool Qabs Qminmax.
Export ListNotations.
Global Close Scope Q_scope.
Open Scope list_scope.

(** Python exceptions raised by the modelled code; an exception is a value of the model. *)
(** raised for example at leap_ec/binary_rep/decoders.py:64-66 *)
Inductive exn :=
| ValueError | TypeError | IndexError | AssertionError | RuntimeError
| StopIteration | KeyError | NameError | AttributeError | UserError (n : nat)
| ZeroDivisionError | OverflowError.

(** the outcome of any Python call, for example leap_ec/individual.py:176-189 *)
Inductive result (A : Type) := Ok (a : A) | Err (e : exn).
Arguments Ok {A} a.
Arguments Err {A} e.

(** one statement after another, for example leap_ec/individual.py:176-189 *)
Definition bind {A B} (r : result A) (f : A -> result B) : result B :=
  match r with Ok a => f a | Err e => Err e end.

(** Numbers a fitness can be.  Python ints are exact.  Floats are exact rationals with the two
    infinities; rounding is not modelled.  [NFlt true] is the built-in [float] type, [NFlt false]
    a numpy floating type (the code tests [type(x) == float], which numpy scalars fail).
    [NNan] is a float NaN. *)
(** values compared at leap_ec/problem.py:101-123 *)
Inductive ext := MInf | Fin (q : Q) | PInf.
(** values compared at leap_ec/problem.py:101-123 *)
Inductive num := NInt (z : Z) | NFlt (pyfloat : bool) (e : ext) | NNan.

(** Numeric value; [None] for NaN. *)
(** values compared at leap_ec/problem.py:101-123 *)
Definition num_val (n : num) : option ext :=
  match n with
  | NInt z => Some (Fin (inject_Z z))
  | NFlt _ e => Some e
  | NNan => None
  end.

(** used by the comparisons of leap_ec/problem.py:101-123 *)
Definition Qltb (a b : Q) : bool := negb (Qle_bool b a).

(** Numeric [<] on extended rationals. *)
(** used by the comparisons of leap_ec/problem.py:101-123 *)
Definition ext_ltb (a b : ext) : bool :=
  match a, b with
  | MInf, MInf => false
  | MInf, _ => true
  | Fin _, MInf => false
  | Fin x, Fin y => Qltb x y
  | Fin _, PInf => true
  | PInf, _ => false
  end.

(** used by the comparisons of leap_ec/problem.py:101-123 *)
Definition ext_eqb (a b : ext) : bool :=
  match a, b with
  | MInf, MInf => true
  | PInf, PInf => true
  | Fin x, Fin y => Qeq_bool x y
  | _, _ => false
  end.

(** Python's [<] and [==] on numbers: any comparison with NaN is False. *)
(** leap_ec/problem.py:117-120 *)
Definition num_ltb (a b : num) : bool :=
  match num_val a, num_val b with
  | Some x, Some y => ext_ltb x y
  | _, _ => false
  end.

(** leap_ec/problem.py:139 *)
Definition num_eqb (a b : num) : bool :=
  match num_val a, num_val b with
  | Some x, Some y => ext_eqb x y
  | _, _ => false
  end.

(** leap_ec/problem.py:101-112 *)
Definition isnan (a : num) : bool :=
  match a with NNan => true | _ => false end.

(** type(x) == float, leap_ec/problem.py:136 *)
Definition is_pyfloat (a : num) : bool :=
  match a with NFlt b _ => b | NNan => true | NInt _ => false end.

(** [math.isclose(a, b)] with default [rel_tol=1e-09, abs_tol=0.0] (Python documentation and
    CPython mathmodule.c): equal values are close; otherwise an infinity is close to nothing;
    otherwise |a-b| <= rel_tol*|b| or |a-b| <= rel_tol*|a|.  NaN is close to nothing. *)
(** leap_ec/problem.py:137 *)
Definition rel_tol : Q := (1 # 1000000000)%Q.

(** leap_ec/problem.py:137 *)
Definition isclose (a b : num) : bool :=
  match num_val a, num_val b with
  | Some (Fin x), Some (Fin y) =>
      Qeq_bool x y
      || Qle_bool (Qabs (x - y)%Q) (rel_tol * Qabs y)%Q
      || Qle_bool (Qabs (x - y)%Q) (rel_tol * Qabs x)%Q
  | Some x, Some y => ext_eqb x y
  | _, _ => false
  end.
