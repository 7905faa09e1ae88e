(** What binary64 numbers and their rounding are, independently of how the model computes them. *)
From Verif Require Import Model.Base Model.Floats.
From Coq Require Import QArith Qabs.
Local Open Scope Q_scope.

(** the finite floats: at most 53 bits, times a power of two that is at least 2^-1074 *)
Definition binary64 (x : Q) : Prop :=
  exists m f : Z, (Z.abs m <= 2 ^ 53)%Z /\ (-1074 <= f)%Z /\ x == inject_Z m * Qpower 2 f.

(** [y] is a float, and none is nearer to [x] *)
Definition nearest (x y : Q) : Prop := binary64 y /\ forall z, binary64 z -> Qabs (y - x) <= Qabs (z - x).

(** what np.random.rand and random.random return: a multiple of 2^-53 below one *)
Definition unit_draw (u : Q) : Prop := exists k : Z, (0 <= k < 2 ^ 53)%Z /\ u == inject_Z k * Qpower 2 (-53).

(** half the distance from 1 to the next float *)
Definition eps : Q := Qpower 2 (-53).

(** [y] is [x] up to a relative error of at most [r] *)
Definition within (r x y : Q) : Prop := Qabs (y - x) <= r * Qabs x.

(** the sum of [values], added up from the left in floats *)
Definition float_total (values : list Q) : Q := fold_left (fun s v => rnd (s + v)) values 0.

(** the last of [n] points: the start [rnd ((total/n)*u)] and [n-1] times the spacing, each rounded *)
Definition last_point (total : Q) (n : nat) (u : Q) : Q :=
  let spacing := rnd (total / inject_Z (Z.of_nat n)) in
  rnd (rnd (spacing * u) + rnd (inject_Z (Z.of_nat n - 1) * spacing)).

Definition Zsum (l : list Z) : Z := fold_right Z.add 0%Z l.

(** the number a float of the standard library's executable specification of IEEE 754 stands for, and back *)
From Coq Require Import SpecFloat.
Definition sf_to_Q (x : spec_float) : option Q :=
  match x with
  | S754_zero _ => Some 0
  | S754_finite s m e => Some (Qred ((if s then -1 else 1) * inject_Z (Zpos m) * Qpower 2 e))
  | _ => None
  end.
(** for numbers with an odd part of at most 53 bits *)
Definition sf_of (m e : Z) : spec_float := binary_normalize 53 1024 m e false.

(** examples of decimal bounds as the floats a program holds: -0.1, 0.1 and 0.3 *)
Definition minus_tenth : Q := Qred (inject_Z (-7205759403792794) * Qpower 2 (-56)).
Definition tenth : Q := Qred (inject_Z 7205759403792794 * Qpower 2 (-56)).
Definition three_tenths : Q := Qred (inject_Z 5404319552844595 * Qpower 2 (-54)).
(** the largest draw *)
Definition top_draw : Q := Qred (inject_Z (2 ^ 53 - 1) * Qpower 2 (-53)).

(** numerators and exponents to compare the two specifications on *)
Definition samples : list (Z * Z) :=
  [(-3, 5); (2 ^ 53 - 1, 0); (7205759403792794, -56); (5404319552844595, -54); (-5, -1074); (49, 0); (3, -54); (2 ^ 52, 1)]%Z.
