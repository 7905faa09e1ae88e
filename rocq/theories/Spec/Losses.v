(** What near ties can cost a run with one parent (for C117). *)
From Coq Require Import Qpower.
From Verif Require Import Model.Base Model.Scalar Model.Counters Model.Heap Spec.Order Spec.Strategies.

(** nobody of brood and parents is better than a survivor by more than the tolerance of the comparison *)
Definition hardly_better {G P} (maximize : bool) (w : world G P num) (brood parents next : list nat) : Prop :=
  forall x y, In x (brood ++ parents) -> In y next ->
  better maximize (worth w x) (worth w y) -> within_rel tol (worth w x) (worth w y).

(** from the positive fitness u to v no more is lost than the factor (1 - tol)^k *)
Definition little_lost (maximize : bool) (k : nat) (u v : Q) : Prop :=
  if maximize then ((1 - tol) ^ Z.of_nat k * u <= v)%Q else ((1 - tol) ^ Z.of_nat k * v <= u)%Q.

(** a fitness that is a positive number of Python's float type *)
Definition positive_float (f : num) : Prop := exists v, f = NFlt true (Fin v) /\ (0 < v)%Q.
