(** Colour values, and primitives that keep to them. *)
From Coq Require Import Reals.
From Verif Require Import Model.Base Model.Cgp.

(** a colour value *)
Definition colour (r : R) : Prop := (0 <= r <= 255)%R.

(** called with [n] arguments of the kind [S], the primitive returns a value of the kind [S] *)
Definition keeps {V} (S : V -> Prop) (n : nat) (p : prim V) : Prop :=
  forall args, length args = n -> Forall S args -> exists v, p_call p args = Ok v /\ S v.

(** called with three colours the k-th primitive of [l] returns a value with property [P] *)
Definition returns_at {V} (S : V -> Prop) (l : list (prim V)) (k : nat) (P : V -> V -> V -> V -> Prop) : Prop :=
  exists f, nth_error l k = Some f /\ forall x y p, S x -> S y -> S p -> exists v, p_call f [x; y; p] = Ok v /\ P x y p v.

(** the k-th primitive of [l] does not look at its first, second, third argument; is symmetric in the first two *)
Definition ignores_second {V} (l : list (prim V)) (k : nat) : Prop :=
  exists f, nth_error l k = Some f /\ forall x y y' p, p_call f [x; y; p] = p_call f [x; y'; p].
Definition ignores_parameter {V} (l : list (prim V)) (k : nat) : Prop :=
  exists f, nth_error l k = Some f /\ forall x y p p', p_call f [x; y; p] = p_call f [x; y; p'].
Definition symmetric {V} (l : list (prim V)) (k : nat) : Prop :=
  exists f, nth_error l k = Some f /\ forall x y p, p_call f [x; y; p] = p_call f [y; x; p].
