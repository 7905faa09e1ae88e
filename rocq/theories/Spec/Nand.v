(** Boolean functions on 0/1 vectors, and a search that starts from any genome. *)
From Verif Require Import Model.Base Model.Cgp Model.Executable Spec.Executable Model.CgpPrims.

(** a function from n truth values to m truth values *)
Definition boolean_function (n m : nat) (f : list Z -> list Z) : Prop :=
  forall i, bit_vector n i -> bit_vector m (f i).

(** the executable of a graph: called on an input with whatever was left in the node attributes by earlier calls *)
Definition runs_as (g : graph Z) (n m : nat) (left_over : list Z -> Z -> option Z) (i : list Z) : result (list Z) :=
  match call g n m (left_over i) i with Ok (_, vs) => Ok vs | Err e => Err e end.

(** two outputs, exclusive or and and: a half adder *)
Definition half_adder (i : list Z) : list Z :=
  match i with [a; b] => [Z.lxor a b; Z.land a b] | _ => [] end.
(** the usual five NANDs: n = ab, p = an, q = bn, sum = pq, carry = nn, two nodes to a layer *)
Definition half_adder_genome : list Z :=
  [0;0;1; 0;0;0;  0;0;2; 0;1;2;  0;4;5; 0;2;2;  6; 7]%Z.
