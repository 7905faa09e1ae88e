(** What is wrong with the sizes of a network, an input and a matrix. *)
From Coq Require Import Reals.
From Verif Require Import Model.Base Spec.Refusals2.

(** an input of [n] numbers to the layers of a network, each with a row per number and one for the bias; [empty] is what
    the activation function makes of a layer without columns *)
Inductive size_trouble {V} (empty : exn) : nat -> list (list (list V)) -> exn -> Prop :=
| size_rows n w rest : length w <> S n -> size_trouble empty n (w :: rest) ValueError
| size_empty n w rest : length w = S n -> width w = 0 -> size_trouble empty n (w :: rest) empty
| size_later n w rest e : length w = S n -> width w <> 0 -> size_trouble empty (width w) rest e -> size_trouble empty n (w :: rest) e.
