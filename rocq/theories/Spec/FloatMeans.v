(** What an order of additions is. *)
From Verif Require Import Model.Base Model.Floats Model.FloatMeans Spec.Floats.
From Coq Require Import QArith Permutation.
Local Open Scope Q_scope.

Fixpoint items (o : adding) : list nat := match o with Item i => [i] | Plus a b => items a ++ items b end.
(** every number is added exactly once *)
Definition covers (o : adding) (n : nat) : Prop := Permutation (items o) (seq 0 n).
(** how many roundings a number goes through at most *)
Fixpoint height (o : adding) : nat := match o with Item _ => 0 | Plus a b => S (Nat.max (height a) (height b)) end.
(** (1 + 2^-53) to the power of that *)
Fixpoint grow (h : nat) : Q := match h with O => 1 | S h => grow h * (1 + eps) end.
Definition exact_sum (l : list Q) : Q := fold_right Qplus 0 l.
Definition size_sum (l : list Q) : Q := fold_right (fun x s => Qabs.Qabs x + s) 0 l.
(** adding up from the left *)
Definition from_left (n : nat) : adding := fold_left (fun o i => Plus o (Item i)) (seq 1 (n - 1)) (Item 0).
(** eight numbers as numpy adds them *)
Definition numpy_eight : adding :=
  Plus (Plus (Plus (Item 0) (Item 1)) (Plus (Item 2) (Item 3))) (Plus (Plus (Item 4) (Item 5)) (Plus (Item 6) (Item 7))).
