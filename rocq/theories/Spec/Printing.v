(** What a reader of the printed text can see. *)
From Coq Require Import Ascii String.
From Verif Require Import Model.Base Model.CsvProbe Model.Printing.
Local Open Scope list_scope.

(** no line break in a text *)
Definition one_line (t : text) : Prop := ~ In newline t.

(** the lines of a text; what follows the last line break is not a line *)
Fixpoint lines_from (cur t : text) : list text :=
  match t with
  | [] => []
  | c :: r => if Ascii.eqb c newline then cur :: lines_from [] r else lines_from (cur ++ [c]) r
  end.
Definition lines (t : text) : list text := lines_from [] t.

(** [next] yields these individuals, then goes on from state [u'] *)
Inductive yields {I U : Type} (next : U -> result (I * U)) : U -> list I -> U -> Prop :=
| y_none u : yields next u [] u
| y_one u i u1 l u' : next u = Ok (i, u1) -> yields next u1 l u' -> yields next u (i :: l) u'.

(** a list iterator, for the examples *)
Definition list_next (l : list nat) : result (nat * list nat) := match l with [] => Err StopIteration | x :: r => Ok (x, r) end.
Definition digit (n : nat) : text := [ascii_of_nat (48 + n)].
