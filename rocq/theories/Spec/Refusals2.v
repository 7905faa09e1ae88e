(** What can go wrong in networks, plots and benchmark problems, in the words of the caller. *)
From Verif Require Import Model.Base.

Section Networks.
Context {V : Type}.
Definition ragged (m : list (list V)) : Prop := exists first rest row, m = first :: rest /\ In row rest /\ length first < length row.
Definition width (m : list (list V)) : nat := match m with [] => 0 | r :: _ => length r end.

(** what is wrong with the layers of a network when [sources] nodes feed the first: a hidden layer must have a row per
    source, the output layer no more than that; no row may be longer than the layer's first *)
Inductive graph_trouble : nat -> list (list (list V)) -> exn -> Prop :=
| trouble_last sources m : sources < length m \/ ragged m -> graph_trouble sources [m] IndexError
| trouble_rows sources m rest : rest <> [] -> length m <> sources -> graph_trouble sources (m :: rest) AssertionError
| trouble_ragged sources m rest : rest <> [] -> length m = sources -> ragged m -> graph_trouble sources (m :: rest) IndexError
| trouble_later sources m rest e : rest <> [] -> length m = sources -> ~ ragged m ->
    graph_trouble (S (width m)) rest e -> graph_trouble sources (m :: rest) e.
End Networks.

(** a rectangle of numbers *)
Definition rectangle {V} (rows cols : nat) (m : list (list V)) : Prop := length m = rows /\ Forall (fun r => length r = cols) m.
