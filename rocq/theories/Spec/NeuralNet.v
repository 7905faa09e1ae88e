(** What a layered network with bias weights is: its sizes, its weights and its graph. *)
From Verif Require Import Model.Base Model.NeuralNet.

(** the layers that have units *)
Definition real_layers (shape : list nat) : list nat := filter (fun x => 0 <? x) shape.

(** one weight from every unit and from the bias to every unit of the next layer *)
Fixpoint weights_needed (sizes : list nat) : nat :=
  match sizes with
  | a :: ((b :: _) as r) => (a + 1) * b + weights_needed r
  | _ => 0
  end.

Section S.
Context {V : Type}.
Definition is_matrix (rows cols : nat) (m : list (list V)) : Prop :=
  length m = rows /\ Forall (fun r => length r = cols) m.

(** one matrix between any two neighbouring layers, with a last row for the bias *)
Fixpoint fits (sizes : list nat) (net : list (list (list V))) : Prop :=
  match sizes, net with
  | a :: ((b :: _) as r), m :: ms => is_matrix (a + 1) b m /\ fits r ms
  | [_], [] | [], [] => True
  | _, _ => False
  end.

(** all weights, matrix by matrix and row by row *)
Definition all_weights (net : list (list (list V))) : list V := concat (map (@concat V) net).

(** unit [i] of layer [l], where layer 0 are the inputs and layer [k] the outputs *)
Definition unit_node (k l i : nat) : node :=
  if l =? 0 then In_ i else if l =? k then Out i else Hid (l - 1) i.
(** row [r] of the matrix after a layer of [a] units belongs to unit [r], the last one to the bias *)
Definition row_node (k l a r : nat) : node := if r =? a then Bias else unit_node k l r.

(** every unit and the bias *)
Definition network_nodes (k : nat) (sizes : list nat) (n : node) : Prop :=
  n = Bias \/ exists l a i, nth_error sizes l = Some a /\ i < a /\ n = unit_node k l i.
End S.
