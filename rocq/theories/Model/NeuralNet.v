(** leap_ec/executable_rep/neural_network.py: decoding a genome into weight matrices, the network's
    sizes and its graph.  Weights are of any type; layer sizes are natural numbers. *)
From Verif Require Import Model.Base.

(** leap_ec/executable_rep/neural_network.py:75 layers of size zero are ignored *)
Definition used_layers (shape : list nat) : list nat := filter (fun x => negb (x =? 0)) shape.

(** leap_ec/executable_rep/neural_network.py:82 list(zip(1 + shape[:-1], shape[1:])) *)
Definition layer_dims (shape : list nat) : list (nat * nat) :=
  combine (map S (removelast shape)) (tl shape).

(** leap_ec/executable_rep/neural_network.py:71-86 __init__: the dimensions, or AssertionError for fewer
    than two layers *)
Definition nn_dimensions (shape : list nat) : result (list (nat * nat)) :=
  if length shape <=? 1 then Err AssertionError else Ok (layer_dims (used_layers shape)).

(** leap_ec/executable_rep/neural_network.py:84-85 the genome length *)
Definition nn_length (dims : list (nat * nat)) : nat :=
  fold_left Nat.add (map (fun d => fst d * snd d) dims) 0.

Section Net.
Context {V : Type}.

(** np.reshape(sequence, (rows, columns)) at leap_ec/executable_rep/neural_network.py:99, for a sequence of
    rows * columns elements *)
Fixpoint reshape (rows columns : nat) (l : list V) : list (list V) :=
  match rows with
  | 0 => []
  | S r => firstn columns l :: reshape r columns (skipn columns l)
  end.

(** leap_ec/executable_rep/neural_network.py:94-101 the loop; genome[start:end] *)
Fixpoint weight_matrices (dims : list (nat * nat)) (start : nat) (genome : list V) : list (list (list V)) :=
  match dims with
  | [] => []
  | (num_inputs, num_outputs) :: rest =>
      let e := start + num_inputs * num_outputs in
      let layer_sequence := firstn (e - start) (skipn start genome) in
      reshape num_inputs num_outputs layer_sequence :: weight_matrices rest e genome
  end.

(** leap_ec/executable_rep/neural_network.py:88-103 decode *)
Definition nn_decode (dims : list (nat * nat)) (genome : list V) : result (list (list (list V))) :=
  if length genome =? nn_length dims then Ok (weight_matrices dims 0 genome) else Err ValueError.

(** np.shape(matrix)[1], leap_ec/executable_rep/neural_network.py:152, of a matrix with rows *)
Definition columns (m : list (list V)) : nat := match m with [] => 0 | r :: _ => length r end.

(** leap_ec/executable_rep/neural_network.py:136-139 num_hidden_layers *)
Definition num_hidden_layers (net : list (list (list V))) : Z := (Z.of_nat (length net) - 1)%Z.
(** leap_ec/executable_rep/neural_network.py:141-146 num_inputs *)
Definition num_inputs (net : list (list (list V))) : result Z :=
  match net with [] => Err IndexError | m :: _ => Ok (Z.of_nat (length m) - 1)%Z end.
(** leap_ec/executable_rep/neural_network.py:148-153 num_outputs *)
Definition num_outputs (net : list (list (list V))) : result nat :=
  match net with [] => Err IndexError | m :: r => Ok (columns (last r m)) end.

(** node names 'bias', i{i}, h{l}_{i} and o{i}: leap_ec/executable_rep/neural_network.py:160-181 *)
Inductive node := Bias | In_ (i : nat) | Hid (l i : nat) | Out (i : nat).

(** edges of one layer, leap_ec/executable_rep/neural_network.py:173-176, 186-189; more rows than sources
    (previous_ids[r]) or more columns than targets raise IndexError *)
Definition row_edges (source : node) (targets : list node) (row : list V) : result (list (node * node * V)) :=
  if length targets <? length row then Err IndexError
  else Ok (map (fun tw => (source, fst tw, snd tw)) (combine targets row)).
(** leap_ec/executable_rep/neural_network.py:173-176, continued *)
Fixpoint layer_edges (sources targets : list node) (m : list (list V)) : result (list (node * node * V)) :=
  match m with
  | [] => Ok []
  | row :: rows =>
      match sources with
      | [] => Err IndexError
      | s :: ss => bind (row_edges s targets row) (fun e =>
                   bind (layer_edges ss targets rows) (fun es => Ok (e ++ es)))
      end
  end.

(** leap_ec/executable_rep/neural_network.py:166-189 the hidden layers and then the output layer.  [l] is the
    number of the layer. *)
Fixpoint graph_from (l : nat) (previous : list node) (net : list (list (list V)))
  : result (list node * list (node * node * V)) :=
  match net with
  | [] => Err IndexError
  | [m] =>
      let outs := map Out (seq 0 (columns m)) in
      bind (layer_edges previous outs m) (fun es => Ok (outs, es))
  | m :: rest =>
      if negb (length m =? length previous) then Err AssertionError
      else
        let hidden := map (Hid l) (seq 0 (columns m)) in
        bind (layer_edges previous hidden m) (fun es =>
        bind (graph_from (S l) (hidden ++ [Bias]) rest) (fun '(ns, es') => Ok (hidden ++ ns, es ++ es')))
  end.

(** leap_ec/executable_rep/neural_network.py:156-191 graph: its nodes and weighted edges in the order they
    are added *)
Definition nn_graph (net : list (list (list V))) : result (list node * list (node * node * V)) :=
  bind (num_inputs net) (fun n =>
  let inputs := map In_ (seq 0 (Z.to_nat n)) in
  bind (graph_from 0 (inputs ++ [Bias]) net) (fun '(ns, es) => Ok (Bias :: inputs ++ ns, es))).
End Net.
