(** C64: decoding a genome into a neural network. *)
From Verif Require Import Model.Base Model.NeuralNet Spec.NeuralNet Proofs.NeuralNet.
From Coq Require Import Lia.

(** A genome of the right length becomes one matrix per pair of neighbouring non-empty layers, and the
    weights of the matrices are the genome's elements, each used once and in order; any other length is
    refused. *)
Theorem C64_decode : forall V shape (genome : list V), 2 <= length shape ->
  let sizes := real_layers shape in
  exists dims, nn_dimensions shape = Ok dims /\
    (length genome = weights_needed sizes ->
       exists net, nn_decode dims genome = Ok net /\ fits sizes net /\ all_weights net = genome) /\
    (length genome <> weights_needed sizes -> nn_decode dims genome = Err ValueError).
Proof. exact (fun V => @decode_spec V). Qed.
Print Assumptions C64_decode.

(** These conditions leave only one network. *)
Theorem C64_network_is_determined : forall V sizes (net net' : list (list (list V))),
  fits sizes net -> fits sizes net' -> all_weights net = all_weights net' -> net = net'.
Proof. exact (fun V => @net_determined V). Qed.
Print Assumptions C64_network_is_determined.

Theorem C64_too_few_layers : forall shape, length shape < 2 -> nn_dimensions shape = Err AssertionError.
Proof. exact init_short. Qed.
Print Assumptions C64_too_few_layers.

(** The sizes the network reports. *)
Theorem C64_sizes : forall V a b r (net : list (list (list V))), fits (a :: b :: r) net ->
  num_inputs net = Ok (Z.of_nat a) /\ num_outputs net = Ok (last r b) /\ num_hidden_layers net = Z.of_nat (length r).
Proof. exact (fun V => @net_sizes V). Qed.
Print Assumptions C64_sizes.

(** The graph has one node per unit and one for the bias, and exactly one edge per weight, from the unit
    (or bias) of the weight's row to the unit of its column. *)
Theorem C64_graph : forall V a b r (net : list (list (list V))), fits (a :: b :: r) net ->
  let sizes := a :: b :: r in let k := S (length r) in
  exists ns es, nn_graph net = Ok (ns, es) /\
    NoDup ns /\ (forall n, In n ns <-> network_nodes k sizes n) /\
    map snd es = all_weights net /\
    forall s t w, In (s, t, w) es <->
      exists l m i j row u, nth_error net l = Some m /\ nth_error m i = Some row /\ nth_error row j = Some w /\
        nth_error sizes l = Some u /\ s = row_node k l u i /\ t = unit_node k (S l) j.
Proof. exact (fun V => @graph_spec V). Qed.
Print Assumptions C64_graph.

(** A matrix that does not fit its predecessor: too many rows in the last one raise IndexError, too few are
    accepted (the units or the bias left over get no edges); a hidden layer's matrix must fit exactly. *)
Theorem C64_graph_unfit : forall V a b r ms rows cols (m : list (list V)), fits (a :: b :: r) ms -> is_matrix rows cols m ->
  (rows <= last r b + 1 -> exists ns es, nn_graph (ms ++ [m]) = Ok (ns, es) /\ map snd es = all_weights (ms ++ [m])) /\
  (last r b + 1 < rows -> nn_graph (ms ++ [m]) = Err IndexError) /\
  (rows <> last r b + 1 -> forall m' rest, nn_graph (ms ++ m :: m' :: rest) = Err AssertionError).
Proof. exact (fun V => @graph_unfit V). Qed.
Print Assumptions C64_graph_unfit.
Example C64_graph_unfit_example :
  nn_graph [[[10; 11]; [12; 13]]; [[20]]] = Ok ([Bias; In_ 0; Hid 0 0; Hid 0 1; Out 0],
    [(In_ 0, Hid 0 0, 10); (In_ 0, Hid 0 1, 11); (Bias, Hid 0 0, 12); (Bias, Hid 0 1, 13); (Hid 0 0, Out 0, 20)]) /\
  nn_graph [[[10; 11]; [12; 13]]; [[20]; [21]; [22]; [23]]] = Err IndexError /\
  nn_graph [[[10; 11]; [12; 13]]; [[20]]; [[5]; [5]]] = Err AssertionError.
Proof. repeat split. Qed.

Example C64_example :
  weights_needed (real_layers [4; 0; 3; 2; 2]) = 29 /\
  match nn_dimensions [4; 0; 3; 2; 2] with
  | Ok dims => match nn_decode dims (seq 0 29) with
    | Ok net => net = [[[0; 1; 2]; [3; 4; 5]; [6; 7; 8]; [9; 10; 11]; [12; 13; 14]];
                       [[15; 16]; [17; 18]; [19; 20]; [21; 22]]; [[23; 24]; [25; 26]; [27; 28]]] /\ fits [4; 3; 2; 2] net
    | Err _ => False end
  | Err _ => False end.
Proof. split; [reflexivity|]. cbn. repeat split; repeat constructor. Qed.
Example C64_example_graph :
  nn_graph [[[10; 11]; [12; 13]]; [[20]; [21]; [22]]] =
  Ok ([Bias; In_ 0; Hid 0 0; Hid 0 1; Out 0],
      [(In_ 0, Hid 0 0, 10); (In_ 0, Hid 0 1, 11); (Bias, Hid 0 0, 12); (Bias, Hid 0 1, 13);
       (Hid 0 0, Out 0, 20); (Hid 0 1, Out 0, 21); (Bias, Out 0, 22)]).
Proof. reflexivity. Qed.

(** A network declared with no inputs and three outputs (bias weights only) has no weights at all and does
    not know its sizes. *)
Theorem C64_no_inputs_refuted : exists shape dims, nn_dimensions shape = Ok dims /\ hd 1 shape = 0 /\ last shape 0 = 3 /\
  nn_decode dims [1; 2; 3] = Err ValueError /\
  exists net : list (list (list nat)), nn_decode dims [] = Ok net /\ num_inputs net = Err IndexError /\ num_outputs net = Err IndexError.
Proof.
  exists [0; 3], []. split; [reflexivity|]. split; [reflexivity|]. split; [reflexivity|]. split; [reflexivity|].
  exists []. repeat split; reflexivity.
Qed.
Print Assumptions C64_no_inputs_refuted.
