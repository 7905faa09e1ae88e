(** C65: the function a decoded neural network computes, and its activation functions. *)
From Coq Require Import Reals Lra Lia.
From Verif Require Import Model.Base Model.NeuralNet Model.NeuralExec Spec.RealFunctions Spec.NeuralNet Spec.NeuralExec
  Proofs.RealFunctions Proofs.NeuralExec.
Open Scope R_scope.

(** With an elementwise activation the network computes, layer by layer, the activation of the weighted
    inputs plus bias, and gives one value per output unit. *)
Theorem C65_forward_pass : forall f r a b net x,
  fits (a :: b :: r) net -> Forall (fun n => 0 < n)%nat (b :: r) -> length x = a ->
  nn_call (fun z => Ok (map f z)) net x = Ok (network_output f (a :: b :: r) net x) /\
  length (network_output f (a :: b :: r) net x) = last r b.
Proof. exact forward. Qed.
Print Assumptions C65_forward_pass.

(** Any activation that keeps the length (such as softmax): the output is an activation of as many values
    as there are output units. *)
Theorem C65_output_is_activation : forall act,
  (forall z, z <> [] -> exists s, act z = Ok s /\ length s = length z) ->
  forall r a b net x, fits (a :: b :: r) net -> Forall (fun n => 0 < n)%nat (b :: r) -> length x = a ->
  exists z y, length z = last r b /\ act z = Ok y /\ nn_call act net x = Ok y /\ length y = last r b.
Proof. exact forward_any. Qed.
Print Assumptions C65_output_is_activation.

Theorem C65_wrong_input_size : forall act a b r net x,
  fits (a :: b :: r) net -> length x <> a -> nn_call act net x = Err ValueError.
Proof. exact wrong_input. Qed.
Print Assumptions C65_wrong_input_size.

Theorem C65_sigmoid : forall x, sigmoid1 x = 1 / (1 + exp (- x)) /\ 0 < sigmoid1 x < 1 /\
  sigmoid1 (- x) = 1 - sigmoid1 x /\ (forall y, x < y -> sigmoid1 x < sigmoid1 y).
Proof. exact (fun x => conj (sigmoid_formula x) (sigmoid_spec x)). Qed.
Print Assumptions C65_sigmoid.
Theorem C65_relu : forall x, relu x = Ok (map (fun v => if Rlt_dec 0 v then v else 0) x).
Proof. exact relu_spec. Qed.
Print Assumptions C65_relu.
Theorem C65_softmax : forall x, x <> [] -> exists y, softmax x = Ok y /\
  y = map (fun v => exp v / R_sum (map exp x)) x /\ length y = length x /\
  Forall (fun v => 0 < v <= 1) y /\ R_sum y = 1 /\
  (forall i j, (i < length x)%nat -> (j < length x)%nat -> nth i x 0 < nth j x 0 -> nth i y 0 < nth j y 0) /\
  (forall c, softmax (map (fun v => v + c) x) = Ok y).
Proof. exact softmax_full. Qed.
Print Assumptions C65_softmax.

(** the default activation: every output of a network is the logistic value of a weighted sum, between 0 and 1 *)
Theorem C65_sigmoid_network : forall r a b net x,
  fits (a :: b :: r) net -> Forall (fun n => 0 < n)%nat (b :: r) -> length x = a ->
  exists y, nn_call sigmoid net x = Ok y /\ length y = last r b /\ Forall (fun v => 0 < v < 1) y /\
    y = network_output (fun v => 1 / (1 + exp (- v))) (a :: b :: r) net x.
Proof. exact sigmoid_network. Qed.
Print Assumptions C65_sigmoid_network.
(** softmax: the outputs of a network are probabilities *)
Theorem C65_softmax_network : forall r a b net x,
  fits (a :: b :: r) net -> Forall (fun n => 0 < n)%nat (b :: r) -> length x = a ->
  exists y, nn_call softmax net x = Ok y /\ length y = last r b /\ Forall (fun v => 0 < v <= 1) y /\ R_sum y = 1.
Proof. exact softmax_network. Qed.
Print Assumptions C65_softmax_network.

Example C65_example : nn_call relu [[[1]; [1]; [- (1)]]] [1; 1] = Ok [1].
Proof.
  destruct (C65_forward_pass (fun v => Rmax 0 v) [] 2 1 [[[1]; [1]; [- (1)]]] [1; 1]) as [E _].
  - split; [|exact I]. split; [reflexivity|repeat constructor].
  - repeat constructor.
  - reflexivity.
  - unfold relu. rewrite E. unfold network_output, layer_output, weighted_input, R_sum. cbn [seq map length nth fold_right].
    replace (1 * 1 + (1 * 1 + 0) + - (1)) with 1 by ring. rewrite Rmax_right by lra. reflexivity.
Qed.
Example C65_example_softmax : exists y, softmax [0; 1] = Ok y /\ R_sum y = 1 /\ nth 0 y 0 < nth 1 y 0.
Proof.
  destruct (C65_softmax [0; 1]) as (y & E & _ & _ & _ & S & O & _); [discriminate|]. exists y. split; [exact E|]. split; [exact S|].
  apply O; cbn; [lia|lia|lra].
Qed.
