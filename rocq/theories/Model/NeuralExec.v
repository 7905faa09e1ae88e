(** leap_ec/executable_rep/neural_network.py: the activation functions and the forward pass, over exact
    reals. *)
From Coq Require Import Reals.
From Verif Require Import Model.Base Model.RealFunctions Model.NeuralNet.
Open Scope R_scope.

(** leap_ec/executable_rep/neural_network.py:15-22 sigmoid, elementwise *)
Definition sigmoid1 (x : R) : R := exp (Rmin 0 x) / (1 + exp (- Rabs x)).
(** leap_ec/executable_rep/neural_network.py:15-22 sigmoid on an array *)
Definition sigmoid (x : list R) : result (list R) := Ok (map sigmoid1 x).
(** leap_ec/executable_rep/neural_network.py:28-31 relu *)
Definition relu (x : list R) : result (list R) := Ok (map (fun v => Rmax 0 v) x).
(** np.max at leap_ec/executable_rep/neural_network.py:41; ValueError on an empty array *)
Definition r_max (l : list R) : result R :=
  match l with [] => Err ValueError | x :: r => Ok (fold_left Rmax r x) end.
(** leap_ec/executable_rep/neural_network.py:37-42 softmax *)
Definition softmax (x : list R) : result (list R) :=
  bind (r_max x) (fun m =>
  let safe_exp := map (fun v => exp (v - m)) x in
  let s := r_sum safe_exp in
  Ok (map (fun e => e / s) safe_exp)).

(** np.dot(signal, W) at leap_ec/executable_rep/neural_network.py:201: ValueError when the sizes differ *)
Definition vec_times (signal : list R) (w : list (list R)) : result (list R) :=
  if (length signal =? length w)%nat
  then Ok (map (fun j => r_sum (map (fun p => fst p * nth j (snd p) 0) (combine signal w))) (seq 0 (columns w)))
  else Err ValueError.

(** leap_ec/executable_rep/neural_network.py:194-205 __call__ *)
Fixpoint nn_call (activation : list R -> result (list R)) (net : list (list (list R))) (signal : list R)
  : result (list R) :=
  match net with
  | [] => Ok signal
  | w :: rest =>
      bind (vec_times (signal ++ [1]) w) (fun z =>
      bind (activation z) (fun s =>
      if (length s =? 0)%nat then Err AssertionError else nn_call activation rest s))
  end.
