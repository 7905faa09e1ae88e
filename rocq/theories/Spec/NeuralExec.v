(** The function a layered network with bias weights computes. *)
From Coq Require Import Reals.
From Verif Require Import Model.Base Spec.RealFunctions.
Open Scope R_scope.

(** what reaches unit [j]: the weighted signals of the layer before and the bias weight *)
Definition weighted_input (x : list R) (w : list (list R)) (j : nat) : R :=
  R_sum (map (fun i => nth i x 0 * nth j (nth i w []) 0) (seq 0 (length x))) + nth j (nth (length x) w []) 0.

(** the signal behind a layer of [n] units with activation [f] *)
Definition layer_output (f : R -> R) (n : nat) (w : list (list R)) (x : list R) : list R :=
  map (fun j => f (weighted_input x w j)) (seq 0 n).

(** layer after layer *)
Fixpoint network_output (f : R -> R) (sizes : list nat) (net : list (list (list R))) (x : list R) : list R :=
  match sizes, net with
  | _ :: ((n :: _) as r), w :: ws => network_output f r ws (layer_output f n w x)
  | _, _ => x
  end.
