(** C117: what near ties can cost a run with one parent. *)
From Verif Require Import Model.Base Model.Scalar Model.Counters Model.Heap Model.Pipeline Model.Strategies
  Spec.Order Spec.Heap Spec.HeapEa Spec.Strategies Spec.Drift Spec.Losses Proofs.Losses Proofs.Drift.

(** one parent, any fitness values: nobody of brood and parent is better than the survivor by more than the tolerance *)
Theorem C117_one_parent_generation :
  forall G P (decoder_of : nat -> option (list G -> result P)) (problem_of : nat -> phen_value G P -> result num)
    (D : list G -> Prop) problem decoder maximize coin max_generation brood (operators : nat -> Q -> list (op G)) pick callbacks,
  (forall i s, clone_vary_evaluate (operators i s) /\ Forall (stays_within D) (operators i s)) ->
  forall initialize pop_size std w, (forall k, D (initialize k)) ->
  each_generation (strategy decoder_of problem_of maximize coin max_generation brood Plus operators pick callbacks
     initialize problem decoder pop_size std w) (fun w' j o p q => length p = 1 -> hardly_better maximize w' o p q).
Proof. exact @one_each. Qed.
Print Assumptions C117_one_parent_generation.

(** with positive fitnesses the losses of k generations add up to no more than the factor (1 - tol)^k,
    measured from any parent or child of the first of them *)
Theorem C117_one_parent_losses :
  forall G P (decoder_of : nat -> option (list G -> result P)) (problem_of : nat -> phen_value G P -> result num)
    (D : list G -> Prop) problem decoder maximize coin max_generation brood (operators : nat -> Q -> list (op G)) pick callbacks,
  (forall i s, clone_vary_evaluate (operators i s) /\ Forall (stays_within D) (operators i s)) ->
  (forall g, D g -> exists v, score (decoder_of decoder) (problem_of problem) g = Ok (NFlt true (Fin v)) /\ (0 < v)%Q) ->
  forall initialize std w final w' earlier used gc', (forall k, D (initialize k)) ->
  strategy decoder_of problem_of maximize coin max_generation brood Plus operators pick callbacks
    initialize problem decoder 1 std w = Some (Ok (final, w', earlier, used), gc') ->
  forall k j s o p q x y, nth_error used j = Some (s, o) -> nth_error (earlier ++ [final]) j = Some p ->
  nth_error (earlier ++ [final]) (j + S k) = Some q -> In x (o ++ p) -> In y q ->
  exists u v, worth w' x = NFlt true (Fin u) /\ worth w' y = NFlt true (Fin v) /\ (0 < u)%Q /\ (0 < v)%Q /\ little_lost maximize (S k) u v.
Proof. exact @losses. Qed.
Print Assumptions C117_one_parent_losses.

(** the drifting run meets the hypotheses; after three generations it has lost almost that much *)
Example C117_one_parent_example :
  (forall i s, clone_vary_evaluate (slip_stages i s) /\ Forall (stays_within one_positive) (slip_stages i s)) /\
  (forall g, one_positive g -> exists v, score (identity_decoder 0) (gene_problem 0) g = Ok (NFlt true (Fin v)) /\ (0 < v)%Q) /\
  match slip_run (fun _ _ _ => true) 3 with
  | Some (Ok (final, w', earlier, used), _) => earlier ++ [final] = [[0]; [1]; [2]; [3]] /\ map snd used = [[1]; [2]; [3]] /\
      match worth w' 0, worth w' 3 with
      | NFlt _ (Fin u), NFlt _ (Fin v) => little_lost false 3 u v /\ ~ little_lost false 2 u v
      | _, _ => False
      end
  | _ => False
  end.
Proof.
  split; [exact slip_ok|]. split; [intros g (x & -> & Hx); exists x; split; [reflexivity|exact Hx]|].
  vm_compute. split; [reflexivity|]. split; [reflexivity|]. split; [discriminate|]. intros C. apply C. reflexivity.
Qed.
