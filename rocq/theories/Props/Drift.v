(** C117: near ties between a parent and its child. *)
From Verif Require Import Model.Base Model.Scalar Model.Counters Model.Heap Model.Pipeline Model.Strategies
  Spec.Order Spec.Heap Spec.HeapEa Spec.Strategies Spec.Drift Proofs.Drift.

(** Refuted: a (1+1) run is never worse at the end than at the start, or at least not by more than some fixed factor.
    [max] keeps the child of a tie, and the comparison calls fitnesses a tie that differ by a billionth;
    a lineage in which every child is worse by a billionth is followed to the end, so the minimised fitness outgrows every multiple of the initial one. *)
Theorem C117_plus_near_ties_refuted : exists (coin : nat -> sind -> sind -> bool) operators,
  (forall i s, clone_vary_evaluate (operators i s) /\ Forall (stays_within one_positive) (operators i s)) /\
  forall B : Q, exists n final w' earlier used gc',
    strategy identity_decoder gene_problem false coin (Z.of_nat n) 1 Plus operators (fun _ _ _ _ => 0) [] (fun _ => [1%Q]) 0 0 1 0 ex_real_world
      = Some (Ok (final, w', earlier, used), gc') /\
    exists x y u v, earlier = [x] :: tl earlier /\ final = [y] /\
      i_fitness (w_ind w' x) = Some (NFlt true (Fin u)) /\ i_fitness (w_ind w' y) = Some (NFlt true (Fin v)) /\
      (0 < u)%Q /\ (B * u < v)%Q.
Proof. exact near_ties. Qed.
Print Assumptions C117_plus_near_ties_refuted.

(** three generations: the parents are individuals 0, 1, 2, 3, each worse than the one before *)
Example C117_near_ties_example :
  match slip_run (fun _ _ _ => true) 3 with
  | Some (Ok (final, w', earlier, _), _) =>
      earlier ++ [final] = [[0]; [1]; [2]; [3]] /\
      (worth w' 0, worth w' 1) = (NFlt true (Fin 1), NFlt true (Fin (1000000001 # 1000000000))) /\
      better false (worth w' 2) (worth w' 3)
  | _ => False
  end.
Proof. vm_compute. repeat split; reflexivity. Qed.
