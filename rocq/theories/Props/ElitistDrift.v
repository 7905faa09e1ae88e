(** C11: near ties in an elitist run. *)
From Verif Require Import Model.Base Model.Scalar Model.Selection Model.Counters Model.Algorithm Spec.Order Spec.Drift Proofs.ElitistDrift.

(** Refuted: with an elite the best fitness never gets worse, or at least stays within some bound.
    The hypothesis of C11_elitism_monotone that the comparison tells fitnesses apart cannot be dropped: an offspring worse by a billionth
    comes before the elite and ties with it, and over the generations the minimised fitness exceeds every bound. *)
Theorem C11_near_ties_refuted : exists pipeline x,
  (forall i c p, exists o, pipeline i c p = Ok o /\ length o = length p) /\ si_fit x = NFlt true (Fin 1) /\
  forall (coin : nat -> sind -> sind -> bool) (B : Q), exists n y v gc evs,
    generational_ea (fun i => ind_lt false (coin i)) (fun i => ind_gt false (coin i)) (fun _ => ind_eq)
      (Z.of_nat n) 1 pipeline (fun _ _ _ => false) 0 [x] = Some (Ok [y], gc, evs) /\
    si_fit y = NFlt true (Fin v) /\ (B < v)%Q.
Proof. exact elitist_drift. Qed.
Print Assumptions C11_near_ties_refuted.

Example C11_near_ties_example :
  match generational_ea (fun _ => ind_lt false (fun _ _ => true)) (fun _ => ind_gt false (fun _ _ => true)) (fun _ => ind_eq)
          2 1 slipping (fun _ _ _ => false) 0 [mk_sind 0 (NFlt true (Fin 1))] with
  | Some (Ok [y], _, _) => si_id y = 2 /\ better false (NFlt true (Fin 1)) (si_fit y)
  | _ => False
  end.
Proof. vm_compute. split; reflexivity. Qed.
