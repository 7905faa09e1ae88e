(** C11: what near ties can cost an elitist run with a population of one. *)
From Verif Require Import Model.Base Model.Scalar Model.Selection Model.Counters Model.Algorithm Spec.Order Spec.Algorithm Spec.Drift Spec.Losses Proofs.ElitistLosses.

(** whatever the ties: n generations lose no more than the factor (1 - tol)^n *)
Theorem C11_one_member_losses :
  forall mx (coin : nat -> sind -> sind -> bool) max k pipeline stop,
  1 <= k ->
  (forall i c x o, positive_float (si_fit x) -> pipeline i c [x] = Ok o -> exists y, o = [y] /\ positive_float (si_fit y)) ->
  forall start x v final gc' evs, si_fit x = NFlt true (Fin v) -> (0 < v)%Q ->
  generational_ea (fun i => ind_lt mx (coin i)) (fun i => ind_gt mx (coin i)) (fun _ => ind_eq) max k pipeline stop start [x]
    = Some (Ok final, gc', evs) ->
  exists y t, final = [y] /\ si_fit y = NFlt true (Fin t) /\ (0 < t)%Q /\ little_lost mx (length (bred_from evs)) v t.
Proof. exact elitist_losses. Qed.
Print Assumptions C11_one_member_losses.

(** the drifting run: two generations lose more than one may *)
Example C11_one_member_example :
  (forall i c x o, positive_float (si_fit x) -> slipping i c [x] = Ok o -> exists y, o = [y] /\ positive_float (si_fit y)) /\
  match generational_ea (fun _ => ind_lt false (fun _ _ => true)) (fun _ => ind_gt false (fun _ _ => true)) (fun _ => ind_eq)
          2 1 slipping (fun _ _ _ => false) 0 [mk_sind 0 (NFlt true (Fin 1))] with
  | Some (Ok [y], _, evs) => length (bred_from evs) = 2 /\
      match si_fit y with NFlt _ (Fin t) => little_lost false 2 1 t /\ ~ little_lost false 1 1 t | _ => False end
  | _ => False
  end.
Proof.
  split.
  - intros i c x o (v & Fx & Hv) E. injection E as <-. exists (slipped x). split; [reflexivity|]. unfold slipped. cbn [si_fit]. rewrite Fx.
    exists (v * (1 + (1 # 1000000000)))%Q. split; [reflexivity|]. apply Qmult_lt_0_compat; [exact Hv|reflexivity].
  - vm_compute. split; [reflexivity|]. split; [discriminate|]. intros C. apply C. reflexivity.
Qed.
