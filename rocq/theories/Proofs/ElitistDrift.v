(** Near ties in an elitist run (for C11). *)
From Coq Require Import Lia Lqa Qpower Qround.
From Verif Require Import Model.Base Model.PyList Model.Scalar Model.Selection Model.Counters Model.Algorithm Spec.Order Spec.Drift
  Proofs.Order Proofs.ScalarSel Proofs.Drift.

Section Run.
Variables (max : Z) (coin : nat -> sind -> sind -> bool).
Notation loop := (gen_loop (fun i => ind_lt false (coin i)) (fun i => ind_gt false (coin i)) (fun _ => ind_eq) max 1 slipping (fun _ _ _ => false)).

Lemma slipping_survivor i id v : (0 < v)%Q ->
  fst (elitist_survival (ind_lt false (coin i)) (ind_gt false (coin i)) ind_eq [slipped (mk_sind id (NFlt true (Fin v)))] [mk_sind id (NFlt true (Fin v))] 1)
  = [slipped (mk_sind id (NFlt true (Fin v)))].
Proof.
  intros Hv. unfold elitist_survival. cbn [topk pymax_from length app fst].
  destruct (ind_gt _ _ _ _) eqn:E; [|reflexivity]. exfalso. apply ind_gt_spec in E.
  - apply (proj2 E). apply slip_blurred. exact Hv.
  - left. cbn. discriminate.
Qed.

Lemma loop_slips fuel : forall i gc id v, (0 < v)%Q -> gc_curr gc = gc_ctx gc -> (max - gc_curr gc)%Z = Z.of_nat fuel ->
  exists y u gc' evs, loop fuel i gc [mk_sind id (NFlt true (Fin v))] = Some (Ok [mk_sind y (NFlt true (Fin u))], gc', evs) /\
    (u == v * (1 + (1 # 1000000000)) ^ Z.of_nat fuel)%Q.
Proof.
  induction fuel as [|fuel IH]; intros i gc id v Hv Hc Hf; cbn [gen_loop]; unfold gc_generation.
  - replace (gc_curr gc <? max)%Z with false by (symmetry; apply Z.ltb_ge; lia). exists id, v, gc, []. split; [reflexivity|].
    change ((1 + (1 # 1000000000)) ^ Z.of_nat 0)%Q with 1%Q. ring.
  - replace (gc_curr gc <? max)%Z with true by (symmetry; apply Z.ltb_lt; lia). cbn [slipping map].
    rewrite slipping_survivor by exact Hv.
    destruct (IH (S i) (snd (gc_increment [] gc)) (S id) (v * (1 + (1 # 1000000000)))%Q) as (y & u & gc' & evs & E & U).
    + nra.
    + reflexivity.
    + cbn [gc_increment snd gc_curr]. lia.
    + change (slipped (mk_sind id (NFlt true (Fin v)))) with (mk_sind (S id) (NFlt true (Fin (v * (1 + (1 # 1000000000)))))). rewrite E. eexists y, u, gc', _. split; [reflexivity|].
      rewrite U, Nat2Z.inj_succ. unfold Z.succ.
      assert (EP : ((1 + (1 # 1000000000)) ^ (Z.of_nat fuel + 1) == (1 + (1 # 1000000000)) ^ Z.of_nat fuel * (1 + (1 # 1000000000)))%Q)
        by (rewrite Qpower_plus by (intros C; discriminate C); reflexivity).
      rewrite EP. ring.
Qed.
End Run.

Lemma elitist_drift : exists pipeline x,
  (forall i c p, exists o, pipeline i c p = Ok o /\ length o = length p) /\ si_fit x = NFlt true (Fin 1) /\
  forall (coin : nat -> sind -> sind -> bool) (B : Q), exists n y v gc evs,
    generational_ea (fun i => ind_lt false (coin i)) (fun i => ind_gt false (coin i)) (fun _ => ind_eq)
      (Z.of_nat n) 1 pipeline (fun _ _ _ => false) 0 [x] = Some (Ok [y], gc, evs) /\
    si_fit y = NFlt true (Fin v) /\ (B < v)%Q.
Proof.
  exists slipping, (mk_sind 0 (NFlt true (Fin 1))). split; [|split; [reflexivity|]].
  { intros i c p. eexists. split; [reflexivity|]. apply map_length. }
  intros coin B. set (n := S (Z.to_nat (Z.max 0 (Qceiling (B * inject_Z 1000000000))))).
  destruct (loop_slips (Z.of_nat n) coin n 0 (inc_generation 0) 0 1%Q) as (y & v & gc & evs & E & V); [reflexivity|reflexivity|cbn; lia|].
  exists n, (mk_sind y (NFlt true (Fin v))), v, gc, evs. split; [|split; [reflexivity|]].
  { unfold generational_ea. rewrite Z.sub_0_r, Nat2Z.id. exact E. }
  rewrite V. pose proof (growth (1 # 1000000000) n ltac:(discriminate)) as HG.
  set (p := ((1 + (1 # 1000000000)) ^ Z.of_nat n)%Q) in *. clearbody p.
  assert (HB : (B * inject_Z 1000000000 <= inject_Z (Z.of_nat n))%Q).
  { eapply Qle_trans; [apply Qle_ceiling|]. rewrite <- Zle_Qle. unfold n. lia. }
  set (N := inject_Z (Z.of_nat n)) in *. clearbody N. change (inject_Z 1000000000) with (1000000000 # 1)%Q in HB. lra.
Qed.
