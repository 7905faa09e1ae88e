(** What near ties can cost an elitist run with a population of one (for C11). *)
From Coq Require Import Lia Lqa.
From Verif Require Import Model.Base Model.PyList Model.Scalar Model.Selection Model.Counters Model.Algorithm Spec.Order Spec.Algorithm Spec.Losses
  Proofs.Order Proofs.PyList Proofs.ScalarSel Proofs.Losses.

Section Run.
Variables (mx : bool) (coin : nat -> sind -> sind -> bool) (max : Z) (k : nat) (pipeline : nat -> Z -> list sind -> result (list sind))
  (stop : nat -> Z -> list sind -> bool).
Hypothesis Hk : 1 <= k.
Hypothesis one : forall i c x o, positive_float (si_fit x) -> pipeline i c [x] = Ok o -> exists y, o = [y] /\ positive_float (si_fit y).

Lemma survivor i c x : exists m, (m = c \/ m = x) /\
  fst (elitist_survival (ind_lt mx (coin i)) (ind_gt mx (coin i)) ind_eq [c] [x] k) = [m] /\
  (better mx (si_fit x) (si_fit m) -> within_rel tol (si_fit x) (si_fit m)).
Proof.
  unfold elitist_survival.
  assert (E : topk (ind_lt mx (coin i)) (ind_gt mx (coin i)) ind_eq true k [x] = [x]).
  { destruct k as [|[|n]]; [lia|reflexivity|reflexivity]. }
  rewrite E. cbn [length app topk fst]. exists (pymax_from (ind_gt mx (coin i)) c [x]). split; [|split; [reflexivity|]].
  - cbn. destruct (ind_gt _ _ _ _); auto.
  - exact (pymax_from_almost mx (coin i) [x] c [] (fun y H => match H with end) x (or_intror (or_introl eq_refl))).
Qed.

Lemma loop_losses fuel : forall i gc x v r gc' evs, si_fit x = NFlt true (Fin v) -> (0 < v)%Q ->
  gen_loop (fun i => ind_lt mx (coin i)) (fun i => ind_gt mx (coin i)) (fun _ => ind_eq) max k pipeline stop fuel i gc [x] = Some (r, gc', evs) ->
  forall final, r = Ok final -> forall n u, little_lost mx n u v ->
  exists y t, final = [y] /\ si_fit y = NFlt true (Fin t) /\ (0 < t)%Q /\ little_lost mx (n + length (bred_from evs)) u t.
Proof.
  induction fuel as [|fuel IH]; intros i gc x v r gc' evs Fx Hv H final Hr n u HL; cbn [gen_loop] in H;
    (destruct (Z.ltb _ _); [destruct (stop _ _ _)|]); try discriminate.
  1,2,3,5: assert (E1 : r = Ok [x]) by congruence; assert (E2 : bred_from evs = []) by (injection H as E3 E4 E5; rewrite <- E5; reflexivity);
    exists x, v; rewrite E2, Nat.add_0_r; split; [congruence|auto].
  destruct (pipeline _ _ _) as [o|e] eqn:EP; [|exfalso; congruence].
  destruct (one i (gc_ctx gc) x o) as (c & -> & (vc & Fc & Hc)); [exists v; split; assumption|exact EP|].
  destruct (survivor i c x) as (m & Hm & Em & HB). rewrite Em in H.
  destruct (gen_loop _ _ _ _ _ _ _ fuel _ _ _) as [[[r1 gc1] evs1]|] eqn:EL; [|discriminate].
  assert (EE : r1 = r /\ evs = [EvStop (gc_ctx gc) [x]; EvPipe (gc_ctx gc) [x]] ++ evs1) by (injection H as E3 E4 E5; split; [exact E3|rewrite <- E5; reflexivity]).
  destruct EE as [-> ->].
  assert (Vm : exists vm, si_fit m = NFlt true (Fin vm) /\ (0 < vm)%Q) by (destruct Hm as [-> | ->]; eauto).
  destruct Vm as (vm & Fm & Hvm).
  destruct (IH _ _ m vm r gc1 evs1 Fm Hvm EL final Hr (S n) u) as (y & t & A & B & C & F).
  { apply lost_step with v; auto. rewrite <- Fx, <- Fm. exact HB. }
  exists y, t. split; [exact A|]. split; [exact B|]. split; [exact C|].
  replace (n + length (bred_from ([EvStop (gc_ctx gc) [x]; EvPipe (gc_ctx gc) [x]] ++ evs1))) with (S n + length (bred_from evs1)); [exact F|].
  change (bred_from ([EvStop (gc_ctx gc) [x]; EvPipe (gc_ctx gc) [x]] ++ evs1)) with ([x] :: bred_from evs1). cbn [length]. lia.
Qed.

Lemma elitist_losses start x v final gc' evs : si_fit x = NFlt true (Fin v) -> (0 < v)%Q ->
  generational_ea (fun i => ind_lt mx (coin i)) (fun i => ind_gt mx (coin i)) (fun _ => ind_eq) max k pipeline stop start [x] = Some (Ok final, gc', evs) ->
  exists y t, final = [y] /\ si_fit y = NFlt true (Fin t) /\ (0 < t)%Q /\ little_lost mx (length (bred_from evs)) v t.
Proof.
  intros Fx Hv H. exact (loop_losses _ _ _ x v _ _ _ Fx Hv H final eq_refl 0 v (lost_0 mx v)).
Qed.
End Run.
