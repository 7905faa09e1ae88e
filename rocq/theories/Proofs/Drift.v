From Coq Require Import Lia Lqa Qpower Qabs Qminmax Qround Permutation.
From Verif Require Import Model.Base Model.PyList Model.Scalar Model.Selection Model.Counters Model.Heap Model.Pipeline Model.HeapEa
  Model.Strategies Spec.Order Spec.Selection Spec.Heap Spec.HeapEa Spec.Odds Spec.Search Spec.Strategies Spec.Drift
  Proofs.Order Proofs.PyList Proofs.ScalarSel Proofs.Algorithm Proofs.Heap Proofs.Pipeline Proofs.HeapEa Proofs.Strategies Proofs.Broods.

Lemma slip_positive g : one_positive g -> one_positive (slip g).
Proof. intros (x & -> & Hx). exists (x * (1 + (1 # 1000000000)))%Q. split; [reflexivity|]. nra. Qed.

Lemma slip_ok i s : clone_vary_evaluate (slip_stages i s) /\ Forall (stays_within one_positive) (slip_stages i s).
Proof.
  split.
  - exists [OpMutate (fun _ g => Ok (g, Some (slip g))) false]. split; [reflexivity|]. constructor; [reflexivity|constructor].
  - constructor; [exact I|]. constructor; [|constructor; [exact I|constructor]].
    intros k g ip fr Hg E. injection E as <- <-. cbn. apply slip_positive. exact Hg.
Qed.

Lemma slip_works i s : Forall (works_on one_positive) (slip_stages i s).
Proof.
  constructor; [exact I|]. constructor; [|constructor; [exact I|constructor]].
  intros k g Hg. eexists. reflexivity.
Qed.

Lemma gene_scored x l : score (identity_decoder 0) (gene_problem 0) (x :: l) = Ok (NFlt true (Fin x)).
Proof. reflexivity. Qed.

Lemma growth (e : Q) n : (0 <= e)%Q -> (1 + inject_Z (Z.of_nat n) * e <= (1 + e) ^ Z.of_nat n)%Q.
Proof.
  intros He. induction n as [|n IH].
  { change ((1 + e) ^ Z.of_nat 0)%Q with 1%Q. change (inject_Z (Z.of_nat 0)) with 0%Q. lra. }
  rewrite Nat2Z.inj_succ. unfold Z.succ. rewrite Qpower_plus by lra. change ((1 + e) ^ 1)%Q with (1 + e)%Q.
  rewrite inject_Z_plus. set (N := inject_Z (Z.of_nat n)) in *. assert (0 <= N)%Q.
  { unfold N. change 0%Q with (inject_Z 0). rewrite <- Zle_Qle. lia. }
  change (inject_Z 1) with 1%Q. set (p := ((1 + e) ^ Z.of_nat n)%Q) in *. clearbody p N. nra.
Qed.

Notation slips n := (slip_run (fun _ _ _ => true) (Z.of_nat n)).

Lemma slips_step n final w' earlier used gc' : slips n = Some (Ok (final, w', earlier, used), gc') ->
  forall j s o p q, nth_error used j = Some (s, o) -> nth_error (earlier ++ [final]) j = Some p -> nth_error (earlier ++ [final]) (S j) = Some q ->
  forall x c, p = [x] -> o = [c] -> blurred (worth w' x) (worth w' c) -> q = [c].
Proof.
  intros H.
  refine (run_made identity_decoder gene_problem one_positive 0 0 false (fun _ _ _ => true) Plus (Z.of_nat n) 1 slip_stages (fun _ _ _ _ => 0) []
    slip_ok (fun w' j _ o p q => forall x c, p = [x] -> o = [c] -> blurred (worth w' x) (worth w' c) -> q = [c]) _ _
    (fun _ => [1%Q]) 1 0%Q ex_real_world final w' earlier used gc' _ H).
  - intros i std w parents o sts w1 q stack _ _ _ Go Gp ER x c -> -> HB.
    unfold replaced in ER. rewrite (compared_good _ _ _ _ _ _ _ _ Go), (compared_good _ _ _ _ _ _ _ _ Gp) in ER.
    rewrite (worth_value _ _ _ _ _ _ _ _ Gp (or_introl eq_refl)), (worth_value _ _ _ _ _ _ _ _ Go (or_introl eq_refl)) in HB.
    cbn [map truncation_selection topk app length pymax_from] in ER.
    destruct (ind_gt _ _ _ _) eqn:Eg in ER.
    + exfalso. apply ind_gt_spec in Eg; [exact (proj2 Eg HB)|]. left. cbn. destruct HB as ((e & ->) & _). discriminate.
    + injection ER as <-. reflexivity.
  - intros w w1 j s o p q Hg Go Gp _ _ HR x c -> -> HB.
    rewrite (worth_grows _ _ _ _ _ w w1 _ x Hg Gp (or_introl eq_refl)), (worth_grows _ _ _ _ _ w w1 _ c Hg Go (or_introl eq_refl)) in HB.
    exact (HR x c eq_refl eq_refl HB).
  - intros _. exists 1%Q. split; [reflexivity|reflexivity].
Qed.

Lemma slip_blurred v : (0 < v)%Q -> blurred (NFlt true (Fin v)) (NFlt true (Fin (v * (1 + (1 # 1000000000))))).
Proof.
  intros Hv. split; [eexists; reflexivity|]. split; [eexists; reflexivity|].
  unfold within_rel. cbn [num_val]. unfold tol.
  rewrite (Qabs_neg (v - _)) by nra. rewrite (Qabs_pos (v * _)) by nra.
  eapply Qle_trans; [|apply Qmult_le_l; [reflexivity|apply Q.le_max_r]]. nra.
Qed.

Lemma slips_run n : exists final w' earlier used gc',
  slips n = Some (Ok (final, w', earlier, used), gc') /\ length earlier = n /\
  exists v0, (0 < v0)%Q /\ forall j, j <= n -> exists x v, nth_error (earlier ++ [final]) j = Some [x] /\
    genes w' x = [v] /\ i_fitness (w_ind w' x) = Some (NFlt true (Fin v)) /\ (v == v0 * (1 + (1 # 1000000000)) ^ Z.of_nat j)%Q.
Proof.
  assert (HD : forall k : nat, one_positive ((fun _ => [1%Q]) k)) by (intros _; exists 1%Q; split; reflexivity).
  destruct (strategy_works identity_decoder gene_problem one_positive 0 0 false (fun _ _ _ => true) Plus (Z.of_nat n) 1 slip_stages
    (fun _ _ _ _ => 0) [] slip_ok) with (fine := fun _ : Q => True) (initialize := fun _ : nat => [1%Q]) (pop_size := 1) (std := 0%Q) (w := ex_real_world)
    as (final & w' & earlier & used & gc' & E & L); auto.
  all: try (intros g (x & -> & _); eexists; reflexivity).
  all: try (intros i s _; apply slip_works).
  all: try (intros _ _ [|a l] _ Hl; [congruence|cbn; lia]).
  rewrite Nat2Z.id in L.
  exists final, w', earlier, used, gc'. split; [exact E|]. split; [exact L|].
  destruct (strategy_good identity_decoder gene_problem one_positive 0 0 false (fun _ _ _ => true) Plus (Z.of_nat n) 1 slip_stages
    (fun _ _ _ _ => 0) [] slip_ok _ _ _ _ _ _ _ _ _ HD E) as (A1 & A2 & A3 & _ & A5 & A6 & A7 & _).
  assert (One : forall j, j <= n -> exists x v, nth_error (earlier ++ [final]) j = Some [x] /\
    genes w' x = [v] /\ i_fitness (w_ind w' x) = Some (NFlt true (Fin v)) /\ (0 < v)%Q).
  { intros j Hj. destruct (nth_error (earlier ++ [final]) j) as [p|] eqn:Ep; [|apply nth_error_None in Ep; rewrite app_length in Ep; cbn in Ep; lia].
    assert (Hp := nth_error_In _ _ Ep). pose proof (A5 p Hp) as Lp. destruct p as [|x [|? ?]]; try discriminate.
    destruct (A6 _ (or_introl Hp)) as (_ & _ & A). destruct (A x (or_introl eq_refl)) as ((v & Ev & Hv) & _ & _ & F).
    exists x, v. rewrite Ev in F. auto. }
  destruct (One 0 ltac:(lia)) as (x0 & v0 & P0 & G0 & F0 & V0). exists v0. split; [exact V0|].
  induction j as [|j IH]; intros Hj.
  { exists x0, v0. do 3 (split; [assumption|]). change ((1 + (1 # 1000000000)) ^ Z.of_nat 0)%Q with 1%Q. ring. }
  destruct (IH ltac:(lia)) as (x & v & Px & Gx & Fx & Vx).
  destruct (One j ltac:(lia)) as (x' & v' & Px' & Gx' & _ & Hv).
  assert (x' = x) by congruence. subst x'. assert (v' = v) by congruence. subst v'.
  destruct (One (S j) Hj) as (y & vy & Py & Gy & Fy & _).
  destruct (nth_error used j) as [[s o]|] eqn:Eu; [|apply nth_error_None in Eu; lia].
  destruct (A7 j s o _ _ Eu Px Py) as (Lo & _ & _). destruct o as [|c [|? ?]]; try discriminate.
  destruct (children_each identity_decoder gene_problem one_positive 0 0 false (fun _ _ _ => true) Plus (Z.of_nat n) 1 slip_stages
    (fun _ _ _ _ => 0) [] slip_ok (fun _ _ _ g => Ok (g, Some (slip g))) (fun _ _ => eq_refl) _ _ _ _ _ _ _ _ _ HD E j s _ _ Eu Px) as [wj HC].
  destruct (HC 0 c eq_refl) as (y' & r & Ey & Er & Ec). cbn in Ey. injection Ey as <-.
  injection Er as <-. cbn [outcome_of snd fst] in Ec. rewrite Gx in Ec. cbn in Ec.
  assert (Fc : i_fitness (w_ind w' c) = Some (NFlt true (Fin (v * (1 + (1 # 1000000000)))))).
  { assert (Hc : In [c] (map snd used)) by (apply in_map_iff; exists (s, [c]); split; [reflexivity|eapply nth_error_In; eauto]).
    destruct (A6 _ (or_intror Hc)) as (_ & _ & A). destruct (A c (or_introl eq_refl)) as (_ & _ & _ & F). rewrite Ec in F. exact F. }
  assert (Hq := slips_step n _ _ _ _ _ E j s _ _ _ Eu Px Py x c eq_refl eq_refl).
  unfold worth in Hq. rewrite Fx, Fc in Hq. specialize (Hq (slip_blurred v Hv)). injection Hq as ->.
  exists c, (v * (1 + (1 # 1000000000)))%Q. split; [exact Py|]. split; [exact Ec|]. split; [exact Fc|].
  rewrite Vx, Nat2Z.inj_succ. unfold Z.succ. rewrite Qpower_plus by (intros C; discriminate C).
  change ((1 + (1 # 1000000000)) ^ 1)%Q with (1 + (1 # 1000000000))%Q. ring.
Qed.

Lemma near_ties_drift (B : Q) : exists n final w' earlier used gc',
  slips n = Some (Ok (final, w', earlier, used), gc') /\
  exists x y u v, earlier = [x] :: tl earlier /\ final = [y] /\
    i_fitness (w_ind w' x) = Some (NFlt true (Fin u)) /\ i_fitness (w_ind w' y) = Some (NFlt true (Fin v)) /\
    (0 < u)%Q /\ (B * u < v)%Q.
Proof.
  set (n := S (Z.to_nat (Z.max 0 (Qceiling (B * inject_Z 1000000000))))).
  destruct (slips_run n) as (final & w' & earlier & used & gc' & E & L & v0 & Hv & HA).
  exists n, final, w', earlier, used, gc'. split; [exact E|].
  destruct (HA 0 ltac:(lia)) as (x & u & Ex & _ & Fx & Vu). destruct (HA n ltac:(lia)) as (y & v & Ey & _ & Fy & Vv).
  exists x, y, u, v. destruct earlier as [|p l]; [discriminate|]. cbn in Ex. injection Ex as ->.
  rewrite <- L, nth_error_app2, Nat.sub_diag in Ey by lia. cbn in Ey. injection Ey as ->.
  split; [reflexivity|]. split; [reflexivity|]. split; [exact Fx|]. split; [exact Fy|].
  change ((1 + (1 # 1000000000)) ^ Z.of_nat 0)%Q with 1%Q in Vu. rewrite Vv, Vu.
  pose proof (growth (1 # 1000000000) n ltac:(discriminate)) as HG.
  set (p := ((1 + (1 # 1000000000)) ^ Z.of_nat n)%Q) in *. clearbody p.
  assert (HB : (B * inject_Z 1000000000 <= inject_Z (Z.of_nat n))%Q).
  { eapply Qle_trans; [apply Qle_ceiling|]. rewrite <- Zle_Qle. unfold n. lia. }
  set (N := inject_Z (Z.of_nat n)) in *. clearbody N. change (inject_Z 1000000000) with (1000000000 # 1)%Q in HB.
  split; [lra|]. assert (B < p)%Q by lra. nra.
Qed.

Lemma near_ties : exists (coin : nat -> sind -> sind -> bool) operators,
  (forall i s, clone_vary_evaluate (operators i s) /\ Forall (stays_within one_positive) (operators i s)) /\
  forall B : Q, exists n final w' earlier used gc',
    strategy identity_decoder gene_problem false coin (Z.of_nat n) 1 Plus operators (fun _ _ _ _ => 0) [] (fun _ => [1%Q]) 0 0 1 0 ex_real_world
      = Some (Ok (final, w', earlier, used), gc') /\
    exists x y u v, earlier = [x] :: tl earlier /\ final = [y] /\
      i_fitness (w_ind w' x) = Some (NFlt true (Fin u)) /\ i_fitness (w_ind w' y) = Some (NFlt true (Fin v)) /\
      (0 < u)%Q /\ (B * u < v)%Q.
Proof. exists (fun _ _ _ => true), slip_stages. split; [exact slip_ok|]. exact near_ties_drift. Qed.
