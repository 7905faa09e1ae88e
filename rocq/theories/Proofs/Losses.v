(** Runs with one parent: what near ties can cost (for C117). *)
From Coq Require Import Lia Lqa Qpower Qabs Qminmax Permutation.
From Verif Require Import Model.Base Model.PyList Model.Scalar Model.Selection Model.Counters Model.Heap Model.Pipeline Model.HeapEa
  Model.Strategies Spec.Order Spec.Selection Spec.Heap Spec.HeapEa Spec.Odds Spec.Search Spec.Strategies Spec.Losses
  Proofs.Order Proofs.PyList Proofs.ScalarSel Proofs.Algorithm Proofs.Heap Proofs.Pipeline Proofs.HeapEa Proofs.Strategies Proofs.Broods.

Section One.
Context {G P : Type}.
Variables (decoder_of : nat -> option (list G -> result P)) (problem_of : nat -> phen_value G P -> result num).
Variable D : list G -> Prop.
Variables (problem decoder : nat) (maximize : bool) (coin : nat -> sind -> sind -> bool).
Variables (max_generation : Z) (brood : nat) (operators : nat -> Q -> list (op G))
  (pick : nat -> world G P num -> list nat -> nat -> nat) (callbacks : list (Z -> Q -> Q)).
Hypothesis Hops : forall i s, clone_vary_evaluate (operators i s) /\ Forall (stays_within D) (operators i s).
Notation strategy initialize pop_size std w :=
  (strategy decoder_of problem_of maximize coin max_generation brood Plus operators pick callbacks
     initialize problem decoder pop_size std w).

Lemma one_each initialize pop_size std w : (forall k, D (initialize k)) ->
  each_generation (strategy initialize pop_size std w) (fun w' j o p q => length p = 1 -> hardly_better maximize w' o p q).
Proof.
  intros HD final w' earlier used gc' H.
  refine (run_made decoder_of problem_of D problem decoder maximize coin Plus max_generation brood operators pick callbacks Hops
    (fun w' j _ o p q => length p = 1 -> hardly_better maximize w' o p q) _ _ initialize pop_size std w final w' earlier used gc' HD H).
  - intros i s w0 p o sts w1 q stack _ _ _ Go Gp ER Lp x y Hx Hy.
    unfold replaced in ER. rewrite (compared_good _ _ _ _ _ _ _ _ Go), (compared_good _ _ _ _ _ _ _ _ Gp) in ER.
    set (val := fun i => mk_sind i (outcome NNan (score (decoder_of decoder) (problem_of problem) (genes w1 i)))) in ER.
    assert (W : forall z, In z (o ++ p) -> worth w1 z = si_fit (val z)).
    { intros z Hz. apply in_app_or in Hz. destruct Hz as [Hz|Hz]; [exact (worth_value _ _ _ _ _ _ _ _ Go Hz)|exact (worth_value _ _ _ _ _ _ _ _ Gp Hz)]. }
    assert (ER' : map si_id (truncation_selection (ind_lt maximize (coin i)) (ind_gt maximize (coin i)) ind_eq (map val o) (length p) (Some (map val p))) = q)
      by (injection ER; auto).
    clear ER. unfold truncation_selection in ER'. rewrite Lp, <- map_app in ER'. cbn [topk] in ER'.
    destruct (o ++ p) as [|c l] eqn:Eop; [contradiction|]. cbn [map] in ER'. subst q. destruct Hy as [<-|[]].
    set (m := pymax_from (ind_gt maximize (coin i)) (val c) (map val l)).
    assert (Hm : In m (map val (c :: l))) by apply pymax_from_in.
    apply in_map_iff in Hm. destruct Hm as (z & Ez & Hz). assert (Ei : si_id m = z) by (rewrite <- Ez; reflexivity).
    rewrite Ei, (W x Hx), (W z Hz), Ez.
    exact (pymax_from_almost maximize (coin i) (map val l) (val c) [] (fun y H => match H with end) (val x) (in_map val _ _ Hx)).
  - clear H HD w final w' earlier used gc'. intros w w1 j s o p q Hg Go Gp _ Hq H Lp x y Hx Hy.
    assert (V : forall x, In x (o ++ p) -> worth w1 x = worth w x).
    { intros z Hz. apply in_app_or in Hz. destruct Hz as [Hz|Hz];
        [exact (worth_grows _ _ _ _ _ w w1 o z Hg Go Hz)|exact (worth_grows _ _ _ _ _ w w1 p z Hg Gp Hz)]. }
    rewrite (V x Hx), (V y (Hq y Hy)). exact (H Lp x y Hx Hy).
Qed.

Lemma lost_0 mx u : little_lost mx 0 u u.
Proof. unfold little_lost. change ((1 - tol) ^ Z.of_nat 0)%Q with 1%Q. destruct mx; lra. Qed.

Lemma lost_step mx k u v v' : little_lost mx k u v -> (0 < v)%Q -> (0 < v')%Q ->
  (better mx (NFlt true (Fin v)) (NFlt true (Fin v')) -> within_rel tol (NFlt true (Fin v)) (NFlt true (Fin v'))) ->
  little_lost mx (S k) u v'.
Proof.
  unfold little_lost. intros H Hv Hv' HB. rewrite Nat2Z.inj_succ. unfold Z.succ.
  assert (EP : ((1 - tol) ^ (Z.of_nat k + 1) == (1 - tol) ^ Z.of_nat k * (1 - tol))%Q) by (rewrite Qpower_plus by (intros C; discriminate C); reflexivity).
  set (r1 := ((1 - tol) ^ (Z.of_nat k + 1))%Q) in *. clearbody r1.
  set (r := ((1 - tol) ^ Z.of_nat k)%Q) in *.
  assert (Hr : (0 < r)%Q).
  { unfold r. clear. induction k as [|k IH]; [reflexivity|]. rewrite Nat2Z.inj_succ. unfold Z.succ.
    setoid_replace ((1 - tol) ^ (Z.of_nat k + 1))%Q with ((1 - tol) ^ Z.of_nat k * (1 - tol))%Q by (rewrite Qpower_plus by (intros C; discriminate C); reflexivity).
    apply Qmult_lt_0_compat; [exact IH|reflexivity]. }
  clearbody r. unfold better, within_rel in HB. cbn [num_val] in HB.
  rewrite (Qabs_pos v), (Qabs_pos v') in HB by lra.
  assert (T : (0 < tol /\ tol < 1)%Q) by (split; reflexivity). destruct T as [T1 T2].
  set (t := tol) in *. clearbody t.
  destruct mx; cbn [ext_lt] in HB.
  - assert (HV : ((1 - t) * v <= v')%Q).
    { destruct (Qlt_le_dec v' v) as [L|L]; [|nra]. specialize (HB L).
      rewrite Qabs_pos in HB by lra. rewrite Q.max_l in HB by lra. lra. }
    rewrite EP. nra.
  - assert (HV : ((1 - t) * v' <= v)%Q).
    { destruct (Qlt_le_dec v v') as [L|L]; [|nra]. specialize (HB L).
      rewrite Qabs_neg in HB by lra. rewrite Q.max_r in HB by lra. lra. }
    apply Qle_trans with (r * v)%Q; [|exact H]. rewrite EP, <- Qmult_assoc. apply Qmult_le_l; assumption.
Qed.

Hypothesis positive : forall g, D g -> exists v, score (decoder_of decoder) (problem_of problem) g = Ok (NFlt true (Fin v)) /\ (0 < v)%Q.

Lemma losses initialize std w final w' earlier used gc' : (forall k, D (initialize k)) ->
  strategy initialize 1 std w = Some (Ok (final, w', earlier, used), gc') ->
  forall k j s o p q x y, nth_error used j = Some (s, o) -> nth_error (earlier ++ [final]) j = Some p ->
  nth_error (earlier ++ [final]) (j + S k) = Some q -> In x (o ++ p) -> In y q ->
  exists u v, worth w' x = NFlt true (Fin u) /\ worth w' y = NFlt true (Fin v) /\ (0 < u)%Q /\ (0 < v)%Q /\ little_lost maximize (S k) u v.
Proof.
  intros HD H.
  destruct (strategy_good decoder_of problem_of D problem decoder maximize coin Plus max_generation brood operators pick callbacks Hops
    _ _ _ _ _ _ _ _ _ HD H) as (A1 & _ & _ & _ & A5 & A6 & A7 & _).
  assert (HV : forall l z, In l (earlier ++ [final]) \/ In l (map snd used) -> In z l -> exists v, worth w' z = NFlt true (Fin v) /\ (0 < v)%Q).
  { intros l z Hl Hz. destruct (A6 l Hl) as (_ & _ & A). destruct (A z Hz) as (Hd & _ & _ & F).
    destruct (positive _ Hd) as (v & Es & Hv). exists v. unfold worth. rewrite F, Es. split; [reflexivity|exact Hv]. }
  assert (HE := one_each initialize 1 std w HD final w' earlier used gc' H).
  assert (first : forall j s o p q x y, nth_error used j = Some (s, o) -> nth_error (earlier ++ [final]) j = Some p ->
    nth_error (earlier ++ [final]) (S j) = Some q -> In x (o ++ p) -> In y q ->
    forall k t u, worth w' x = NFlt true (Fin u) -> little_lost maximize k t u ->
    exists v, worth w' y = NFlt true (Fin v) /\ (0 < u)%Q /\ (0 < v)%Q /\ little_lost maximize (S k) t v).
  { intros j s o p q x y Eu Ep Eq Hx Hy k t u Wx Hl.
    destruct (HV q y (or_introl (nth_error_In _ _ Eq)) Hy) as (v & Wy & Hv). exists v. split; [exact Wy|].
    assert (Hu : (0 < u)%Q).
    { apply in_app_or in Hx. assert (Ho : In o (map snd used)) by (apply in_map_iff; exists (s, o); split; [reflexivity|eapply nth_error_In; eauto]).
      destruct Hx as [Hx|Hx].
      - destruct (HV o x (or_intror Ho) Hx) as (u' & W' & Hu'). assert (u' = u) by congruence. subst. exact Hu'.
      - destruct (HV p x (or_introl (nth_error_In _ _ Ep)) Hx) as (u' & W' & Hu'). assert (u' = u) by congruence. subst. exact Hu'. }
    split; [exact Hu|]. split; [exact Hv|]. apply lost_step with u; auto.
    rewrite <- Wx, <- Wy. exact (HE j s o p q Eu Ep Eq (A5 p (nth_error_In _ _ Ep)) x y Hx Hy). }
  induction k as [|k IH]; intros j s o p q x y Eu Ep Eq Hx Hy.
  - rewrite Nat.add_1_r in Eq.
    assert (Hu : exists u, worth w' x = NFlt true (Fin u)).
    { apply in_app_or in Hx. assert (Ho : In o (map snd used)) by (apply in_map_iff; exists (s, o); split; [reflexivity|eapply nth_error_In; eauto]).
      destruct Hx as [Hx|Hx].
      - destruct (HV o x (or_intror Ho) Hx) as (u' & W' & _). eauto.
      - destruct (HV p x (or_introl (nth_error_In _ _ Ep)) Hx) as (u' & W' & _). eauto. }
    destruct Hu as [u Wx]. destruct (first j s o p q x y Eu Ep Eq Hx Hy 0 u u Wx (lost_0 _ _)) as (v & Wy & Hu & Hv & HL).
    exists u, v. auto.
  - assert (Hlt : j + S k < length used).
    { apply nth_error_Some_lt in Eq. rewrite app_length in Eq. cbn [length] in Eq. lia. }
    destruct (nth_error used (j + S k)) as [[s2 o2]|] eqn:Eu2; [|apply nth_error_None in Eu2; lia].
    destruct (nth_error (earlier ++ [final]) (j + S k)) as [p2|] eqn:Ep2; [|apply nth_error_None in Ep2; rewrite app_length in Ep2; lia].
    pose proof (A5 p2 (nth_error_In _ _ Ep2)) as L2. destruct p2 as [|z l2]; [discriminate|].
    destruct (IH j s o p _ x z Eu Ep Ep2 Hx (or_introl eq_refl)) as (u & v & Wx & Wz & Hu & Hv & HL).
    replace (j + S (S k)) with (S (j + S k)) in Eq by lia.
    assert (Hz : In z (o2 ++ z :: l2)) by (apply in_or_app; right; left; reflexivity).
    destruct (first _ s2 o2 _ q z y Eu2 Ep2 Eq Hz Hy (S k) u v Wz HL) as (v2 & Wy & _ & Hv2 & HL2).
    exists u, v2. auto.
Qed.
End One.
