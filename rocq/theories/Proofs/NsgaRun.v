From Coq Require Import Permutation Sorted Lia Lqa.
From Verif Require Import Model.Base Model.Pareto Model.Crowding Spec.Order Spec.Selection Spec.Pareto Spec.Crowding Spec.NsgaRun
  Proofs.Pareto Proofs.ParetoProps Proofs.RankOrdinal Proofs.Crowding Proofs.Nsga2 Proofs.CrowdingProps.
From Verif Require Proofs.Algorithm.
Local Open Scope nat_scope.
Local Open Scope list_scope.

Section Pool.
Variables (mx : list bool) (parents offspring : list mo) (a : attrs).
Hypothesis Hmx : mx <> [].
Let pool := offspring ++ parents.
Hypothesis good : good_pool mx pool.

Lemma pool_finite : finite_pool mx pool.
Proof. split; [exact (gp_ids _ _ good)|]. intros x Hx. destruct (gp_full _ _ good x Hx) as [L F]. split; [exact L|exact F]. Qed.
Lemma pool_len x : In x pool -> length (o_fit x) = length mx.
Proof. intros H. apply (gp_full _ _ good x H). Qed.

(** everything known about one generation *)
Lemma generation : exists next a' lost,
  nsga2_survival mx parents offspring a = Ok (next, a') /\
  let rank := fun x => at_rank a' (o_id x) in
  let dist := fun x => at_dist a' (o_id x) in
  front_numbers (beats_in mx) pool rank /\
  (forall x, In x pool -> crowding fval (length mx) (same_rank (at_rank a') pool (rank x)) dist) /\
  length next = length parents /\ Permutation pool (next ++ lost) /\
  forall x y, In x next -> In y lost -> ~ crowded_better rank dist ext_lt y x.
Proof.
  destruct (survival_ok mx parents offspring a Hmx (gp_some _ _ good) pool_finite) as (next & a' & crowded & dropped & E & FN & C & P & D1 & D2 & B).
  fold pool in FN, C, P, D1, D2, B.
  assert (dropped = []).
  { destruct dropped as [|x dr]; [reflexivity|]. exfalso.
    assert (Hx : In x pool) by (apply (Permutation_in _ (Permutation_sym P)), in_or_app; right; left; reflexivity).
    destruct (gp_varied _ _ good _ FN x Hx) as (y & z & k & Hy & Hz & Hk & Ey & Ez & Hv).
    apply (D2 x (or_introl eq_refl) k Hk). exists y, z. rewrite !in_same_rank. auto. }
  subst dropped. rewrite app_nil_r in P.
  assert (B' := best_selection_perm _ _ _ _ _ (Permutation_sym P) B). destruct B' as (L & _ & lost & Pl & Dl).
  exists next, a', lost. split; [exact E|]. split; [exact FN|]. split; [exact C|]. split; [|split; [exact Pl|exact Dl]].
  rewrite L. unfold pool. rewrite app_length. lia.
Qed.

Variables (next lost : list mo) (a' : attrs).
Let rank := fun x => at_rank a' (o_id x).
Let dist := fun x => at_dist a' (o_id x).
Hypothesis FN : front_numbers (beats_in mx) pool rank.
Hypothesis C : forall x, In x pool -> crowding fval (length mx) (same_rank (at_rank a') pool (rank x)) dist.
Hypothesis L : length next = length parents.
Hypothesis P : Permutation pool (next ++ lost).
Hypothesis D : forall x y, In x next -> In y lost -> ~ crowded_better rank dist ext_lt y x.

Lemma next_in x : In x next -> In x pool.
Proof. intros H. apply (Permutation_in _ (Permutation_sym P)), in_or_app. auto. Qed.
Lemma lost_in x : In x lost -> In x pool.
Proof. intros H. apply (Permutation_in _ (Permutation_sym P)), in_or_app. auto. Qed.
Lemma split_pool x : In x pool -> In x next \/ In x lost.
Proof. intros H. apply in_app_or. exact (Permutation_in _ P H). Qed.
Lemma parts_nodup : NoDup (next ++ lost).
Proof. apply (Permutation_NoDup P). exact (NoDup_map_inv _ _ (gp_ids _ _ good)). Qed.
Lemma with_lost x : In x lost -> NoDup (x :: next).
Proof.
  pose proof parts_nodup as N. intros H. revert N H. clear. induction next as [|y n IH]; intros N H.
  - constructor; [intros []|constructor].
  - cbn in N. inversion N as [|? ? N1 N2]; subst. specialize (IH N2 H). inversion IH as [|? ? I1 I2]; subst.
    constructor; [intros [->|K]; [apply N1, in_or_app; right; exact H|exact (I1 K)]|].
    constructor; [intros K; apply N1, in_or_app; left; exact K|exact I2].
Qed.

Lemma rank_one x : In x pool -> (rank x = 1 <-> undominated mx pool x).
Proof.
  intros Hx. unfold undominated. destruct (FN x Hx) as (G & F & E). split.
  - intros R. split; [exact Hx|]. intros z Hz K. specialize (F z Hz K). destruct (FN z Hz) as [Gz _]. lia.
  - intros [_ H]. destruct E as [E|(y & Hy & K & _)]; [exact E|]. destruct (H y Hy K).
Qed.
(** every member of the pool is in the first front or dominated by a member of it *)
Lemma under_front x : In x pool -> exists t, undominated mx pool t /\ (t = x \/ beats_in mx t x).
Proof.
  remember (rank x) as r eqn:E. revert x E. induction r as [r IH] using lt_wf_ind. intros x E Hx.
  destruct (FN x Hx) as (_ & _ & [R|(y & Hy & K & R)]).
  - exists x. split; [apply rank_one; assumption|left; reflexivity].
  - destruct (IH (rank y)) with (x := y) as (t & U & T); [lia|reflexivity|exact Hy|]. exists t. split; [exact U|]. right.
    destruct T as [->|T]; [exact K|]. unfold beats_in in *. apply (dominates_trans mx _ (o_fit y)); auto; apply pool_len; assumption.
Qed.

(** ** A front that fits is kept *)
Lemma front_kept : front_fits mx (length parents) pool -> forall x, undominated mx pool x -> In x next.
Proof.
  intros F x U. destruct (split_pool x (proj1 U)) as [H|H]; [exact H|]. exfalso.
  assert (K : length (x :: next) <= length parents).
  { apply F; [apply with_lost, H|]. intros y [<-|Hy]; [exact U|]. apply rank_one; [apply next_in, Hy|].
    pose proof (proj2 (rank_one x (proj1 U)) U) as Rx. destruct (FN y (next_in y Hy)) as [G _].
    destruct (Nat.eq_dec (rank y) 1) as [R|R]; [exact R|]. destruct (D y x Hy H). left. lia. }
  cbn [length] in K. lia.
Qed.

(** ** The extremes are kept *)
Lemma mo_eq_dec (x y : mo) : {x = y} + {x <> y}.
Proof.
  assert (Q_dec : forall p q : Q, {p = q} + {p <> q}) by (decide equality; [apply Pos.eq_dec|apply Z.eq_dec]).
  assert (E_dec : forall e f : ext, {e = f} + {e <> f}) by (decide equality).
  assert (N_dec : forall e f : num, {e = f} + {e <> f}) by (decide equality; [apply Z.eq_dec|apply Bool.bool_dec]).
  decide equality; [apply (list_eq_dec N_dec)|apply Nat.eq_dec].
Qed.
Lemma at_end_hd_last (s : list mo) x : at_end s x <-> s <> [] /\ (x = hd x s \/ x = last s x).
Proof.
  unfold at_end. split.
  - intros (r & [->| ->]); (split; [destruct r; discriminate|]); [left; reflexivity|right; rewrite last_last; reflexivity].
  - intros [N H]. destruct s as [|y s]; [contradiction|]. destruct H as [H|H]; [cbn in H; subst y; exists s; auto|].
    destruct (@exists_last _ (y :: s)) as (r & z & E); [discriminate|]. exists r. right. rewrite E in H |- *. rewrite last_last in H. subst z. reflexivity.
Qed.
Lemma at_end_dec (s : list mo) x : at_end s x \/ ~ at_end s x.
Proof.
  rewrite at_end_hd_last. destruct s as [|y s]; [right; intros [[] _]; reflexivity|].
  destruct (mo_eq_dec x (hd x (y :: s))) as [E|E]; [left; split; [discriminate|auto]|].
  destruct (mo_eq_dec x (last (y :: s) x)) as [F|F]; [left; split; [discriminate|auto]|]. right. intros [_ [H|H]]; contradiction.
Qed.
Lemma varies_dec k (l : list mo) : varies fval k l \/ forall x y, In x l -> In y l -> (fval k x == fval k y)%Q.
Proof.
  induction l as [|z l IH]; [right; intros ? ? []|]. destruct IH as [(x & y & Hx & Hy & N)|IH].
  - left. exists x, y. split; [right; exact Hx|]. split; [right; exact Hy|exact N].
  - assert (K : (exists y, In y l /\ ~ (fval k z == fval k y)%Q) \/ forall y, In y l -> (fval k z == fval k y)%Q).
    { clear IH. induction l as [|y l IH]; [right; intros ? []|]. destruct (Qeq_dec (fval k z) (fval k y)) as [E|E].
      - destruct IH as [(y' & H & N)|IH]; [left; exists y'; split; [right; exact H|exact N]|]. right. intros w [<-|H]; auto.
      - left. exists y. split; [left; reflexivity|exact E]. }
    destruct K as [(y & H & N)|K]; [left; exists z, y; split; [left; reflexivity|]; split; [right; exact H|exact N]|].
    right. intros x y [<-|Hx] [<-|Hy]; [reflexivity|auto|symmetry; auto|auto].
Qed.
Lemma ends_dec m (l : list mo) (arr : nat -> list mo) x :
  (exists k, k < m /\ varies fval k l /\ at_end (arr k) x) \/ (forall k, k < m -> varies fval k l -> ~ at_end (arr k) x).
Proof.
  induction m as [|m IH]; [right; intros; lia|]. destruct IH as [(k & Hk & V & A)|IH]; [left; exists k; split; [lia|auto]|].
  destruct (varies_dec m l) as [V|V].
  - destruct (at_end_dec (arr m) x) as [A|A]; [left; exists m; split; [lia|auto]|]. right. intros k Hk Vk.
    destruct (Nat.eq_dec k m) as [->|N]; [exact A|]. apply IH; [lia|exact Vk].
  - right. intros k Hk Vk. destruct (Nat.eq_dec k m) as [->|N]; [|apply IH; [lia|exact Vk]].
    destruct Vk as (y & z & Hy & Hz & K). destruct (K (V y z Hy Hz)).
Qed.

Lemma as_good_values k y x : In x pool -> In y pool -> k < length mx ->
  as_good_at mx k y x <-> if nth k mx true then (fval k x <= fval k y)%Q else (fval k y <= fval k x)%Q.
Proof.
  intros Hx Hy Hk. destruct (gp_full _ _ good x Hx) as [_ Fx]. destruct (gp_full _ _ good y Hy) as [_ Fy].
  destruct (Fx k Hk) as [p Ep]. destruct (Fy k Hk) as [q Eq]. unfold as_good_at, as_good, fval, fit_at. rewrite Ep, Eq.
  unfold ext_le, ext_lt. destruct (nth k mx true); split; intros H; lra.
Qed.
Lemma sorted_best (s : list mo) (R : mo -> mo -> Prop) x : (forall z, R z z) -> StronglySorted R s -> In x s ->
  exists first lst, at_end s first /\ at_end s lst /\ In first s /\ In lst s /\ R first x /\ R x lst.
Proof.
  intros Rr S' Hx. destruct s as [|f s]; [destruct Hx|]. destruct (@exists_last _ (f :: s)) as (r & z & E); [discriminate|].
  exists f, z. split; [exists s; auto|]. split; [exists r; auto|]. split; [left; reflexivity|].
  split; [rewrite E; apply in_or_app; right; left; reflexivity|]. split.
  - destruct Hx as [<-|Hx]; [apply Rr|]. inversion S'; subst. rewrite Forall_forall in H2. auto.
  - rewrite E in S', Hx. clear -Rr S' Hx. induction r as [|y r IH]; cbn in *.
    + destruct Hx as [<-|[]]. apply Rr.
    + inversion S'; subst. destruct Hx as [<-|Hx]; [|auto]. rewrite Forall_forall in H2. apply H2, in_or_app. right. left. reflexivity.
Qed.

(** a lost member at infinite distance would leave more than two ends for some objective *)
Lemma infinite_kept e : In e pool -> rank e = 1 -> dist e = Some PInf -> 2 * length mx <= length parents -> In e next.
Proof.
  intros He Re De N. destruct (split_pool e He) as [H|H]; [exact H|]. exfalso.
  pose proof (C e He) as Ce. rewrite Re in Ce. set (front := same_rank (at_rank a') pool 1) in *.
  destruct Ce as (arr & Harr & Hd).
  assert (In_front : forall x, In x (e :: next) -> In x front /\ dist x = Some PInf).
  { intros x [<-|Hx]; [split; [apply in_same_rank; auto|exact De]|]. pose proof (next_in x Hx) as Hp. destruct (FN x Hp) as [G _].
    assert (Rx : rank x = 1).
    { destruct (Nat.eq_dec (rank x) 1) as [R|R]; [exact R|]. destruct (D x e Hx H). left. lia. }
    assert (Fx : In x front) by (apply in_same_rank; auto). split; [exact Fx|].
    destruct (Hd x Fx) as [I1 I2]. destruct (ends_dec (length mx) front arr x) as [K|K]; [exact (I1 K)|].
    destruct (I2 K) as (q & c & E & _). destruct (D x e Hx H). right. split; [lia|]. rewrite De, E. exact I. }
  assert (Ends : incl (e :: next) (flat_map (fun k => [hd e (arr k); last (arr k) e]) (seq 0 (length mx)))).
  { intros x Hx. destruct (In_front x Hx) as [Fx Dx]. destruct (Hd x Fx) as [_ I2].
    destruct (ends_dec (length mx) front arr x) as [(k & Hk & V & A)|K].
    - apply in_flat_map. exists k. split; [apply in_seq; lia|]. apply at_end_hd_last in A. destruct A as [Ne A].
      destruct (arr k) as [|y s]; [contradiction|]. destruct A as [A|A]; [left; symmetry; exact A|right; left].
      rewrite A. destruct (@exists_last _ (y :: s)) as (r & z & E); [discriminate|]. rewrite E, !last_last. reflexivity.
    - destruct (I2 K) as (q & c & E & _). rewrite E in Dx. discriminate. }
  pose proof (NoDup_incl_length (with_lost e H) Ends) as K. cbn [length] in K.
  assert (Len : forall n s, length (flat_map (fun k => [hd e (arr k); last (arr k) e]) (seq s n)) = 2 * n).
  { induction n as [|n IH]; intros s; [reflexivity|]. cbn [seq flat_map]. rewrite app_length, IH. cbn. lia. }
  rewrite Len in K. lia.
Qed.

Lemma beats_as_good k t x : In x pool -> In t pool -> k < length mx -> t = x \/ beats_in mx t x -> as_good_at mx k t x.
Proof.
  intros Hx Ht Hk [->|B].
  - apply as_good_values; [assumption..|]. destruct (nth k mx true); apply Qle_refl.
  - destruct B as [B _]. unfold as_good_at. apply (B k); apply nth_error_nth'; [exact Hk|rewrite pool_len; assumption..].
Qed.
Lemma good_at_trans k u t x : In x pool -> In t pool -> In u pool -> k < length mx -> as_good_at mx k u t -> as_good_at mx k t x -> as_good_at mx k u x.
Proof.
  intros Hx Ht Hu Hk. rewrite !as_good_values by assumption. destruct (nth k mx true); intros; lra.
Qed.
Lemma extreme_kept : 2 * length mx <= length parents -> forall k x, k < length mx -> In x pool -> exists y, In y next /\ as_good_at mx k y x.
Proof.
  intros N k x Hk Hx. destruct (under_front x Hx) as (t & U & T).
  pose proof (proj2 (rank_one t (proj1 U)) U) as Rt. pose proof (C t (proj1 U)) as Ct. rewrite Rt in Ct.
  pose proof (beats_as_good k t x Hx (proj1 U) Hk T) as Gt.
  assert (Tf : In t (same_rank (at_rank a') pool 1)) by (apply in_same_rank; split; [apply U|exact Rt]).
  destruct Ct as (arr & Harr & Hd). destruct (varies_dec k (same_rank (at_rank a') pool 1)) as [V|V].
  - destruct (Harr k Hk V) as [Pk So].
    assert (Ts : In t (arr k)) by (apply (Permutation_in _ Pk), Tf).
    assert (E : exists e, at_end (arr k) e /\ In e (arr k) /\ if nth k mx true then (fval k t <= fval k e)%Q else (fval k e <= fval k t)%Q).
    { destruct So as [So|So].
      - destruct (sorted_best (arr k) _ t (fun z => Qle_refl _) So Ts) as (f & l & A1 & A2 & I1 & I2 & R1 & R2).
        destruct (nth k mx true); [exists l|exists f]; auto.
      - destruct (sorted_best (arr k) _ t (fun z => Qle_refl _) So Ts) as (f & l & A1 & A2 & I1 & I2 & R1 & R2).
        destruct (nth k mx true); [exists f|exists l]; auto. }
    destruct E as (e & A & Ie & G). apply (Permutation_in _ (Permutation_sym Pk)) in Ie. pose proof Ie as If. apply in_same_rank in Ie. destruct Ie as [Ip Re].
    exists e. split.
    + apply infinite_kept; [exact Ip|exact Re| |exact N]. apply (Hd e If). exists k. auto.
    + apply (good_at_trans k e t x); auto; [apply U|]. apply as_good_values; auto. apply U.
  - destruct (split_pool t (proj1 U)) as [H|H]; [exists t; auto|].
    assert (N0 : exists y, In y next).
    { destruct next as [|y n]; [|exists y; left; reflexivity]. cbn in L. destruct mx; [contradiction|cbn in N; lia]. }
    destruct N0 as [y Hy]. exists y. split; [exact Hy|]. pose proof (next_in y Hy) as Py.
    assert (Ry : rank y = 1).
    { destruct (FN y Py) as [G _]. destruct (Nat.eq_dec (rank y) 1) as [R|R]; [exact R|]. destruct (D y t Hy H). left. lia. }
    assert (Yf : In y (same_rank (at_rank a') pool 1)) by (apply in_same_rank; auto).
    apply (good_at_trans k y t x); auto; [apply U|]. apply as_good_values; auto; [apply U|].
    pose proof (V y t Yf Tf) as Q1. destruct (nth k mx true); lra.
Qed.
End Pool.

(** ** One generation, and a run *)
Lemma generation_facts mx parents offspring a next a' : mx <> [] -> good_pool mx (offspring ++ parents) ->
  nsga2_survival mx parents offspring a = Ok (next, a') ->
  incl next (offspring ++ parents) /\ length next = length parents /\
  (front_fits mx (length parents) (offspring ++ parents) -> forall x, In x (offspring ++ parents) -> exists t, In t next /\ (t = x \/ beats_in mx t x)) /\
  (2 * length mx <= length parents -> forall k x, k < length mx -> In x (offspring ++ parents) -> exists y, In y next /\ as_good_at mx k y x).
Proof.
  intros Hmx G E. destruct (generation mx parents offspring a Hmx G) as (n & b & lost & E' & FN & C & L & P & D).
  rewrite E in E'. injection E' as <- <-. split; [intros x Hx; exact (next_in parents offspring next lost P x Hx)|]. split; [exact L|]. split.
  - intros F x Hx. destruct (under_front mx parents offspring G next a' FN L x Hx) as (t & U & T). exists t. split; [|exact T].
    exact (front_kept mx parents offspring G next lost a' FN L P D F t U).
  - intros N k x Hk Hx. exact (extreme_kept mx parents offspring Hmx G next lost a' FN C L P D N k x Hk Hx).
Qed.

Lemma objectives_subset pop : forall mx k so d, incl so pop -> incl (fst (crowd_objectives k mx pop so d)) pop.
Proof.
  induction mx as [|mk mx IH]; intros k so d H; cbn [crowd_objectives fst]; [exact H|].
  destruct (veq _ _); [apply IH, H|]. apply IH. unfold sort_objective.
  destruct mk; intros x Hx; exact (Permutation_in _ (Permutation_sym (sort_asc_perm _ _)) Hx).
Qed.
Lemma ranks_subset mx rank pop : forall rs d, incl (fst (crowd_ranks mx rank pop rs d)) pop.
Proof.
  induction rs as [|r rs IH]; intros d; cbn [crowd_ranks]; [intros x []|].
  pose proof (objectives_subset (filter (fun x => rank (o_id x) =? r) pop) mx 0 []
    (fold_left (fun d x => set_at d (o_id x) (Some (Fin 0%Q))) (filter (fun x => rank (o_id x) =? r) pop) d)) as H.
  unfold per_rank_crowding_calc. destruct (crowd_objectives _ _ _ _ _) as [out d1]. specialize (IH d1). destruct (crowd_ranks mx rank pop rs d1) as [outs d2].
  cbn [fst] in *. intros x Hx. apply in_app_or in Hx. destruct Hx as [Hx|Hx]; [|apply IH, Hx].
  apply H in Hx; [|intros ? []]. apply filter_In in Hx. apply Hx.
Qed.
Lemma survival_subset mx parents offspring a next a' : nsga2_survival mx parents offspring a = Ok (next, a') -> incl next (offspring ++ parents).
Proof.
  unfold nsga2_survival, rank_ordinal_sort. destruct (offspring ++ parents) as [|x0 pool0]; [discriminate|]. set (pool := x0 :: pool0).
  cbn [bind]. match goal with |- context [crowding_distance_calc mx ?r pool ?d] => set (rk := r); set (dd := d) end.
  unfold crowding_distance_calc. change (match pool with [] => Err IndexError | _ :: _ => Ok (crowd_ranks mx rk pool (first_ranks rk pool []) dd) end)
    with (Ok (crowd_ranks mx rk pool (first_ranks rk pool []) dd)).
  pose proof (ranks_subset mx rk pool (first_ranks rk pool []) dd) as H. destruct (crowd_ranks _ _ _ _ _) as [out d]. cbn [bind fst] in *.
  intros [= <- _]. unfold Selection.truncation_selection. intros x Hx. apply H. exact (Verif.Proofs.Algorithm.topk_in out _ _ _ _ _ x Hx).
Qed.

Section Run.
Variables (mx : list bool) (pipeline : nat -> list mo -> list mo) (stop : nat -> list mo -> bool).
Hypothesis Hmx : mx <> [].

Definition sound (h : list (list mo * list mo)) : Prop := Forall (fun s => good_pool mx (pool_of s)) h.

Lemma run_journey left : forall g parents a final a', nsga2_loop mx pipeline stop left g parents a = Ok (final, a') ->
  exists h, journey pipeline g parents h final /\ length h <= left /\ (length h = left \/ stop (g + length h) final = true) /\
    (sound h ->
       length final = length parents /\
       (Forall (fun s => front_fits mx (length parents) (pool_of s)) h -> forall x, In x (everyone parents h) -> exists t, In t final /\ (t = x \/ beats_in mx t x)) /\
       (2 * length mx <= length parents -> forall k x, k < length mx -> In x (everyone parents h) -> exists y, In y final /\ (y = x \/ as_good_at mx k y x))).
Proof.
  induction left as [|left IH]; intros g parents a final a' H; cbn [nsga2_loop] in H.
  - injection H as <- _. exists []. split; [reflexivity|]. split; [cbn; lia|]. split; [left; reflexivity|]. intros _. split; [reflexivity|].
    unfold everyone. cbn [map concat]. rewrite app_nil_r. split; intros; eexists; eauto.
  - destruct (stop g parents) eqn:S'.
    + injection H as <- _. exists []. split; [reflexivity|]. split; [cbn; lia|]. split; [right; cbn; rewrite Nat.add_0_r; exact S'|]. intros _. split; [reflexivity|].
      unfold everyone. cbn [map concat]. rewrite app_nil_r. split; intros; eexists; eauto.
    + destruct (nsga2_survival mx parents (pipeline g parents) a) as [[next a1]|e] eqn:E; [|discriminate]. cbn [bind] in H.
      destruct (IH (S g) next a1 final a' H) as (h & J & Lh & St & K). exists ((parents, pipeline g parents) :: h).
      split; [cbn [journey]; split; [reflexivity|]; split; [reflexivity|]; exists next; split; [exact (survival_subset _ _ _ _ _ _ E)|exact J]|].
      split; [cbn; lia|]. split; [destruct St as [St|St]; [left; cbn; lia|right; cbn [length]; rewrite Nat.add_succ_r; exact St]|].
      intros Sd. pose proof (Forall_inv Sd) as G. cbn in G. destruct (generation_facts mx parents (pipeline g parents) a next a1 Hmx G E) as (I & L & F1 & F2).
      destruct (K (Forall_inv_tail Sd)) as (K0 & K1 & K2). rewrite L in K0, K1, K2. split; [exact K0|].
      assert (Cases : forall x, In x (everyone parents ((parents, pipeline g parents) :: h)) -> In x (pipeline g parents ++ parents) \/ In x (everyone next h)).
      { intros x Hx. unfold everyone in *. cbn [map concat snd] in Hx. rewrite !in_app_iff in *. tauto. }
      assert (Len : forall x, In x (pipeline g parents ++ parents) -> length (o_fit x) = length mx) by (intros x Hx; apply (gp_full _ _ G x Hx)).
      split.
      * intros Ft x Hx. destruct (Cases x Hx) as [Hp|He]; [|exact (K1 (Forall_inv_tail Ft) x He)].
        destruct (F1 (Forall_inv Ft) x Hp) as (t & Ht & T). destruct (K1 (Forall_inv_tail Ft) t) as (u & Hu & U); [apply in_or_app; left; exact Ht|].
        exists u. split; [exact Hu|]. destruct U as [->|U]; [exact T|]. destruct T as [->|T]; [right; exact U|]. right.
        unfold beats_in in *. apply (dominates_trans mx _ (o_fit t)); auto.
      * intros N k x Hk Hx. destruct (Cases x Hx) as [Hp|He]; [|exact (K2 N k x Hk He)].
        destruct (F2 N k x Hk Hp) as (y & Hy & T). destruct (K2 N k y Hk) as (u & Hu & U); [apply in_or_app; left; exact Hy|].
        exists u. split; [exact Hu|]. right. destruct U as [->|U]; [exact T|]. exact (as_good_trans _ _ _ _ U T).
Qed.

Lemma journey_subset h : forall g parents final, journey pipeline g parents h final -> incl final (everyone parents h).
Proof.
  induction h as [|[ps os] h IH]; intros g parents final; cbn [journey].
  - intros ->. unfold everyone. cbn. rewrite app_nil_r. apply incl_refl.
  - intros (-> & -> & next & I & J). intros x Hx. apply (IH _ _ _ J) in Hx. unfold everyone in *. cbn [map concat snd].
    apply in_app_or in Hx. rewrite !in_app_iff. destruct Hx as [Hx|Hx]; [apply I, in_app_or in Hx|]; tauto.
Qed.
Lemma everyone_length h : forall g parents final, h <> [] -> journey pipeline g parents h final -> sound h ->
  forall x, In x (everyone parents h) -> length (o_fit x) = length mx.
Proof.
  induction h as [|[ps os] h IH]; intros g parents final Ne; [contradiction|]. cbn [journey]. intros (-> & -> & next & I & J) Sd x Hx.
  unfold everyone in Hx. cbn [map concat snd] in Hx. pose proof (Forall_inv Sd) as G. cbn in G.
  assert (P : In x (pipeline g parents ++ parents) -> length (o_fit x) = length mx) by (intros H; apply (gp_full _ _ G x H)).
  rewrite !in_app_iff in Hx. rewrite in_app_iff in P. destruct Hx as [Hx|[Hx|Hx]]; [tauto|tauto|].
  destruct h as [|s h]; [destruct Hx|]. apply (IH _ _ _ ltac:(discriminate) J (Forall_inv_tail Sd)). apply in_or_app. right. exact Hx.
Qed.
(** with transitivity: the first front of the final population is the Pareto front of everyone *)
Lemma front_of_run h g parents final : journey pipeline g parents h final -> sound h ->
  (forall x, In x (everyone parents h) -> exists t, In t final /\ (t = x \/ beats_in mx t x)) ->
  forall x, undominated mx (everyone parents h) x <-> undominated mx final x.
Proof.
  intros J Sd K x. pose proof (journey_subset h g parents final J) as I. split.
  - intros [Hx U]. split; [|intros z Hz; apply U, I, Hz]. destruct (K x Hx) as (t & Ht & [->|B]); [exact Ht|]. destruct (U t (I t Ht) B).
  - intros [Hx U]. split; [apply I, Hx|]. intros z Hz B. destruct (K z Hz) as (t & Ht & [->|B']); [exact (U z Ht B)|].
    destruct h as [|s h]; [cbn [journey] in J; subst; unfold everyone in Hz; cbn in Hz; rewrite app_nil_r in Hz; exact (U z Hz B)|].
    assert (Len := everyone_length (s :: h) g parents final ltac:(discriminate) J Sd).
    apply (U t Ht). unfold beats_in in *. apply (dominates_trans mx _ (o_fit z)); auto.
Qed.

Theorem nsga_run left g parents a final a' : nsga2_loop mx pipeline stop left g parents a = Ok (final, a') ->
  exists h, journey pipeline g parents h final /\ length h <= left /\ (length h = left \/ stop (g + length h) final = true) /\
    (Forall (fun s => good_pool mx (pool_of s)) h ->
       length final = length parents /\
       (Forall (fun s => front_fits mx (length parents) (pool_of s)) h ->
          forall x, undominated mx (everyone parents h) x <-> undominated mx final x) /\
       (2 * length mx <= length parents -> forall k x, k < length mx -> In x (everyone parents h) ->
          exists y, In y final /\ (y = x \/ as_good_at mx k y x))).
Proof.
  intros H. destruct (run_journey left g parents a final a' H) as (h & J & Lh & St & K). exists h. split; [exact J|]. split; [exact Lh|]. split; [exact St|].
  intros Sd. destruct (K Sd) as (K0 & K1 & K2). split; [exact K0|]. split; [|exact K2]. intros F. exact (front_of_run h g parents final J Sd (K1 F)).
Qed.

Lemma run_raises left : forall g parents a e, nsga2_loop mx pipeline stop left g parents a = Err e ->
  exists h current, journey pipeline g parents h current /\ length h < left /\ ~ good_pool mx (pipeline (g + length h) current ++ current).
Proof.
  induction left as [|left IH]; intros g parents a e H; cbn [nsga2_loop] in H; [discriminate|].
  destruct (stop g parents); [discriminate|]. destruct (nsga2_survival mx parents (pipeline g parents) a) as [[next a1]|e'] eqn:E; cbn [bind] in H.
  - destruct (IH (S g) next a1 e H) as (h & cur & J & L & B). exists ((parents, pipeline g parents) :: h), cur. split.
    + split; [reflexivity|]. split; [reflexivity|]. exists next. split; [exact (survival_subset _ _ _ _ _ _ E)|exact J].
    + cbn [length]. rewrite Nat.add_succ_r. split; [lia|exact B].
  - exists [], parents. split; [reflexivity|]. split; [cbn; lia|]. cbn [length]. rewrite Nat.add_0_r. intros G.
    destruct (generation mx parents (pipeline g parents) a Hmx G) as (n & b & l & E' & _). congruence.
Qed.
End Run.

(** ** Checking concrete pools *)
Section Check.
Variables (mx : list bool) (pool : list mo).
Definition fn_b (r : mo -> nat) : bool :=
  forallb (fun x => (1 <=? r x) && forallb (fun y => negb (mo_gt mx y x) || (r y <? r x)) pool
                    && ((r x =? 1) || existsb (fun y => mo_gt mx y x && (r x =? S (r y))) pool)) pool.
Lemma fn_b_ok r : fn_b r = true -> front_numbers (beats_in mx) pool r.
Proof.
  unfold fn_b. rewrite forallb_forall. intros H x Hx. specialize (H x Hx). rewrite !andb_true_iff in H. destruct H as [[H1 H2] H3].
  apply Nat.leb_le in H1. rewrite forallb_forall in H2. split; [exact H1|]. split.
  - intros y Hy B. specialize (H2 y Hy). apply orb_prop in H2. destruct H2 as [H2|H2]; [|apply Nat.ltb_lt; exact H2].
    apply negb_true_iff in H2. unfold beats_in in B. apply mo_gt_spec in B. congruence.
  - apply orb_prop in H3. destruct H3 as [H3|H3]; [left; apply Nat.eqb_eq, H3|]. right. apply existsb_exists in H3. destruct H3 as (y & Hy & H3).
    apply andb_prop in H3. destruct H3 as [B E]. exists y. split; [exact Hy|]. split; [apply mo_gt_spec, B|apply Nat.eqb_eq, E].
Qed.
Definition varied_b (r : mo -> nat) : bool :=
  forallb (fun x => existsb (fun y => existsb (fun z => existsb (fun k =>
     (r y =? r x) && (r z =? r x) && negb (Qeq_bool (value_at k y) (value_at k z))) (seq 0 (length mx))) pool) pool) pool.
Definition full_b : bool :=
  forallb (fun x => (length (o_fit x) =? length mx) &&
     forallb (fun k => match num_val (nth k (o_fit x) NNan) with Some (Fin _) => true | _ => false end) (seq 0 (length mx))) pool.
Lemma good_by r : pool <> [] -> NoDup (map o_id pool) -> full_b = true -> fn_b r = true -> varied_b r = true -> good_pool mx pool.
Proof.
  intros N D F R V. apply fn_b_ok in R. split; [exact N|exact D| |].
  - intros x Hx. unfold full_b in F. rewrite forallb_forall in F. specialize (F x Hx). apply andb_prop in F. destruct F as [F1 F2].
    split; [apply Nat.eqb_eq, F1|]. intros k Hk. rewrite forallb_forall in F2. specialize (F2 k (proj2 (in_seq _ _ _) (conj (Nat.le_0_l k) Hk))).
    destruct (num_val _) as [[|q|]|]; try discriminate. eauto.
  - intros r' R' x Hx. unfold varied_b in V. rewrite forallb_forall in V. specialize (V x Hx).
    apply existsb_exists in V. destruct V as (y & Hy & V). apply existsb_exists in V. destruct V as (z & Hz & V).
    apply existsb_exists in V. destruct V as (k & Hk & V). apply andb_prop in V. destruct V as [V1 V2]. apply andb_prop in V1. destruct V1 as [V0 V1].
    apply Nat.eqb_eq in V0, V1. apply in_seq in Hk. destruct (@front_numbers_determined mo (beats_in mx) pool r' r R') as [_ U]. specialize (U R).
    exists y, z, k. split; [exact Hy|]. split; [exact Hz|]. split; [lia|]. rewrite (U x Hx), (U y Hy), (U z Hz). split; [exact V0|]. split; [exact V1|].
    intros E. apply Qeq_bool_iff in E. rewrite E in V2. discriminate.
Qed.
Lemma fits_by n : length (filter (fun x => forallb (fun z => negb (mo_gt mx z x)) pool) pool) <= n -> front_fits mx n pool.
Proof.
  intros H l N U. apply Nat.le_trans with (2 := H). apply NoDup_incl_length; [exact N|]. intros x Hx. destruct (U x Hx) as [I K].
  apply filter_In. split; [exact I|]. apply forallb_forall. intros z Hz. apply negb_true_iff. destruct (mo_gt mx z x) eqn:E; [|reflexivity].
  apply mo_gt_spec in E. destruct (K z Hz E).
Qed.
End Check.
Definition by_id (l : list nat) (x : mo) : nat := nth (o_id x) l 0.
Ltac nodup_ids := vm_compute; repeat constructor; cbn; intuition discriminate.


Definition lossy_middle : list mo := [pt 0 0 100; pt 3 100 0; pt 1 40 60; pt 2 60 40].
Definition lossy_history := [(lossy_parents, [pt 4 50 50]); (lossy_middle, [pt 5 55 50; pt 6 59 (-10)])].
Ltac members := intros x Hx; cbn in Hx; repeat (destruct Hx as [<-|Hx]; [cbn; tauto|]); destruct Hx.
Lemma lossy : exists mx pipeline parents a final a' h, nsga2_loop mx pipeline (fun _ _ => false) 2 0 parents a = Ok (final, a') /\
  journey pipeline 0 parents h final /\ length h = 2 /\ Forall (fun s => good_pool mx (pool_of s)) h /\ 2 * length mx <= length parents /\
  exists x y, In x (everyone parents h) /\ ~ In x final /\ In y final /\ beats_in mx x y.
Proof.
  destruct (nsga2_loop [false; false] lossy_pipeline (fun _ _ => false) 2 0 lossy_parents blank) as [[final a']|] eqn:E; [|vm_compute in E; discriminate].
  exists [false; false], lossy_pipeline, lossy_parents, blank, final, a', lossy_history.
  assert (Ef : final = [pt 0 0 100; pt 6 59 (-10); pt 1 40 60; pt 5 55 50]) by (vm_compute in E; injection E as <- _; reflexivity).
  split; [exact E|]. clear E. subst final. split; [|split; [reflexivity|split; [|split; [cbn; lia|]]]].
  - split; [reflexivity|]. split; [reflexivity|]. exists lossy_middle. split; [members|]. split; [reflexivity|]. split; [reflexivity|].
    eexists. split; [|reflexivity]. members.
  - constructor; [|constructor; [|constructor]].
    + apply (good_by _ _ (by_id [1; 1; 1; 1; 1])); [discriminate|nodup_ids|reflexivity..].
    + apply (good_by _ _ (by_id [1; 1; 2; 2; 0; 1; 1])); [discriminate|nodup_ids|reflexivity..].
  - exists (pt 4 50 50), (pt 5 55 50). split; [cbn; tauto|]. split; [cbn; intuition discriminate|]. split; [cbn; tauto|].
    apply mo_gt_spec. reflexivity.
Qed.
Lemma single : exists mx pipeline parents a final a' h, nsga2_loop mx pipeline (fun _ _ => false) 1 0 parents a = Ok (final, a') /\
  journey pipeline 0 parents h final /\ length h = 1 /\ Forall (fun s => good_pool mx (pool_of s)) h /\ length parents = 1 /\
  exists k x, k < length mx /\ In x (everyone parents h) /\ forall y, In y final -> y <> x /\ ~ as_good_at mx k y x.
Proof.
  destruct (nsga2_loop [false; false] single_pipeline (fun _ _ => false) 1 0 [pt 0 0 1] blank) as [[final a']|] eqn:E; [|vm_compute in E; discriminate].
  exists [false; false], single_pipeline, [pt 0 0 1], blank, final, a', [([pt 0 0 1], [pt 1 1 0])].
  assert (Ef : final = [pt 0 0 1]) by (vm_compute in E; injection E as <- _; reflexivity).
  split; [exact E|]. clear E. subst final. split; [|split; [reflexivity|split; [|split; [reflexivity|]]]].
  - split; [reflexivity|]. split; [reflexivity|]. eexists. split; [|reflexivity]. members.
  - constructor; [|constructor]. apply (good_by _ _ (by_id [1; 1])); [discriminate|nodup_ids|reflexivity..].
  - exists 1, (pt 1 1 0). split; [cbn; lia|]. split; [cbn; tauto|]. intros y [<-|[]]. split; [discriminate|].
    unfold as_good_at, as_good, ext_le. cbn. unfold Qlt. cbn. lia.
Qed.
Definition steady_middle : list mo := [pt 0 0 100; pt 3 100 0; pt 4 30 30; pt 1 40 60].
Definition steady_history := [(steady_parents, [pt 4 30 30; pt 5 70 70; pt 6 75 65]); (steady_middle, [pt 7 0 90; pt 8 10 80])].
Lemma steady : exists a', nsga2_loop [false; false] steady_pipeline (fun _ _ => false) 2 0 steady_parents blank = Ok ([pt 7 0 90; pt 3 100 0; pt 4 30 30; pt 8 10 80], a') /\
  exists h, journey steady_pipeline 0 steady_parents h [pt 7 0 90; pt 3 100 0; pt 4 30 30; pt 8 10 80] /\ length h = 2 /\
    Forall (fun s => good_pool [false; false] (pool_of s)) h /\ Forall (fun s => front_fits [false; false] 4 (pool_of s)) h.
Proof.
  destruct (nsga2_loop [false; false] steady_pipeline (fun _ _ => false) 2 0 steady_parents blank) as [[final a']|] eqn:E; [|vm_compute in E; discriminate].
  exists a'. split; [vm_compute in E; injection E as <- _; reflexivity|]. clear E. exists steady_history. split; [|split; [reflexivity|split]].
  - split; [reflexivity|]. split; [reflexivity|]. exists steady_middle. split; [members|]. split; [reflexivity|]. split; [reflexivity|].
    eexists. split; [|reflexivity]. members.
  - constructor; [|constructor; [|constructor]].
    + apply (good_by _ _ (by_id [1; 2; 2; 1; 1; 3; 3])); [discriminate|nodup_ids|reflexivity..].
    + apply (good_by _ _ (by_id [2; 2; 0; 1; 1; 0; 0; 1; 1])); [discriminate|nodup_ids|reflexivity..].
  - constructor; [|constructor; [|constructor]]; apply fits_by; vm_compute; lia.
Qed.
