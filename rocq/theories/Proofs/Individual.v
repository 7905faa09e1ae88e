From Verif Require Import Model.Base Model.Heap Model.Pipeline Spec.Heap Proofs.Heap Proofs.Grouped.
From Coq Require Import Lia.

Lemma clone_child G P F (w : world G P F) i c w' :
  sane w -> i < w_nind w -> clone w i = (c, w') ->
  w_nind w <= c /\ genes w' c = genes w i /\
  i_problem (w_ind w' c) = i_problem (w_ind w i) /\ i_decoder (w_ind w' c) = i_decoder (w_ind w i) /\
  i_fitness (w_ind w' c) = None /\ i_parents (w_ind w' c) = [i_uuid (w_ind w i)] /\
  (forall j, j < w_nind w -> i_uuid (w_ind w' c) <> i_uuid (w_ind w' j)) /\
  untouched w w' /\ sane w'.
Proof.
  intros HS Hi HC. pose proof (clone_untouched _ _ _ _ HC) as HU. pose proof (clone_sane _ _ _ _ HS Hi HC) as HS'.
  apply clone_spec in HC. destruct HC as (-> & E1 & E2 & E3 & E4 & E5 & E6 & E7 & E8 & E9 & E10 & E11 & H1 & H2).
  repeat match goal with |- _ /\ _ => split; auto end.
  intros j Hj. rewrite E10, H1 by lia. destruct (HS j Hj). lia.
Qed.

Lemma clone_isolated G P F (w : world G P F) i c w' l :
  sane w -> i < w_nind w -> clone w i = (c, w') ->
  let v := writes w' c i l in
  genes v c = last_written true l (genes w i) /\
  genes v i = last_written false l (genes w i) /\
  (forall j, w_ind v j = w_ind w' j) /\
  (forall j, j < w_nind w -> i_genome (w_ind w j) <> i_genome (w_ind w i) -> genes v j = genes w j).
Proof.
  intros HS Hi HC v. apply clone_spec in HC.
  destruct HC as (-> & E1 & E2 & E3 & E4 & E5 & E6 & E7 & E8 & E9 & E10 & E11 & H1 & H2).
  destruct (HS i Hi) as [Hg _].
  assert (Ei : w_ind w' i = w_ind w i) by (apply H1; lia).
  destruct (writes_genes l w' (w_nind w) i) as [A B].
  { rewrite E5, Ei. lia. }
  assert (Eg : genes w' i = genes w i). { unfold genes. rewrite Ei. apply H2. lia. }
  rewrite E4 in A. rewrite Eg in B. split; auto. split; auto. split.
  - intros j. apply writes_ind.
  - intros j Hj Hne. unfold v, genes. rewrite writes_ind, H1 by lia. destruct (HS j Hj) as [Hgj _].
    rewrite writes_others; [apply H2; lia|rewrite E5; lia|rewrite Ei; auto].
Qed.

Lemma evaluate_scores G P F (nan : F) decoder_of problem_of (w : world G P F) i f w' :
  evaluate nan decoder_of problem_of w i = (Ok f, w') ->
  i_fitness (w_ind w' i) = Some f /\
  f = outcome nan (score (decoder_of (i_decoder (w_ind w i))) (problem_of (i_problem (w_ind w i))) (genes w i)) /\
  genes w' i = genes w i /\ (forall j, j <> i -> w_ind w' j = w_ind w j) /\ w_arr w' = w_arr w.
Proof.
  intros H. pose proof (evaluate_spec _ _ _ _ _ _ _ H) as (E1 & _ & _ & _ & E5 & E2 & _).
  apply evaluate_ok in H. destruct H as (A & B & C). rewrite <- C.
  repeat match goal with |- _ /\ _ => split; auto end. unfold genes. congruence.
Qed.

Lemma evaluate_population_scores G P F (nan : F) decoder_of problem_of (w : world G P F) l u w' :
  evaluate_population nan decoder_of problem_of w l = (Ok u, w') ->
  w_arr w' = w_arr w /\ (forall j, ~ In j l -> w_ind w' j = w_ind w j) /\
  forall j, In j l ->
    i_fitness (w_ind w' j) =
    Some (outcome nan (score (decoder_of (i_decoder (w_ind w j))) (problem_of (i_problem (w_ind w j))) (genes w j))).
Proof. intros H. apply evaluate_population_spec in H. tauto. Qed.

Lemma grouped_scores G P F decoder_of problem_of takes_individuals chunk_size problem (w : world G P F) l :
  takes_individuals problem = true -> l <> [] -> chunk_size <> Some 0 ->
  (forall i, In i l -> i_problem (w_ind w i) = problem /\ cache_current decoder_of w i /\
     exists f, score (decoder_of (i_decoder (w_ind w i))) (problem_of (i_problem (w_ind w i))) (genes w i) = Ok f) ->
  exists w', grouped_evaluate decoder_of problem_of takes_individuals chunk_size w l = (Ok tt, w') /\
    w_arr w' = w_arr w /\ (forall j, ~ In j l -> w_ind w' j = w_ind w j) /\
    (forall j, i_genome (w_ind w' j) = i_genome (w_ind w j)) /\
    forall j f, In j l ->
      score (decoder_of (i_decoder (w_ind w j))) (problem_of (i_problem (w_ind w j))) (genes w j) = Ok f ->
      i_fitness (w_ind w' j) = Some f.
Proof. intros H1 H2 H3 H4. eapply grouped_spec; eauto. Qed.

Lemma robust_evaluation G P F (nan : F) decoder_of problem_of (w : world G P F) i r w' :
  i_robust (w_ind w i) = true ->
  evaluate nan decoder_of problem_of w i = (r, w') ->
  (exists f, r = Ok f /\ i_fitness (w_ind w' i) = Some f) /\
  (forall f, score (decoder_of (i_decoder (w_ind w i))) (problem_of (i_problem (w_ind w i))) (genes w i) = Ok f ->
     i_fitness (w_ind w' i) = Some f /\ i_viable (w_ind w' i) = Some true) /\
  (forall e, score (decoder_of (i_decoder (w_ind w i))) (problem_of (i_problem (w_ind w i))) (genes w i) = Err e ->
     i_fitness (w_ind w' i) = Some nan /\ i_viable (w_ind w' i) = Some false /\ i_exc (w_ind w' i) = Some e).
Proof.
  intros HR H. apply evaluate_spec in H. destruct H as (_ & _ & _ & _ & _ & _ & _ & _ & _ & _ & _ & H).
  rewrite HR in H.
  destruct (score (decoder_of (i_decoder (w_ind w i))) (problem_of (i_problem (w_ind w i))) (genes w i)) as [f|e].
  - destruct H as (A & B & C). split; [eauto|]. split; [|discriminate].
    intros g Eg. injection Eg as <-. auto.
  - destruct H as (A & B & C & D). split; [eauto|]. split; [discriminate|].
    intros g Eg. injection Eg as <-. auto.
Qed.

Lemma latest_attempt G P F (nan : F) earlier decoder_of problem_of (w : world G P F) i vs w' :
  i_robust (w_ind w i) = true ->
  attempts nan (earlier ++ [(decoder_of, problem_of)]) w i = (vs, w') ->
  Forall (fun v => exists f, v = Ok f) vs /\ length vs = S (length earlier) /\
  let s := score (decoder_of (i_decoder (w_ind w i))) (problem_of (i_problem (w_ind w i))) (genes w i) in
  i_fitness (w_ind w' i) = Some (outcome nan s) /\
  (i_viable (w_ind w' i) = Some true <-> exists f, s = Ok f) /\
  (i_viable (w_ind w' i) = Some false <-> exists e, s = Err e) /\
  (forall e, s = Err e -> i_exc (w_ind w' i) = Some e).
Proof.
  intros HR H. pose proof (attempts_robust nan _ _ _ _ _ HR H) as (_ & _ & _ & _ & HF).
  split; auto. split.
  { assert (L : forall envs (w : world G P F) vs w', attempts nan envs w i = (vs, w') -> length vs = length envs).
    { clear. induction envs as [|[d p] r IH]; intros w vs w' H; cbn in H.
      - injection H as <- <-. auto.
      - destruct (evaluate nan d p w i) as [v w1]. destruct (attempts nan r w1 i) as [v2 w2] eqn:E.
        injection H as <- <-. cbn. f_equal. eauto. }
    rewrite (L _ _ _ _ H), app_length. cbn. lia. }
  intros s. rewrite attempts_app in H. destruct (attempts nan earlier w i) as [v1 w1] eqn:E1.
  destruct (attempts_robust nan _ _ _ _ _ HR E1) as (R1 & R2 & R3 & R4 & _).
  cbn in H. destruct (evaluate nan decoder_of problem_of w1 i) as [v w2] eqn:E2. injection H as <- <-.
  apply robust_evaluation in E2; auto. rewrite R2, R3, R4 in E2. fold s in E2.
  destruct E2 as (_ & A & B). destruct s as [f|e].
  - destruct (A f eq_refl) as [A1 A2]. rewrite A2. cbn. split; auto. split; [split; eauto|].
    split; [split; [discriminate|intros (e & C); discriminate]|discriminate].
  - destruct (B e eq_refl) as (B1 & B2 & B3). rewrite B2. cbn. split; auto.
    split; [split; [discriminate|intros (f & C); discriminate]|]. split; [split; eauto|].
    intros g Eg. injection Eg as <-. auto.
Qed.

Lemma life_ids G P F (w : world G P F) : life w ->
  sane w /\ forall i j, i < w_nind w -> j < w_nind w -> i_uuid (w_ind w i) = i_uuid (w_ind w j) -> i = j.
Proof.
  induction 1 as [w E|w g a w' H (S & I) E|w a problem decoder robust c w' H (S & I) Ha E|w i c w' H (S & I) Hi E|w a g H (S & I)|w i f H (S & I)|w i p H (S & I)].
  - split; [intros i Hi; lia|intros i j Hi; lia].
  - unfold new_arr in E. injection E as <- <-. split; [|exact I]. intros i Hi. cbn in *. destruct (S i Hi). lia.
  - unfold create in E. injection E as <- <-. cbn.
    assert (U : forall k, k < Datatypes.S (w_nind w) -> (k = w_nind w /\ upd (w_ind w) (w_nind w) (mk_indiv a problem decoder None None (w_uuid w) [] robust None None) k = mk_indiv a problem decoder None None (w_uuid w) [] robust None None) \/
      (k < w_nind w /\ upd (w_ind w) (w_nind w) (mk_indiv a problem decoder None None (w_uuid w) [] robust None None) k = w_ind w k)).
    { intros k Hk. destruct (Nat.eq_dec k (w_nind w)) as [-> | N]; [left; rewrite upd_same; auto|right; rewrite upd_other by exact N; split; [lia|reflexivity]]. }
    split.
    + intros i Hi. cbn in *. destruct (U i Hi) as [(-> & ->) | (L & ->)]; cbn; [lia|]. destruct (S i L). lia.
    + intros i j Hi Hj. destruct (U i Hi) as [(-> & ->) | (L & ->)], (U j Hj) as [(-> & ->) | (L' & ->)]; cbn; [auto| | |apply I; assumption].
      * destruct (S j L'). lia.
      * destruct (S i L). lia.
  - split; [eapply clone_sane; eauto|]. apply clone_spec in E. destruct E as (-> & E1 & _ & E3 & _ & _ & _ & _ & _ & _ & E5 & _ & H1 & _). rewrite E1.
    intros k j Hk Hj. destruct (Nat.eq_dec k (w_nind w)) as [-> | N], (Nat.eq_dec j (w_nind w)) as [-> | N']; [auto| | |].
    + rewrite E5, (H1 j) by exact N'. destruct (S j ltac:(lia)). lia.
    + rewrite E5, (H1 k) by exact N. destruct (S k ltac:(lia)). lia.
    + rewrite (H1 j), (H1 k) by assumption. apply I; lia.
  - split; [exact S|exact I].
  - assert (U : forall k, i_uuid (w_ind (upd_ind w i (set_fitness f)) k) = i_uuid (w_ind w k) /\ i_genome (w_ind (upd_ind w i (set_fitness f)) k) = i_genome (w_ind w k)).
    { intros k. cbn. destruct (Nat.eq_dec k i) as [-> | N]; [rewrite upd_same; split; reflexivity|rewrite upd_other by exact N; split; reflexivity]. }
    split; [intros k Hk; destruct (U k) as (-> & ->); apply S; exact Hk|]. intros k j Hk Hj. destruct (U k) as (-> & _), (U j) as (-> & _). apply I; assumption.
  - assert (U : forall k, i_uuid (w_ind (upd_ind w i (set_phenome p)) k) = i_uuid (w_ind w k) /\ i_genome (w_ind (upd_ind w i (set_phenome p)) k) = i_genome (w_ind w k)).
    { intros k. cbn. destruct (Nat.eq_dec k i) as [-> | N]; [rewrite upd_same; split; reflexivity|rewrite upd_other by exact N; split; reflexivity]. }
    split; [intros k Hk; destruct (U k) as (-> & ->); apply S; exact Hk|]. intros k j Hk Hj. destruct (U k) as (-> & _), (U j) as (-> & _). apply I; assumption.
Qed.
