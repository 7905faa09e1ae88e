From Verif Require Import Model.Base Model.Heap Model.Pipeline Spec.Heap.
From Coq Require Import Lia Permutation.

Lemma upd_same {A} (f : nat -> A) k v : upd f k v k = v.
Proof. unfold upd. rewrite Nat.eqb_refl. auto. Qed.
Lemma upd_other {A} (f : nat -> A) k v n : n <> k -> upd f k v n = f n.
Proof. intros H. unfold upd. destruct (Nat.eqb_spec n k); congruence. Qed.

Ltac upds := repeat (match goal with
  | |- context [upd ?f ?k ?v ?k] => rewrite (upd_same f k v)
  | |- context [upd ?f ?k ?v ?n] => rewrite (upd_other f k v n) by (auto; lia)
  end; cbn).

Local Arguments union : simpl never.

Section Heap.
Context {G P F : Type}.
Variable nan : F.
Variable decoder_of : nat -> option (list G -> result P).
Variable problem_of : nat -> phen_value G P -> result F.
Implicit Types w : world G P F.

Notation evaluate := (evaluate nan decoder_of problem_of).
Notation score_of w i := (score (decoder_of (i_decoder (w_ind w i))) (problem_of (i_problem (w_ind w i))) (genes w i)).

(** ** clone *)
Lemma clone_spec w i c w' : clone w i = (c, w') ->
  c = w_nind w /\ w_nind w' = S (w_nind w) /\ w_narr w' = S (w_narr w) /\ w_uuid w' = S (w_uuid w) /\
  genes w' c = genes w i /\ i_genome (w_ind w' c) = w_narr w /\
  i_problem (w_ind w' c) = i_problem (w_ind w i) /\ i_decoder (w_ind w' c) = i_decoder (w_ind w i) /\
  i_robust (w_ind w' c) = i_robust (w_ind w i) /\
  i_fitness (w_ind w' c) = None /\ i_uuid (w_ind w' c) = w_uuid w /\
  i_parents (w_ind w' c) = [i_uuid (w_ind w i)] /\
  (forall j, j <> c -> w_ind w' j = w_ind w j) /\ (forall a, a <> w_narr w -> w_arr w' a = w_arr w a).
Proof.
  unfold clone, new_arr. cbn. intros H. injection H as <- <-. unfold genes. cbn.
  rewrite !upd_same. cbn. rewrite ?upd_same.
  repeat match goal with |- _ /\ _ => split; auto end; intros; apply upd_other; auto.
Qed.

Lemma clone_untouched w i c w' : clone w i = (c, w') -> untouched w w'.
Proof.
  intros H. apply clone_spec in H. destruct H as (-> & _ & _ & _ & _ & _ & _ & _ & _ & _ & _ & _ & H1 & H2).
  split; intros; [apply H1|apply H2]; lia.
Qed.

Lemma clone_sane w i c w' : sane w -> i < w_nind w -> clone w i = (c, w') -> sane w'.
Proof.
  intros HS Hi H. apply clone_spec in H.
  destruct H as (-> & E1 & E2 & E3 & _ & E4 & _ & _ & _ & _ & E5 & _ & H1 & H2).
  intros j Hj. rewrite E1 in Hj. rewrite E2, E3.
  destruct (Nat.eq_dec j (w_nind w)) as [->|Hne].
  - rewrite E4, E5. lia.
  - rewrite H1 by auto. destruct (HS j); lia.
Qed.

Lemma writes_ind l : forall w i j k, w_ind (writes w i j l) k = w_ind w k.
Proof. induction l as [|[b g] l IH]; intros; cbn [writes]; auto. rewrite IH. auto. Qed.

Lemma writes_genes l : forall w i j, i_genome (w_ind w i) <> i_genome (w_ind w j) ->
  genes (writes w i j l) i = last_written true l (genes w i) /\
  genes (writes w i j l) j = last_written false l (genes w j).
Proof.
  induction l as [|[b g] l IH]; intros w i j Hne; cbn [writes last_written]; auto.
  destruct (IH (upd_arr w (i_genome (w_ind w (if b then i else j))) g) i j) as [E1 E2]; [exact Hne|].
  rewrite E1, E2. unfold genes. cbn [w_arr w_ind upd_arr].
  destruct b; cbn [Bool.eqb]; rewrite ?upd_same, ?upd_other by auto; auto.
Qed.

Lemma writes_others l : forall w i j a, a <> i_genome (w_ind w i) -> a <> i_genome (w_ind w j) ->
  w_arr (writes w i j l) a = w_arr w a.
Proof.
  induction l as [|[b g] l IH]; intros w i j a H1 H2; cbn [writes]; auto.
  rewrite IH by (cbn; auto). cbn. apply upd_other. destruct b; auto.
Qed.

(** ** evaluation *)
Lemma decode_spec w i r w' : decode decoder_of w i = (r, w') ->
  w_arr w' = w_arr w /\ w_nind w' = w_nind w /\ w_narr w' = w_narr w /\ w_uuid w' = w_uuid w /\
  (forall j, j <> i -> w_ind w' j = w_ind w j) /\
  (exists p, w_ind w' i = set_phenome p (w_ind w i)) /\
  match r with
  | Err e => exists d, decoder_of (i_decoder (w_ind w i)) = Some d /\ d (genes w i) = Err e
  | Ok p => i_phenome (w_ind w' i) = Some p /\
      match decoder_of (i_decoder (w_ind w i)) with
      | None => p = PhArr (i_genome (w_ind w i))
      | Some d => exists v, d (genes w i) = Ok v /\ p = PhVal v
      end
  end.
Proof.
  unfold decode. destruct (decoder_of (i_decoder (w_ind w i))) as [d|] eqn:Ed.
  - destruct (d (w_arr w (i_genome (w_ind w i)))) as [p|e] eqn:E; intros H; injection H as <- <-; cbn.
    + rewrite upd_same. repeat match goal with |- _ /\ _ => split; auto end.
      * intros; apply upd_other; auto.
      * eexists; reflexivity.
      * exists p. auto.
    + repeat match goal with |- _ /\ _ => split; auto end.
      * exists (i_phenome (w_ind w i)). destruct (w_ind w i); reflexivity.
      * exists d. auto.
  - intros H; injection H as <- <-; cbn. rewrite upd_same.
    repeat match goal with |- _ /\ _ => split; auto end.
    * intros; apply upd_other; auto.
    * eexists; reflexivity.
Qed.

Lemma evaluate_imp_spec w i r w' : evaluate_imp decoder_of problem_of w i = (r, w') ->
  w_arr w' = w_arr w /\ w_nind w' = w_nind w /\ w_narr w' = w_narr w /\ w_uuid w' = w_uuid w /\
  (forall j, j <> i -> w_ind w' j = w_ind w j) /\
  (exists p, w_ind w' i = set_phenome p (w_ind w i)) /\
  r = score_of w i.
Proof.
  unfold evaluate_imp. destruct (decode decoder_of w i) as [[p|e] w1] eqn:E.
  - apply decode_spec in E. destruct E as (E1 & E2 & E3 & E4 & E5 & (q & E6) & E7 & E8).
    unfold get_phenome. rewrite E7. intros H. injection H as <- <-.
    repeat match goal with |- _ /\ _ => split; auto end; [eauto|].
    rewrite E6. cbn. unfold score. destruct (decoder_of (i_decoder (w_ind w i))) as [d|].
    + destruct E8 as (v & -> & ->). auto.
    + subst p. cbn. rewrite E1. auto.
  - apply decode_spec in E. destruct E as (E1 & E2 & E3 & E4 & E5 & E6 & (d & Ed & E7)).
    intros H. injection H as <- <-.
    repeat match goal with |- _ /\ _ => split; auto end.
    unfold score. rewrite Ed, E7. auto.
Qed.

(** All there is to know about evaluate. *)
Lemma evaluate_spec w i r w' : evaluate w i = (r, w') ->
  w_arr w' = w_arr w /\ w_nind w' = w_nind w /\ w_narr w' = w_narr w /\ w_uuid w' = w_uuid w /\
  (forall j, j <> i -> w_ind w' j = w_ind w j) /\
  i_genome (w_ind w' i) = i_genome (w_ind w i) /\ i_problem (w_ind w' i) = i_problem (w_ind w i) /\
  i_decoder (w_ind w' i) = i_decoder (w_ind w i) /\ i_uuid (w_ind w' i) = i_uuid (w_ind w i) /\
  i_parents (w_ind w' i) = i_parents (w_ind w i) /\ i_robust (w_ind w' i) = i_robust (w_ind w i) /\
  match score_of w i with
  | Ok f => r = Ok f /\ i_fitness (w_ind w' i) = Some f /\
      (i_robust (w_ind w i) = true -> i_viable (w_ind w' i) = Some true)
  | Err e =>
      if i_robust (w_ind w i)
      then r = Ok nan /\ i_fitness (w_ind w' i) = Some nan /\ i_viable (w_ind w' i) = Some false /\
           i_exc (w_ind w' i) = Some e
      else r = Err e /\ i_fitness (w_ind w' i) = i_fitness (w_ind w i)
  end.
Proof.
  unfold Heap.evaluate. destruct (evaluate_imp decoder_of problem_of w i) as [r0 w1] eqn:E.
  apply evaluate_imp_spec in E. destruct E as (E1 & E2 & E3 & E4 & E5 & (q & E6) & E7).
  rewrite <- E7. destruct (i_robust (w_ind w i)) eqn:Er.
  - destruct r0 as [f|e]; cbn; rewrite upd_same; cbn; intros H; injection H as <- <-; cbn;
      rewrite upd_same, E6; cbn;
      repeat match goal with |- _ /\ _ => split; auto end; intros; rewrite upd_other by auto; auto.
  - destruct r0 as [f|e]; intros H; injection H as <- <-; cbn.
    + rewrite upd_same, E6; cbn.
      repeat match goal with |- _ /\ _ => split; auto end; intros; try discriminate.
      rewrite upd_other by auto; auto.
    + rewrite E6; cbn. repeat match goal with |- _ /\ _ => split; auto end.
Qed.

Lemma score_congr w w' i : w_arr w' = w_arr w ->
  i_genome (w_ind w' i) = i_genome (w_ind w i) -> i_problem (w_ind w' i) = i_problem (w_ind w i) ->
  i_decoder (w_ind w' i) = i_decoder (w_ind w i) -> score_of w' i = score_of w i.
Proof. intros E1 E2 E3 E4. unfold genes. rewrite E1, E2, E3, E4. auto. Qed.

Lemma evaluate_ok w i f w' : evaluate w i = (Ok f, w') ->
  i_fitness (w_ind w' i) = Some f /\ f = outcome nan (score_of w' i) /\ score_of w' i = score_of w i.
Proof.
  intros H. apply evaluate_spec in H.
  destruct H as (E1 & _ & _ & _ & _ & E2 & E3 & E4 & _ & _ & E5 & H).
  assert (E : score_of w' i = score_of w i) by (apply score_congr; auto).
  split; [|split; [|exact E]]; rewrite ?E; destruct (score_of w i) as [v|e]; cbn.
  - destruct H as (H1 & H2 & _). congruence.
  - destruct (i_robust (w_ind w i)).
    + destruct H as (H1 & H2 & _). congruence.
    + destruct H; discriminate.
  - destruct H as (H1 & H2 & _). congruence.
  - destruct (i_robust (w_ind w i)).
    + destruct H as (H1 & H2 & _). congruence.
    + destruct H; discriminate.
Qed.

(** ** evaluate_population *)
Lemma evaluate_population_spec l : forall w u w',
  evaluate_population nan decoder_of problem_of w l = (Ok u, w') ->
  w_arr w' = w_arr w /\ (forall j, ~ In j l -> w_ind w' j = w_ind w j) /\
  (forall j, i_genome (w_ind w' j) = i_genome (w_ind w j) /\ i_problem (w_ind w' j) = i_problem (w_ind w j) /\
             i_decoder (w_ind w' j) = i_decoder (w_ind w j)) /\
  forall j, In j l -> i_fitness (w_ind w' j) = Some (outcome nan (score_of w j)).
Proof.
  induction l as [|i l IH]; intros w u w' H; cbn in H.
  - injection H as _ <-. repeat split; auto. intros j [].
  - destruct (evaluate w i) as [[f|e] w1] eqn:E; [|discriminate].
    pose proof (evaluate_spec _ _ _ _ E) as (A1 & _ & _ & _ & A2 & A3 & A4 & A5 & _).
    apply evaluate_ok in E. destruct E as (E1 & E2 & E3).
    apply IH in H. destruct H as (B1 & B2 & B3 & B4).
    assert (K : forall j, i_genome (w_ind w1 j) = i_genome (w_ind w j) /\
              i_problem (w_ind w1 j) = i_problem (w_ind w j) /\ i_decoder (w_ind w1 j) = i_decoder (w_ind w j)).
    { intros j. destruct (Nat.eq_dec j i) as [->|Hne]; auto. rewrite A2 by auto. auto. }
    split; [congruence|]. split; [|split].
    + intros j Hj. rewrite B2 by (intros C; apply Hj; right; auto). apply A2. intros ->. apply Hj; left; auto.
    + intros j. destruct (B3 j) as (C1 & C2 & C3). destruct (K j) as (D1 & D2 & D3).
      rewrite C1, C2, C3. auto.
    + intros j Hj. destruct (in_dec Nat.eq_dec j l) as [Hin|Hin].
      * rewrite (B4 j Hin). f_equal. f_equal. destruct (K j) as (D1 & D2 & D3). apply score_congr; auto.
      * destruct Hj as [->|Hj]; [|contradiction]. rewrite B2 by auto. rewrite E1, E2, E3. auto.
Qed.

(** ** mutate_ind and recombine_ind *)
Lemma mutate_ind_spec f w i w' u : mutate_ind f w i = (Ok u, w') ->
  exists inplace fresh, f (genes w i) = Ok (inplace, fresh) /\
  i_fitness (w_ind w' i) = None /\
  genes w' i = match fresh with Some g => g | None => inplace end /\
  (forall j, j <> i -> w_ind w' j = w_ind w j) /\
  i_problem (w_ind w' i) = i_problem (w_ind w i) /\ i_decoder (w_ind w' i) = i_decoder (w_ind w i) /\
  i_uuid (w_ind w' i) = i_uuid (w_ind w i) /\ i_parents (w_ind w' i) = i_parents (w_ind w i) /\
  i_robust (w_ind w' i) = i_robust (w_ind w i) /\
  w_nind w' = w_nind w /\ w_narr w <= w_narr w' /\ w_uuid w' = w_uuid w /\
  (i_genome (w_ind w' i) = i_genome (w_ind w i) \/ (i_genome (w_ind w' i) = w_narr w /\ w_narr w < w_narr w')) /\
  (forall a, a < w_narr w -> a <> i_genome (w_ind w i) -> w_arr w' a = w_arr w a).
Proof. clear problem_of decoder_of nan.
  unfold mutate_ind. destruct (f (genes w i)) as [[inplace fresh]|e] eqn:E; [|discriminate].
  intros H. exists inplace, fresh. split; auto. destruct fresh as [g|]; cbn in H; injection H as _ <-; unfold genes; cbn;
    repeat (rewrite upd_same; cbn); repeat match goal with |- _ /\ _ => split; auto end;
    try (intros; rewrite !upd_other by (auto; lia); auto).
Qed.

Lemma union_in a b x : In x (union a b) <-> In x a \/ In x b.
Proof. clear problem_of decoder_of nan.
  unfold union. rewrite in_app_iff, filter_In, negb_true_iff. split; [tauto|].
  intros [H|H]; auto. destruct (existsb (Nat.eqb x) a) eqn:E; auto.
  apply existsb_exists in E. destruct E as (y & Hy & Ey). apply Nat.eqb_eq in Ey. subst. auto.
Qed.

Lemma recombine_ind_spec f fresh w i j w' u : i <> j ->
  recombine_ind f fresh w i j = (Ok u, w') ->
  exists g1 g2, f (genes w i) (genes w j) = Ok (g1, g2) /\
  i_fitness (w_ind w' i) = None /\ i_fitness (w_ind w' j) = None /\
  (fresh = true \/ i_genome (w_ind w i) <> i_genome (w_ind w j) -> genes w' i = g1 /\ genes w' j = g2) /\
  (forall p, In p (i_parents (w_ind w' i)) <-> In p (i_parents (w_ind w i)) \/ In p (i_parents (w_ind w j))) /\
  (forall p, In p (i_parents (w_ind w' j)) <-> In p (i_parents (w_ind w i)) \/ In p (i_parents (w_ind w j))) /\
  (forall k, k = i \/ k = j -> i_problem (w_ind w' k) = i_problem (w_ind w k) /\
     i_decoder (w_ind w' k) = i_decoder (w_ind w k) /\ i_uuid (w_ind w' k) = i_uuid (w_ind w k) /\
     i_robust (w_ind w' k) = i_robust (w_ind w k)) /\
  (forall k, k <> i -> k <> j -> w_ind w' k = w_ind w k) /\
  w_nind w' = w_nind w /\ w_narr w <= w_narr w' /\ w_uuid w' = w_uuid w /\
  ((i_genome (w_ind w' i) = i_genome (w_ind w i) /\ i_genome (w_ind w' j) = i_genome (w_ind w j)) \/
   (i_genome (w_ind w' i) = w_narr w /\ i_genome (w_ind w' j) = S (w_narr w) /\ S (w_narr w) < w_narr w')) /\
  (forall a, a < w_narr w -> a <> i_genome (w_ind w i) -> a <> i_genome (w_ind w j) -> w_arr w' a = w_arr w a).
Proof. clear problem_of decoder_of nan.
  intros Hij. unfold recombine_ind.
  destruct (f (genes w i) (genes w j)) as [[g1 g2]|e] eqn:E; [|discriminate].
  intros H. exists g1, g2. split; auto. assert (Hji : j <> i) by auto.
  destruct fresh; cbn in H; injection H as _ <-; unfold genes; cbn; upds.
  - repeat match goal with |- _ /\ _ => split; auto end.
    + intros p. rewrite union_in. tauto.
    + intros p. rewrite !union_in. tauto.
    + intros k [->| ->]; upds; auto.
    + intros k H1 H2. upds. auto.
    + intros a H1 H2 H3. upds. auto.
  - repeat match goal with |- _ /\ _ => split; auto end.
    + intros [C|C]; [discriminate|]. upds. auto.
    + intros p. rewrite union_in. tauto.
    + intros p. rewrite !union_in. tauto.
    + intros k [->| ->]; upds; auto.
    + intros k H1 H2. upds. auto.
    + intros a H1 H2 H3. upds. auto.
Qed.
End Heap.

Lemma attempts_app {G P F} (nan : F) e1 : forall e2 (w : world G P F) i,
  attempts nan (e1 ++ e2) w i =
  let '(v1, w1) := attempts nan e1 w i in
  let '(v2, w2) := attempts nan e2 w1 i in (v1 ++ v2, w2).
Proof.
  induction e1 as [|[d p] e1 IH]; intros e2 w i; cbn [attempts app].
  - destruct (attempts nan e2 w i); auto.
  - destruct (evaluate nan d p w i) as [v w1]. rewrite IH.
    destruct (attempts nan e1 w1 i) as [v1 w2]. destruct (attempts nan e2 w2 i) as [v2 w3]. auto.
Qed.

Lemma attempts_robust {G P F} (nan : F) envs : forall (w : world G P F) i vs w',
  i_robust (w_ind w i) = true -> attempts nan envs w i = (vs, w') ->
  i_robust (w_ind w' i) = true /\ genes w' i = genes w i /\
  i_decoder (w_ind w' i) = i_decoder (w_ind w i) /\ i_problem (w_ind w' i) = i_problem (w_ind w i) /\
  Forall (fun v => exists f, v = Ok f) vs.
Proof.
  induction envs as [|[d p] envs IH]; intros w i vs w' HR H; cbn in H.
  - injection H as <- <-. auto.
  - destruct (evaluate nan d p w i) as [v w1] eqn:E. destruct (attempts nan envs w1 i) as [vs2 w2] eqn:E2.
    injection H as <- <-. pose proof (evaluate_spec _ _ _ _ _ _ _ E) as (A1 & _ & _ & _ & _ & A2 & A3 & A4 & _ & _ & A5 & A6).
    destruct (IH w1 i vs2 w2) as (B1 & B2 & B3 & B4 & B5); [congruence|exact E2|].
    assert (EG : genes w1 i = genes w i) by (unfold genes; congruence).
    repeat match goal with |- _ /\ _ => split; try congruence end. constructor; auto.
    rewrite HR in A6. destruct (score _ _ _); destruct A6 as (-> & _); eauto.
Qed.
