(** Proofs about which exceptions runs on segmented genomes raise. *)
From Coq Require Import Lia.
From Verif Require Import Model.Base Model.PyList Model.Variation Model.Segmented Model.SegMutate Model.Selection Model.SegRun
  Spec.SegRun Spec.Raising Proofs.SegRun.
From Verif Require Model.Pipeline.
Local Open Scope nat_scope.
Local Open Scope list_scope.

Lemma generator_errors {A} (E : exn -> Prop) (r : result A) : passes_only E r -> forall e, Pipeline.in_generator r = Err e -> E e.
Proof. intros H e He. destruct r as [a|e']; [discriminate|]. specialize (H e' eq_refl). injection He as <-. destruct e'; exact H. Qed.

Section Seg.
Context {G : Type}.
Variable E : exn -> Prop.
Implicit Types st : store G.

Lemma randrange_errors d n e : randrange d n = Err e -> n = 0 /\ e = ValueError.
Proof. unfold randrange. destruct (Nat.eqb_spec n 0); [intros [= <-]; auto|discriminate]. Qed.

Lemma mutate_segments_errors (m : nat -> list G -> result (list G)) : (forall k g, passes_only E (m k g)) ->
  forall genome k st e, mutate_segments m k genome st = Err e -> passes E e.
Proof.
  intros Hm. induction genome as [|a r IH]; intros k st e H; cbn [mutate_segments] in H; [discriminate|].
  destruct (m k (s_seg st a)) as [g|e'] eqn:Em; cbn [bind] in H; [eapply IH; eauto|]. injection H as <-. eapply Hm; eauto.
Qed.

Lemma mutate_each_errors : forall segments (ms : list (smutator G)) st acc st' e, (forall m g, In m ms -> passes_only E (snd (m g))) ->
  mutate_each segments ms st acc = (st', Err e) -> passes E e.
Proof.
  induction segments as [|a segments IH]; intros [|m ms] st acc st' e Hm H; cbn [mutate_each] in H; try discriminate.
  unfold call_mutator in H. pose proof (Hm m (s_seg st a) (or_introl eq_refl)) as H1. destruct (m (s_seg st a)) as [written r].
  destruct r as [[g|]|e']; cbn [new_seg] in H.
  - eapply IH; [|exact H]. intros; apply Hm; right; auto.
  - eapply IH; [|exact H]. intros; apply Hm; right; auto.
  - injection H as <- <-. apply H1. reflexivity.
Qed.

Lemma op_errors (o : seg_op G) st x e : seg_op_raises E o -> apply_op o st x = Err e -> passes E e.
Proof.
  destruct o as [p u init app d|p u d|p u app d1 d2|mu ex|ms]; cbn [apply_op seg_op_raises]; intros Ho H.
  - unfold add_segment in H. destruct (Qltb u p); [|discriminate]. cbn [new_seg] in H. destruct app; [discriminate|].
    destruct (randrange d _) as [k|e'] eqn:Er; cbn [bind] in H; [discriminate|]. apply randrange_errors in Er. lia.
  - unfold remove_segment in H. destruct (Nat.ltb_spec 1 (length (sg_genome x))); [|discriminate]. destruct (Qltb u p); [|discriminate].
    destruct (randrange d _) as [k|e'] eqn:Er; cbn [bind] in H; [discriminate|]. apply randrange_errors in Er. lia.
  - unfold copy_segment in H. destruct (Qltb u p); [|discriminate].
    destruct (randrange d1 _) as [k|e'] eqn:Er; cbn [bind] in H.
    + unfold randrange in Er. destruct (Nat.eqb_spec (length (sg_genome x)) 0) as [|Hne]; [discriminate|]. injection Er as <-.
      pose proof (Nat.mod_upper_bound d1 _ Hne) as Hlt. apply nth_error_Some in Hlt. destruct (nth_error (sg_genome x) _) as [a|]; [|congruence].
      destruct app; [discriminate|]. destruct (randrange d2 _) as [k|e'] eqn:Er; cbn [bind] in H; [discriminate|]. apply randrange_errors in Er. lia.
    + injection H as <-. apply randrange_errors in Er. destruct Er as [_ ->]. exact Ho.
  - destruct Ho as [H0 Hm]. unfold apply_mutation, compute_expected_probability in H. destruct (length (sg_genome x) =? 0); cbn [bind] in H.
    { injection H as <-. exact H0. }
    destruct (mutate_segments _ 0 (sg_genome x) st) as [st'|e'] eqn:Em; cbn [bind] in H; [discriminate|]. injection H as <-.
    eapply mutate_segments_errors; [|exact Em]. intros k g. apply Hm.
  - destruct Ho as [H0 Hm]. unfold segmented_mutate in H. destruct (length (sg_genome x) =? length ms).
    + destruct (mutate_each (sg_genome x) ms st []) as [st' [genome|e']] eqn:Em; [discriminate|]. injection H as <-.
      eapply mutate_each_errors; eauto.
    + injection H as <-. exact H0.
Qed.

Lemma ops_errors : forall (ops : list (seg_op G)) st x e, Forall (seg_op_raises E) ops -> apply_ops ops st x = Err e -> passes E e.
Proof.
  induction ops as [|o ops IH]; intros st x e HF H; cbn [apply_ops] in H; [discriminate|].
  destruct (apply_op o st x) as [[x' st']|e'] eqn:Eo; cbn [bind] in H.
  - eapply IH; [eapply Forall_inv_tail; exact HF|exact H].
  - injection H as <-. eapply op_errors; [exact (Forall_inv HF)|exact Eo].
Qed.

Variable score : list (list G) -> result num.
Hypothesis Hscore : forall gs, raises_only E (score gs) /\ passes_only E (score gs).

Lemma finish_errors ops st x e : Forall (seg_op_raises E) ops -> finish score ops st x = Err e -> E e.
Proof.
  intros HF H. unfold finish in H. eapply generator_errors; [|exact H]. intros e' H'.
  destruct (apply_ops ops st x) as [[x' st']|e''] eqn:Eo; cbn [bind] in H'.
  - unfold evaluate_seg in H'. destruct (score (contents st' x')) as [f|e''] eqn:Es; cbn [bind] in H'; [discriminate|]. injection H' as <-.
    eapply (Hscore (contents st' x')). exact Es.
  - injection H' as <-. eapply ops_errors; eauto.
Qed.
Lemma finish_fit ops st x y st' : finish score ops st x = Ok (y, st') -> sg_fitness y <> None.
Proof.
  unfold finish. intros H. destruct (apply_ops ops st x) as [[x' st1]|] eqn:Eo; cbn [bind Pipeline.in_generator] in H; [|discriminate].
  unfold evaluate_seg in H. destruct (score (contents st1 x')) as [f|]; cbn [bind Pipeline.in_generator] in H; [|discriminate].
  injection H as <- <-. discriminate.
Qed.

Definition evaluated (x : sind) : Prop := sg_fitness x <> None.

Lemma picked_errors (parents : list sind) k e : E IndexError \/ k < length parents -> picked parents k = Err e -> E e.
Proof.
  unfold picked. intros Hk H. destruct (nth_error parents k) eqn:En; [discriminate|]. injection H as <-.
  apply nth_error_None in En. destruct Hk; [auto|lia].
Qed.

Lemma breed_errors : forall plans parents st e, (forall p, In p plans -> Forall (seg_op_raises E) (pl_ops p)) ->
  (E IndexError \/ forall p, In p plans -> pl_pick p < length parents) ->
  breed score plans parents st = Err e -> E e.
Proof.
  induction plans as [|p plans IH]; intros parents st e HF HP H; cbn [breed] in H; [discriminate|].
  destruct (picked parents (pl_pick p)) as [x|e'] eqn:Ep; cbn [bind] in H.
  2:{ injection H as <-. eapply picked_errors; [|exact Ep]. destruct HP as [?|HP]; auto. right. apply HP. left. auto. }
  destruct (clone_seg st x) as [c st1]. destruct (finish score (pl_ops p) st1 c) as [[y st2]|e'] eqn:Fi; cbn [bind] in H.
  2:{ injection H as <-. eapply finish_errors; [|exact Fi]. apply HF. left. auto. }
  destruct (breed score plans parents st2) as [[ys st3]|e'] eqn:Eb; cbn [bind] in H; [discriminate|]. injection H as <-.
  eapply IH; [| |exact Eb]; [intros q Hq; apply HF; right; auto|].
  destruct HP as [?|HP]; auto. right. intros q Hq. apply HP. right. auto.
Qed.
Lemma breed_fit : forall plans parents st ys st', breed score plans parents st = Ok (ys, st') ->
  length ys = length plans /\ forall y, In y ys -> evaluated y.
Proof.
  induction plans as [|p plans IH]; intros parents st ys st' H; cbn [breed] in H; [injection H as <- <-; split; [auto|intros y []]|].
  destruct (picked parents (pl_pick p)) as [x|e'] eqn:Ep; cbn [bind] in H; [|discriminate].
  destruct (clone_seg st x) as [c st1]. destruct (finish score (pl_ops p) st1 c) as [[y st2]|e'] eqn:Fi; cbn [bind] in H; [|discriminate].
  destruct (breed score plans parents st2) as [[zs st3]|e'] eqn:Eb; cbn [bind] in H; [|discriminate]. injection H as <- <-.
  destruct (IH _ _ _ _ Eb) as [L F]. split; [cbn; auto|]. intros z [<-|Hz]; [eapply finish_fit; eauto|auto].
Qed.

Lemma cross_errors n points x y e : points = None \/ E RuntimeError -> cross n points x y = Err e -> E e.
Proof.
  intros Hp H. destruct points as [draws|]; cbn [cross] in H; [|discriminate]. destruct Hp as [Hp|Hp]; [discriminate|].
  unfold nary_recombine in H. destruct (_ || _); cbn [bind] in H.
  - injection H as <-. exact Hp.
  - destruct (nary_sections _ _ _ _); discriminate.
Qed.

Lemma breed_pairs_errors n : forall plans parents st e,
  (forall p, In p plans -> (pp_points p = None \/ E RuntimeError) /\ Forall (seg_op_raises E) (pp_ops1 p) /\
     forall l, pp_ops2 p = Some l -> Forall (seg_op_raises E) l) ->
  (E IndexError \/ forall p, In p plans -> pp_first p < length parents /\ pp_second p < length parents) ->
  breed_pairs score n plans parents st = Err e -> E e.
Proof.
  induction plans as [|p plans IH]; intros parents st e HF HP H; cbn [breed_pairs] in H; [discriminate|].
  destruct (HF p (or_introl eq_refl)) as (F1 & F2 & F3).
  destruct (picked parents (pp_first p)) as [x1|e'] eqn:Ep1; cbn [bind] in H.
  2:{ injection H as <-. eapply picked_errors; [|exact Ep1]. destruct HP as [?|HP]; auto. right. apply HP. left. auto. }
  destruct (clone_seg st x1) as [c1 st1].
  destruct (picked parents (pp_second p)) as [x2|e'] eqn:Ep2; cbn [bind] in H.
  2:{ injection H as <-. eapply picked_errors; [|exact Ep2]. destruct HP as [?|HP]; auto. right. apply HP. left. auto. }
  destruct (clone_seg st1 x2) as [c2 st2].
  destruct (cross n (pp_points p) c1 c2) as [[d1 d2]|e'] eqn:Cr; cbn [bind] in H.
  2:{ injection H as <-. eapply cross_errors; eauto. }
  destruct (finish score (pp_ops1 p) st2 d1) as [[y1 st3]|e'] eqn:Fi; cbn [bind] in H.
  2:{ injection H as <-. eapply finish_errors; eauto. }
  assert (Hrest : forall st4 e', breed_pairs score n plans parents st4 = Err e' -> E e').
  { intros st4 e' Eb. eapply IH; [| |exact Eb]; [intros q Hq; apply HF; right; auto|].
    destruct HP as [?|HP]; auto. right. intros q Hq. apply HP. right. auto. }
  destruct (pp_ops2 p) as [ops2|]; cbn [bind] in H.
  - destruct (finish score ops2 st3 d2) as [[y2 st4]|e'] eqn:Fi2; cbn [bind] in H.
    2:{ injection H as <-. eapply finish_errors; [apply (F3 _ eq_refl)|exact Fi2]. }
    destruct (breed_pairs score n plans parents st4) as [[ys st5]|e'] eqn:Eb; cbn [bind] in H; [discriminate|]. injection H as <-. exact (Hrest _ _ Eb).
  - destruct (breed_pairs score n plans parents st3) as [[ys st5]|e'] eqn:Eb; cbn [bind] in H; [discriminate|]. injection H as <-. exact (Hrest _ _ Eb).
Qed.
Lemma breed_pairs_fit n : forall plans parents st ys st', breed_pairs score n plans parents st = Ok (ys, st') ->
  length ys = list_sum (map (fun p : pair_plan G => match pp_ops2 p with Some _ => 2 | None => 1 end) plans) /\ forall y, In y ys -> evaluated y.
Proof.
  induction plans as [|p plans IH]; intros parents st ys st' H; cbn [breed_pairs] in H; [injection H as <- <-; split; [auto|intros y []]|].
  destruct (picked parents (pp_first p)) as [x1|e'] eqn:Ep1; cbn [bind] in H; [|discriminate].
  destruct (clone_seg st x1) as [c1 st1].
  destruct (picked parents (pp_second p)) as [x2|e'] eqn:Ep2; cbn [bind] in H; [|discriminate].
  destruct (clone_seg st1 x2) as [c2 st2].
  destruct (cross n (pp_points p) c1 c2) as [[d1 d2]|e'] eqn:Cr; cbn [bind] in H; [|discriminate].
  destruct (finish score (pp_ops1 p) st2 d1) as [[y1 st3]|e'] eqn:Fi; cbn [bind] in H; [|discriminate].
  cbn [map list_sum fold_right]. change (fold_right Init.Nat.add 0) with list_sum.
  destruct (pp_ops2 p) as [ops2|]; cbn [bind] in H.
  - destruct (finish score ops2 st3 d2) as [[y2 st4]|e'] eqn:Fi2; cbn [bind] in H; [|discriminate].
    destruct (breed_pairs score n plans parents st4) as [[zs st5]|e'] eqn:Eb; cbn [bind] in H; [|discriminate]. injection H as <- <-.
    destruct (IH _ _ _ _ Eb) as [L F]. split; [cbn; rewrite L; auto|]. intros z [<-|[<-|Hz]]; [eapply finish_fit; eauto|eapply finish_fit; eauto|auto].
  - destruct (breed_pairs score n plans parents st3) as [[zs st5]|e'] eqn:Eb; cbn [bind] in H; [|discriminate]. injection H as <- <-.
    destruct (IH _ _ _ _ Eb) as [L F]. split; [cbn; rewrite L; auto|]. intros z [<-|Hz]; [eapply finish_fit; eauto|auto].
Qed.

Variable maximize : bool.
Variable coin : nat -> Scalar.sind -> Scalar.sind -> bool.
Variable k_elites : nat.

Lemma seg_loop_errors : forall gens i st earlier parents e, Forall (seg_gen_raises E) gens ->
  (E IndexError \/ picks_within (length parents) gens) -> (forall x, In x parents -> evaluated x) ->
  seg_loop score maximize coin k_elites gens i st earlier parents = Err e -> E e.
Proof.
  induction gens as [|b gens IH]; intros i st earlier parents e HF HP HE H; cbn [seg_loop] in H; [discriminate|].
  pose proof (Forall_inv HF) as Hb. apply Forall_inv_tail in HF.
  destruct (offspring_of score b parents st) as [[off st1]|e'] eqn:Eo; cbn [bind] in H.
  - assert (Hoff : length off = offspring_count b /\ forall y, In y off -> evaluated y).
    { destruct b as [plans|n plans]; cbn [offspring_of] in Eo; [eapply breed_fit; eauto|eapply breed_pairs_fit; eauto]. }
    destruct Hoff as [Lo Fo].
    destruct (survivors_good maximize coin k_elites i off parents) as (next & En & I1 & Ln & _).
    { intros x Hx. apply in_app_or in Hx. destruct Hx; [apply Fo|apply HE]; auto. }
    rewrite En in H. cbn [bind] in H. eapply IH; [exact HF| | |exact H].
    + destruct HP as [?|HP]; auto. right. rewrite Ln, Lo. destruct b as [plans|n plans]; apply HP.
    + intros x Hx. apply I1 in Hx. apply in_app_or in Hx. destruct Hx; [apply Fo|apply HE]; auto.
  - injection H as <-. destruct b as [plans|n plans]; cbn [offspring_of] in Eo.
    + eapply breed_errors; [exact Hb| |exact Eo]. destruct HP as [?|HP]; auto. right. apply HP.
    + eapply breed_pairs_errors; [exact Hb| |exact Eo]. destruct HP as [?|HP]; auto. right. apply HP.
Qed.

Lemma evaluate_segs_errors st : forall xs e, evaluate_segs score st xs = Err e -> E e.
Proof.
  induction xs as [|x xs IH]; intros e H; cbn [evaluate_segs] in H; [discriminate|]. unfold evaluate_seg in H.
  destruct (score (contents st x)) as [f|e'] eqn:Es; cbn [bind] in H.
  - destruct (evaluate_segs score st xs) as [ys|e'] eqn:Ev; cbn [bind] in H; [discriminate|]. injection H as <-. auto.
  - injection H as <-. eapply Hscore. exact Es.
Qed.
Lemma create_segs_length : forall genomes st xs st', create_segs genomes st = (xs, st') -> length xs = length genomes.
Proof.
  induction genomes as [|gs r IH]; intros st xs st' H; cbn [create_segs] in H; [injection H as <- <-; auto|].
  destruct (new_segments gs st) as [l st1]. destruct (create_segs r st1) as [ys st2] eqn:Ec. injection H as <- <-. cbn. f_equal. eapply IH; eauto.
Qed.

Lemma seg_run_errors genomes gens st e : Forall (seg_gen_raises E) gens ->
  (E IndexError \/ picks_within (length genomes) gens) ->
  seg_run score maximize coin k_elites genomes gens st = Err e -> E e.
Proof.
  intros HF HP H. unfold seg_run in H. destruct (create_segs genomes st) as [xs st1] eqn:Ec. apply create_segs_length in Ec.
  destruct (evaluate_segs score st1 xs) as [init|e'] eqn:Ev; cbn [bind] in H.
  - destruct (evaluate_segs_spec _ _ _ _ Ev) as [Eg Ef]. rewrite Forall_forall in Ef. eapply seg_loop_errors; [exact HF| | |exact H].
    + replace (length init) with (length genomes); auto. rewrite <- Ec, <- (map_length sg_genome xs), <- Eg, map_length. auto.
    + intros x Hx. destruct (Ef x Hx) as (f & Ex & _). unfold evaluated. rewrite Ex. discriminate.
  - injection H as <-. eapply evaluate_segs_errors; eauto.
Qed.
End Seg.
