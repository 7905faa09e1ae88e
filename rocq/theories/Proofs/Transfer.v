From Verif Require Import Model.Base Model.Transfer Spec.Transfer.
From Coq Require Import Lia Lqa.

Lemma real_vector_cons b bs u us : create_real_vector (b :: bs) (u :: us) = (fst b + (snd b - fst b) * u)%Q :: create_real_vector bs us.
Proof. destruct b. reflexivity. Qed.
Lemma real_vector_spec bounds : forall us, length us = length bounds -> Forall (fun u => 0 <= u /\ u < 1)%Q us ->
  Forall2 (fun b v => (fst b < snd b -> fst b <= v /\ v < snd b) /\ (fst b == snd b -> v == fst b))%Q bounds (create_real_vector bounds us).
Proof.
  induction bounds as [|[l h] bs IH]; intros [|u us] L F; try discriminate; [constructor|]. rewrite real_vector_cons. inversion F as [|? ? [U0 U1] F']; subst.
  constructor; [|apply IH; auto]. cbn [fst snd]. split.
  - intros H. assert (0 <= (h - l) * u)%Q by (apply Qmult_le_0_compat; lra).
    assert (0 < (h - l) * (1 - u))%Q by (apply Qmult_lt_0_compat; lra). split; lra.
  - intros H. rewrite <- H. ring.
Qed.
Lemma real_vector_reach bounds target : Forall2 (fun b v => fst b <= v /\ v < snd b)%Q bounds target ->
  exists us, length us = length bounds /\ Forall (fun u => 0 <= u /\ u < 1)%Q us /\ Forall2 Qeq target (create_real_vector bounds us).
Proof.
  induction 1 as [|[l h] v bs vs [H1 H2] F (us & L & U & E)]; [exists []; split; [reflexivity|split; constructor]|]. cbn [fst snd] in *.
  assert (P : (0 < h - l)%Q) by lra. assert (K : ((v - l) / (h - l) * (h - l) == v - l)%Q) by (field; lra).
  exists ((v - l) / (h - l) :: us)%Q. split; [cbn; congruence|]. split.
  - constructor; [|exact U]. split; [apply (proj1 (Qmult_le_r _ _ _ P)); rewrite K; lra|apply (proj1 (Qmult_lt_r _ _ _ P)); rewrite K; lra].
  - rewrite real_vector_cons. constructor; [|exact E]. cbn [fst snd]. field. lra.
Qed.

Section Create.
Context {S G D P : Type}.
Variable initialize : S -> result G * S.
Variable decoder : D.
Variable problem : P.
Lemma create_ok n : forall s l s', create_population initialize n decoder problem s = (Ok l, s') ->
  exists gs, length gs = n /\ calls initialize s gs s' /\ fresh_population decoder problem gs l.
Proof.
  induction n as [|n IH]; intros s l s' H; cbn [create_population] in H.
  - injection H as <- <-. exists []. split; [reflexivity|]. split; [constructor|]. split; [reflexivity|constructor].
  - destruct (initialize s) as [[g|e] s1] eqn:E; [|discriminate]. destruct (create_population initialize n decoder problem s1) as [[l'|e] s2] eqn:E2; [|discriminate].
    injection H as <- <-. destruct (IH _ _ _ E2) as (gs & L & C & Fm & Ff). exists (g :: gs). split; [cbn; congruence|]. split; [econstructor; eauto|].
    split; [cbn; congruence|]. constructor; auto.
Qed.
Lemma create_calls gs : forall s s', calls initialize s gs s' ->
  exists l, create_population initialize (length gs) decoder problem s = (Ok l, s') /\ fresh_population decoder problem gs l.
Proof.
  induction gs as [|g gs IH]; intros s s' H; inversion H; subst; [eexists; split; [reflexivity|split; [reflexivity|constructor]]|].
  destruct (IH _ _ H5) as (l & E & Fm & Ff). cbn [length create_population]. rewrite H3, E. eexists. split; [reflexivity|]. split; [cbn; congruence|]. constructor; auto.
Qed.
Lemma create_err n : forall s e s', create_population initialize n decoder problem s = (Err e, s') ->
  exists gs s1, length gs < n /\ calls initialize s gs s1 /\ initialize s1 = (Err e, s').
Proof.
  induction n as [|n IH]; intros s e s' H; cbn [create_population] in H; [discriminate|].
  destruct (initialize s) as [[g|e'] s1] eqn:E.
  - destruct (create_population initialize n decoder problem s1) as [[l'|e2] s2] eqn:E2; [discriminate|]. injection H as <- <-.
    destruct (IH _ _ _ E2) as (gs & s3 & L & C & E3). exists (g :: gs), s3. split; [cbn; lia|]. split; [econstructor; eauto|exact E3].
  - injection H as <- <-. exists [], s. split; [cbn; lia|]. split; [constructor|exact E].
Qed.
Lemma individual_spec s : 
  (forall g s', initialize s = (Ok g, s') -> exists x, create_individual initialize decoder problem s = (Ok x, s') /\ fresh_population decoder problem [g] [x]) /\
  (forall e s', initialize s = (Err e, s') -> create_individual initialize decoder problem s = (Err e, s')).
Proof.
  unfold create_individual. cbn [create_population]. split; intros x s' ->; [|reflexivity]. eexists. split; [reflexivity|]. split; [reflexivity|]. constructor; auto.
Qed.
Lemma seeded_calls seeds n : forall i s fresh s', length fresh = n - (length seeds - i) -> calls initialize s fresh s' -> i <= length seeds ->
  calls (seeded initialize seeds) (i, s) (firstn n (skipn i seeds) ++ fresh) (Nat.min (i + n) (length seeds), s').
Proof.
  induction n as [|n IH]; intros i s fresh s' L C Hi.
  - destruct fresh; [|discriminate]. inversion C; subst. cbn [firstn app]. replace (Nat.min (i + 0) (length seeds)) with i by lia. constructor.
  - destruct (nth_error seeds i) as [g|] eqn:E.
    + assert (Hl : i < length seeds) by (apply nth_error_Some; congruence).
      assert (Sk : skipn i seeds = g :: skipn (Datatypes.S i) seeds).
      { clear -E. revert i E. induction seeds as [|x r IHr]; intros [|i] E; try discriminate; cbn in *; [congruence|auto]. }
      rewrite Sk. cbn [firstn app]. econstructor; [unfold seeded; rewrite E; reflexivity|].
      replace (i + Datatypes.S n) with (Datatypes.S i + n) by lia. apply IH; auto; lia.
    + apply nth_error_None in E. rewrite skipn_all2 by lia. cbn [firstn app]. destruct fresh as [|g fresh]; [cbn [length] in L; lia|].
      inversion C as [|? ? s1 ? ? E1 C1]; subst. econstructor; [unfold seeded; rewrite (proj2 (nth_error_None seeds i)) by lia; rewrite E1; reflexivity|].
      specialize (IH i s1 fresh s'). rewrite skipn_all2, firstn_nil in IH by lia. replace (Nat.min (i + Datatypes.S n) (length seeds)) with (Nat.min (i + n) (length seeds)) by lia.
      apply IH; auto. cbn [length] in L. lia.
Qed.
End Create.
Lemma seeded_population {S G D P} (initialize : S -> result G * S) (decoder : D) (problem : P) seeds n i s fresh s' :
  i <= length seeds -> length fresh = n - (length seeds - i) -> calls initialize s fresh s' ->
  exists l, create_population (seeded initialize seeds) n decoder problem (i, s) = (Ok l, (Nat.min (i + n) (length seeds), s')) /\
    fresh_population decoder problem (firstn n (skipn i seeds) ++ fresh) l.
Proof.
  intros Hi L C. assert (H := seeded_calls initialize seeds n i s fresh s' L C Hi).
  destruct (create_calls (seeded initialize seeds) decoder problem _ _ _ H) as (l & E & F). exists l. split; [|exact F].
  rewrite <- E. f_equal. rewrite app_length, firstn_length, skipn_length, L. lia.
Qed.

Lemma last_ends {G} (run : list (run_item G)) g : last_genome run = Ok g <-> ends_with run g.
Proof.
  unfold last_genome, ends_with. split.
  - destruct (rev run) as [|x r] eqn:E; [discriminate|]. destruct x as [k h|k h]; [|destruct (k =? 2); discriminate].
    intros H. injection H as ->. exists (rev r), k. rewrite <- (rev_involutive run), E. reflexivity.
  - intros (b & k & ->). rewrite rev_app_distr. reflexivity.
Qed.
Lemma remember_ok {G} results gs : Forall2 ends_with results gs -> forall rep : list G, remember rep results = (Ok tt, rep ++ gs).
Proof.
  induction 1 as [|r g rs gs E F IH]; intros rep; cbn [remember]; [rewrite app_nil_r; reflexivity|]. apply last_ends in E. rewrite E, IH, <- app_assoc. reflexivity.
Qed.
Lemma remember_fails {G} results gs bad rest e : Forall2 ends_with results gs -> last_genome bad = Err e ->
  forall rep : list G, remember rep (results ++ bad :: rest) = (Err e, rep ++ gs).
Proof.
  induction 1 as [|r g rs gs E F IH]; intros B rep; cbn [remember app]; [rewrite B, app_nil_r; reflexivity|]. apply last_ends in E. rewrite E, IH, <- app_assoc by auto. reflexivity.
Qed.
Lemma run_all_spec {P K R} (algorithm : P -> K -> result R) ps ks rs : length ks = length ps ->
  (forall i p k, nth_error ps i = Some p -> nth_error ks i = Some k -> exists r, nth_error rs i = Some r /\ algorithm p k = Ok r) -> length rs = length ps ->
  run_all algorithm (combine ps ks) = Ok rs.
Proof.
  revert ks rs. induction ps as [|p ps IH]; intros [|k ks] [|r rs] L H Lr; try discriminate; [reflexivity|]. cbn [combine run_all].
  destruct (H 0 p k eq_refl eq_refl) as (r' & E1 & E2). cbn in E1. injection E1 as <-. rewrite E2. cbn [bind]. rewrite (IH ks rs); [reflexivity|auto| |auto].
  intros i p' k' Hp Hk. apply (H (Datatypes.S i) p' k' Hp Hk).
Qed.
Lemma last_fails {G} (before : list (run_item G)) : last_genome (G := G) [] = Err IndexError /\
  (forall n g, n <> 2 -> last_genome (before ++ [Bare n g]) = Err ValueError) /\ (forall g, last_genome (before ++ [Bare 2 g]) = Err AttributeError).
Proof.
  unfold last_genome. split; [reflexivity|]. split; intros; rewrite rev_app_distr; cbn; [|reflexivity]. destruct n as [|[|[|n]]]; try reflexivity. congruence.
Qed.
Lemma ends_badly_spec {G} (run : list (run_item G)) e : ends_badly run e -> last_genome run = Err e.
Proof.
  intros [[-> ->]|(b & n & g & -> & [[N ->]|[-> ->]])]; [apply (last_fails [])|apply last_fails; exact N|apply last_fails].
Qed.
Lemma build_spec {P K G} (algorithm : P -> K -> result (list (run_item G))) no_kwargs rep problems kwargs runs gs :
  let ks := match kwargs with Some ks => ks | None => repeat no_kwargs (length problems) end in
  length ks = length problems -> length runs = length problems ->
  (forall i p k, nth_error problems i = Some p -> nth_error ks i = Some k -> exists r, nth_error runs i = Some r /\ algorithm p k = Ok r) ->
  (Forall2 ends_with runs gs -> build_repertoire algorithm no_kwargs rep problems kwargs = (Ok tt, rep ++ gs)) /\
  (forall before bad after e, runs = before ++ bad :: after -> Forall2 ends_with before gs -> ends_badly bad e ->
     build_repertoire algorithm no_kwargs rep problems kwargs = (Err e, rep ++ gs)).
Proof.
  intros ks L Lr H. unfold build_repertoire. assert (E := run_all_spec algorithm problems ks runs L H Lr). destruct kwargs as [ks'|]; subst ks.
  - rewrite L, Nat.eqb_refl, E. split; [intros F; apply remember_ok; exact F|]. intros before bad after e -> F B. apply remember_fails; auto using ends_badly_spec.
  - rewrite E. split; [intros F; apply remember_ok; exact F|]. intros before bad after e -> F B. apply remember_fails; auto using ends_badly_spec.
Qed.
Lemma build_kwargs {P K G} (algorithm : P -> K -> result (list (run_item G))) no_kwargs rep problems ks :
  length ks <> length problems -> build_repertoire algorithm no_kwargs rep problems (Some ks) = (Err AssertionError, rep).
Proof. intros N. unfold build_repertoire. destruct (Nat.eqb_spec (length ks) (length problems)); [contradiction|reflexivity]. Qed.
