From Verif Require Import Model.Base Model.Variation Model.Segmented Spec.Segmented Proofs.Variation.
From Coq Require Import Lia Lqa.

Section Proofs.
Context {G : Type}.
Implicit Types st : store G.

Lemma insert_at_spec {A} k (x : A) l : one_inserted x l (insert_at k x l).
Proof. exists (firstn k l), (skipn k l). split; auto. symmetry. apply firstn_skipn. Qed.

Lemma delete_at_spec {A} k (l : list A) : k < length l -> one_removed l (delete_at k l).
Proof.
  intros H. destruct (nth_error l k) as [x|] eqn:E; [|apply nth_error_None in E; lia].
  apply nth_error_split in E. destruct E as (l1 & l2 & -> & HL). exists l1, x, l2. split; auto.
  unfold delete_at. rewrite firstn_app, <- HL, Nat.sub_diag, firstn_all, app_nil_r. cbn [firstn].
  rewrite app_nil_r || idtac. f_equal.
  rewrite skipn_app. replace (S (length l1) - length l1) with 1 by lia.
  rewrite skipn_all2 by lia. reflexivity.
Qed.

Lemma inserted_map {A B} (f : A -> B) x l l' : one_inserted x l l' -> one_inserted (f x) (map f l) (map f l').
Proof.
  intros (l1 & l2 & -> & ->). exists (map f l1), (map f l2). rewrite !map_app. auto.
Qed.
Lemma removed_map {A B} (f : A -> B) l l' : one_removed l l' -> one_removed (map f l) (map f l').
Proof.
  intros (l1 & x & l2 & -> & ->). exists (map f l1), (f x), (map f l2). rewrite !map_app. auto.
Qed.
Lemma inserted_len {A} (x : A) l l' : one_inserted x l l' -> length l' = S (length l).
Proof. intros (l1 & l2 & -> & ->). rewrite !app_length. cbn. lia. Qed.
Lemma removed_len {A} (l l' : list A) : one_removed l l' -> length l = S (length l').
Proof. intros (l1 & x & l2 & -> & ->). rewrite !app_length. cbn. lia. Qed.

Lemma randrange_ok d n : 0 < n -> exists k, randrange d n = Ok k /\ k < n.
Proof.
  intros H. unfold randrange. destruct (Nat.eqb_spec n 0); [lia|].
  exists (d mod n). split; auto. apply Nat.mod_upper_bound; lia.
Qed.

Lemma new_seg_keeps st init a st' l : new_seg st init = (a, st') -> Forall (fun b => b < s_next st) l ->
  a = s_next st /\ s_seg st' a = init /\ map (s_seg st') l = map (s_seg st) l.
Proof.
  unfold new_seg. intros H HF. injection H as <- <-. cbn. rewrite Nat.eqb_refl. repeat split; auto.
  apply map_ext_in. intros b Hb. rewrite Forall_forall in HF. specialize (HF b Hb).
  destruct (Nat.eqb_spec b (s_next st)); auto. lia.
Qed.

Lemma add_spec probability u init append d st x : seg_sane st x ->
  exists x' st', add_segment probability u init append d st x = Ok (x', st') /\
    ((u < probability)%Q -> one_inserted init (contents st x) (contents st' x') /\ sg_fitness x' = None /\
       (append = true -> contents st' x' = contents st x ++ [init])) /\
    (~ (u < probability)%Q -> x' = x /\ st' = st).
Proof.
  intros HS. unfold add_segment. destruct (Qltb u probability) eqn:E.
  - apply Qltb_lt in E. destruct (new_seg st init) as [a st'] eqn:EN.
    destruct (new_seg_keeps _ _ _ _ _ EN HS) as (-> & E1 & E2).
    assert (HI : forall l', one_inserted (s_next st) (sg_genome x) l' ->
              one_inserted init (contents st x) (map (s_seg st') l')).
    { intros l' H. unfold contents. rewrite <- E2, <- E1. apply inserted_map. auto. }
    destruct append.
    + eexists _, st'. split; [reflexivity|]. split; [|intros; contradiction]. intros _. split.
      * apply HI. exists (sg_genome x), []. rewrite app_nil_r. auto.
      * split; auto. intros _. unfold contents. cbn. rewrite map_app, E2. cbn. rewrite E1. auto.
    + destruct (randrange_ok d (length (sg_genome x) + 1)) as (k & Ek & _); [lia|]. rewrite Ek. cbn [bind].
      eexists _, st'. split; [reflexivity|]. split; [|intros; contradiction]. intros _. split.
      * apply HI. apply insert_at_spec.
      * split; auto. discriminate.
  - exists x, st. split; auto. split; [|auto]. intros C. apply Qltb_lt in C. congruence.
Qed.

Lemma remove_spec probability u d st x :
  exists x', remove_segment probability u d st x = Ok (x', st) /\
    ((u < probability)%Q -> 1 < length (sg_genome x) ->
       one_removed (contents st x) (contents st x') /\ sg_fitness x' = None) /\
    (~ (u < probability)%Q \/ length (sg_genome x) <= 1 -> x' = x).
Proof.
  unfold remove_segment. destruct (Nat.ltb_spec 1 (length (sg_genome x))).
  - destruct (Qltb u probability) eqn:E.
    + apply Qltb_lt in E. destruct (randrange_ok d (length (sg_genome x))) as (k & Ek & Hk); [lia|].
      rewrite Ek. cbn [bind]. eexists. split; [reflexivity|]. split.
      * intros _ _. split; auto. unfold contents. cbn. apply removed_map. apply delete_at_spec; auto.
      * intros [C|C]; [contradiction|lia].
    + exists x. split; auto. split; auto. intros C. apply Qltb_lt in C. congruence.
  - exists x. split; auto. split; auto. lia.
Qed.

Lemma copy_spec probability u append d1 d2 st x : sg_genome x <> [] ->
  exists x', copy_segment probability u append d1 d2 st x = Ok (x', st) /\
    ((u < probability)%Q -> exists seg, In seg (contents st x) /\
       one_inserted seg (contents st x) (contents st x') /\ sg_fitness x' = None /\
       (append = true -> contents st x' = contents st x ++ [seg])) /\
    (~ (u < probability)%Q -> x' = x).
Proof.
  intros HN. assert (HL : 0 < length (sg_genome x)) by (destruct (sg_genome x); [congruence|cbn; lia]).
  unfold copy_segment. destruct (Qltb u probability) eqn:E.
  - apply Qltb_lt in E. destruct (randrange_ok d1 (length (sg_genome x)) HL) as (k & Ek & Hk).
    rewrite Ek. cbn [bind]. destruct (nth_error (sg_genome x) k) as [a|] eqn:Ea; [|apply nth_error_None in Ea; lia].
    assert (Hin : In (s_seg st a) (contents st x)).
    { unfold contents. apply in_map. eapply nth_error_In; eauto. }
    destruct append.
    + eexists. split; [reflexivity|]. split; [|intros; contradiction]. intros _. exists (s_seg st a).
      split; auto. split; [|split; auto].
      * unfold contents. cbn. apply (inserted_map (s_seg st)). exists (sg_genome x), []. rewrite app_nil_r. auto.
      * intros _. unfold contents. cbn. rewrite map_app. auto.
    + destruct (randrange_ok d2 (length (sg_genome x) + 1)) as (p & Ep & _); [lia|]. rewrite Ep. cbn [bind].
      eexists. split; [reflexivity|]. split; [|intros; contradiction]. intros _. exists (s_seg st a).
      split; auto. split; [|split; [auto|discriminate]].
      unfold contents. cbn. apply (inserted_map (s_seg st)). apply insert_at_spec.
  - exists x. split; auto. split; auto. intros C. apply Qltb_lt in C. congruence.
Qed.

Lemma copy_empty probability u append d1 d2 st x : sg_genome x = [] -> (u < probability)%Q ->
  copy_segment probability u append d1 d2 st x = Err ValueError.
Proof.
  intros HN HU. apply Qltb_lt in HU. unfold copy_segment. rewrite HU, HN. reflexivity.
Qed.

(** ** apply_mutation on unshared segments *)
Lemma mutate_segments_spec (mutator : nat -> list G -> result (list G)) : forall genome k st, NoDup genome ->
  (forall j g, exists g', mutator j g = Ok g') ->
  exists st', mutate_segments mutator k genome st = Ok st' /\
    (forall a, ~ In a genome -> s_seg st' a = s_seg st a) /\
    (forall j a, nth_error genome j = Some a -> mutator (k + j) (s_seg st a) = Ok (s_seg st' a)).
Proof.
  induction genome as [|a r IH]; intros k st HN HM; cbn.
  - exists st. split; auto. split; auto. intros [|j] a; discriminate.
  - inversion HN as [|? ? Hna HN']; subst. destruct (HM k (s_seg st a)) as [g Eg]. rewrite Eg. cbn [bind].
    destruct (IH (S k) (write_seg st a g) HN' HM) as (st' & E & H1 & H2). exists st'. split; auto. split.
    + intros b Hb. rewrite H1 by tauto. cbn. destruct (Nat.eqb_spec b a); auto. subst. tauto.
    + intros [|j] b Hb; cbn in Hb.
      * injection Hb as <-. rewrite Nat.add_0_r. rewrite H1 by auto. cbn. rewrite Nat.eqb_refl. auto.
      * specialize (H2 j b Hb). cbn in H2. destruct (Nat.eqb_spec b a).
        { subst. exfalso. apply Hna. eapply nth_error_In; eauto. }
        replace (k + S j) with (S k + j) by lia. auto.
Qed.
End Proofs.

Section More.
Context {G : Type}.
Implicit Types st : store G.

Lemma NoDup_insert {A} k (x : A) l : NoDup l -> ~ In x l -> NoDup (insert_at k x l).
Proof.
  intros HN HI. unfold insert_at. rewrite <- (firstn_skipn k l) in HN, HI.
  apply NoDup_Add with (a := x) (l := firstn k l ++ skipn k l); [apply Add_app|]. auto.
Qed.

Lemma unshared_kept probability u init append d st x : seg_sane st x -> NoDup (sg_genome x) ->
  (forall x' st', add_segment probability u init append d st x = Ok (x', st') ->
     seg_sane st' x' /\ NoDup (sg_genome x')) /\
  (forall x' st', remove_segment probability u d st x = Ok (x', st') ->
     seg_sane st' x' /\ NoDup (sg_genome x')).
Proof.
  intros HS HN. unfold seg_sane in *. split; intros x' st' H.
  - unfold add_segment in H. destruct (Qltb u probability); [|injection H as <- <-; auto].
    cbn [new_seg] in H.
    assert (HI : ~ In (s_next st) (sg_genome x)).
    { intros C. rewrite Forall_forall in HS. apply HS in C. lia. }
    assert (HS' : Forall (fun a => a < S (s_next st)) (sg_genome x)).
    { eapply Forall_impl; [|exact HS]. cbv beta. intros; lia. }
    destruct append.
    + injection H as <- <-. cbn. split.
      * apply Forall_app. split; auto.
      * pose proof (NoDup_insert (length (sg_genome x)) _ _ HN HI) as E. unfold insert_at in E.
        rewrite firstn_all, skipn_all in E. exact E.
    + destruct (randrange d (length (sg_genome x) + 1)) as [k|e]; [|discriminate]. cbn in H.
      injection H as <- <-. cbn. split; [|apply NoDup_insert; auto].
      unfold insert_at. rewrite <- (firstn_skipn k (sg_genome x)) in HS'. apply Forall_app in HS'. destruct HS'.
      apply Forall_app. split; auto.
  - unfold remove_segment in H.
    destruct (1 <? length (sg_genome x)); [|injection H as <- <-; auto].
    destruct (Qltb u probability); [|injection H as <- <-; auto].
    destruct (randrange d (length (sg_genome x))) as [k|e] eqn:ER; [|discriminate]. cbn in H.
    injection H as <- <-. cbn. unfold randrange in ER. destruct (Nat.eqb_spec (length (sg_genome x)) 0); [discriminate|].
    injection ER as ER. pose proof (Nat.mod_upper_bound d (length (sg_genome x)) n) as Hk. rewrite ER in Hk.
    destruct (delete_at_spec k (sg_genome x) Hk) as (l1 & y & l2 & E1 & ->). rewrite E1 in HN, HS.
    split; [|eapply NoDup_remove_1; eauto].
    apply Forall_app in HS. destruct HS as [A B]. apply Forall_app. split; auto. inversion B; auto.
Qed.

Lemma apply_mutation_unshared (mutator : Q -> nat -> list G -> result (list G)) expected st x :
  NoDup (sg_genome x) -> sg_genome x <> [] ->
  (forall p j g, exists g', mutator p j g = Ok g') ->
  exists x' st' p, apply_mutation mutator expected st x = Ok (x', st') /\
    sg_fitness x' = None /\ length (contents st' x') = length (contents st x) /\
    (p * inject_Z (Z.of_nat (length (contents st x))) == expected)%Q /\
    forall j g, nth_error (contents st x) j = Some g ->
      exists g', nth_error (contents st' x') j = Some g' /\ mutator p j g = Ok g'.
Proof.
  intros HN HE HM. unfold apply_mutation, compute_expected_probability.
  destruct (Nat.eqb_spec (length (sg_genome x)) 0) as [E|E]; [destruct (sg_genome x); [contradiction|discriminate]|].
  cbn [bind]. set (p := (1 / inject_Z (Z.of_nat (length (sg_genome x))) * expected)%Q).
  destruct (mutate_segments_spec (mutator p) (sg_genome x) 0 st HN (HM p)) as (st' & -> & _ & HC).
  cbn [bind]. exists (mk_sind (sg_genome x) None), st', p. split; auto. cbn. unfold contents. cbn.
  rewrite !map_length. split; auto. split; auto. split.
  - unfold p. pose proof (len_pos _ E). field. lra.
  - intros j g Hg. rewrite nth_error_map in Hg. destruct (nth_error (sg_genome x) j) as [a|] eqn:Ea; [|discriminate].
    cbn in Hg. injection Hg as <-. exists (s_seg st' a). split.
    + rewrite nth_error_map, Ea. auto.
    + exact (HC j a Ea).
Qed.
End More.
