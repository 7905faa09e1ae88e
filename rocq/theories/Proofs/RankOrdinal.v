(** rank_ordinal_sort computes the front numbers. *)
From Coq Require Import Lia Permutation Sorted.
From Verif Require Import Model.Base Model.PyList Model.Pareto Spec.Order Spec.Pareto Proofs.Order Proofs.Pareto.

(** ** numbers without NaN are totally preordered *)
Lemma leb_ltb a b : viable a -> viable b -> num_leb a b = negb (num_ltb b a).
Proof.
  intros Ha Hb. destruct (num_ltb b a) eqn:E; simpl.
  - apply num_ltb_val in E. destruct (num_leb a b) eqn:F; [|reflexivity]. apply num_leb_val in F.
    destruct (num_val a), (num_val b); tauto.
  - apply num_leb_val. destruct (num_val a) as [x|] eqn:Ea, (num_val b) as [y|] eqn:Eb; try (unfold viable in *; congruence).
    intros H. assert (num_ltb b a = true) by (apply num_ltb_val; rewrite Ea, Eb; exact H). congruence.
Qed.

Lemma ltb_irrefl a : num_ltb a a = false.
Proof.
  destruct (num_ltb a a) eqn:E; [|reflexivity]. apply num_ltb_val in E.
  destruct (num_val a); [destruct (ext_lt_irrefl _ E)|destruct E].
Qed.

Lemma ltb_trans a b c : num_ltb a b = true -> num_ltb b c = true -> num_ltb a c = true.
Proof.
  rewrite !num_ltb_val. destruct (num_val a), (num_val b), (num_val c); try tauto. apply ext_lt_trans.
Qed.

Lemma leb_trans a b c : num_leb a b = true -> num_leb b c = true -> num_leb a c = true.
Proof.
  rewrite !num_leb_val. destruct (num_val a) as [x|], (num_val b) as [y|], (num_val c) as [z|]; try tauto.
  intros H1 H2 H3. destruct (ext_lt_split z y x H3); tauto.
Qed.

Lemma leb_ltb_trans a b c : num_leb a b = true -> num_ltb b c = true -> num_ltb a c = true.
Proof.
  rewrite num_leb_val, !num_ltb_val. destruct (num_val a) as [x|], (num_val b) as [y|], (num_val c) as [z|]; try tauto.
  intros H1 H2. destruct (ext_lt_split y x z H2); tauto.
Qed.

Lemma ltb_leb_trans a b c : num_ltb a b = true -> num_leb b c = true -> num_ltb a c = true.
Proof.
  rewrite num_leb_val, !num_ltb_val. destruct (num_val a) as [x|], (num_val b) as [y|], (num_val c) as [z|]; try tauto.
  intros H1 H2. destruct (ext_lt_split x z y H1); tauto.
Qed.

Lemma ltb_leb a b : num_ltb a b = true -> num_leb a b = true.
Proof. unfold num_leb. intros ->. reflexivity. Qed.

Lemma eqb_leb a b : num_eqb a b = true <-> num_leb a b = true /\ num_leb b a = true.
Proof.
  unfold num_eqb. rewrite !num_leb_val. destruct (num_val a), (num_val b); try (split; intros; try discriminate; tauto).
  rewrite ext_eqb_spec. tauto.
Qed.

Lemma eqb_refl a : viable a -> num_eqb a a = true.
Proof. intros H. apply eqb_leb. rewrite leb_ltb, ltb_irrefl by assumption. auto. Qed.
Lemma eqb_sym a b : num_eqb a b = num_eqb b a.
Proof.
  destruct (num_eqb a b) eqn:E1, (num_eqb b a) eqn:E2; try reflexivity.
  - apply eqb_leb in E1. assert (num_eqb b a = true) by (apply eqb_leb; tauto). congruence.
  - apply eqb_leb in E2. assert (num_eqb a b = true) by (apply eqb_leb; tauto). congruence.
Qed.
Lemma leb_refl a : viable a -> num_leb a a = true.
Proof. intros H. rewrite leb_ltb, ltb_irrefl by assumption. reflexivity. Qed.

Definition vrow (m : nat) (r : list num) : Prop := length r = m /\ Forall viable r.

(** ** rows *)
Definition rle (a b : list num) : Prop := Forall2 (fun x y => num_leb x y = true) a b.

Lemma row_eqb_spec a : forall b, row_eqb a b = true <-> Forall2 (fun x y => num_eqb x y = true) a b.
Proof.
  unfold row_eqb. induction a as [|x a IH]; intros [|y b]; simpl.
  - split; [constructor|reflexivity].
  - split; [discriminate|intros H; inversion H].
  - split; [discriminate|intros H; inversion H].
  - specialize (IH b). rewrite andb_true_iff in *. split.
    + intros [H1 H2]. apply andb_true_iff in H2. destruct H2 as [H2 H3]. constructor; [exact H2|]. apply IH. auto.
    + intros H. inversion H; subst. rewrite H3. apply IH. assumption.
Qed.

Lemma row_eqb_rle a b : row_eqb a b = true <-> rle a b /\ rle b a.
Proof.
  rewrite row_eqb_spec. unfold rle. revert b. induction a as [|x a IH]; intros b; split.
  - intros H. inversion H; subst. split; constructor.
  - intros [H _]. inversion H; subst. constructor.
  - intros H. inversion H; subst. apply IH in H4. apply eqb_leb in H2. split; constructor; tauto.
  - intros [H1 H2]. inversion H1; subst. inversion H2; subst. constructor; [apply eqb_leb; auto|]. apply IH. auto.
Qed.

Lemma rle_trans a b c : rle a b -> rle b c -> rle a c.
Proof.
  unfold rle. intros H. revert c. induction H as [|x y a b Hxy H IH]; intros c H2; inversion H2; subst; constructor.
  - eapply leb_trans; eassumption.
  - apply IH. assumption.
Qed.

Lemma rle_refl m a : vrow m a -> rle a a.
Proof.
  intros [_ H]. unfold rle. induction H; constructor; [apply leb_refl; assumption|assumption].
Qed.

(** dominated rows: at most, and not equal *)
Lemma dominated_rle m a b : vrow m a -> vrow m b -> (dominated_vec a b = true <-> rle a b /\ row_eqb a b = false).
Proof.
  intros [La Va] [Lb Vb]. unfold dominated_vec. rewrite andb_true_iff.
  assert (E : rle a b <-> forallb (fun p => num_leb (fst p) (snd p)) (combine a b) = true).
  { assert (La' : length a = length b) by lia. clear -La'. revert b La'.
    induction a as [|x a IH]; intros [|y b] L; simpl in L; try lia; simpl; [split; [reflexivity|constructor]|].
    rewrite andb_true_iff, <- IH by lia. unfold rle. split; [intros H; inversion H; auto|intros [H1 H2]; constructor; assumption]. }
  rewrite <- E. split.
  - intros [H1 H2]. split; [exact H1|]. destruct (row_eqb a b) eqn:Er; [|reflexivity].
    apply row_eqb_rle in Er. destruct Er as [_ Er]. exfalso.
    apply existsb_exists in H2. destruct H2 as ([x y] & Hin & Hlt). simpl in Hlt.
    clear -Er Hin Hlt. induction Er as [|y' x' b a Hyx H IH]; [destruct Hin|].
    simpl in Hin. destruct Hin as [Heq|Hin]; [|exact (IH Hin)]. injection Heq as <- <-.
    pose proof (ltb_leb_trans _ _ _ Hlt Hyx) as F. rewrite ltb_irrefl in F. discriminate.
  - intros [H1 H2]. split; [exact H1|].
    destruct (existsb (fun p => num_ltb (fst p) (snd p)) (combine a b)) eqn:Ee; [reflexivity|].
    exfalso. assert (rle b a); [|assert (row_eqb a b = true) by (apply row_eqb_rle; auto); congruence].
    clear -H1 Ee Va Vb. unfold rle in *. induction H1 as [|x y a b Hxy H IH]; [constructor|].
    simpl in Ee. apply orb_false_iff in Ee. destruct Ee as [E1 E2].
    inversion Va; subst. inversion Vb; subst. constructor; [|auto].
    rewrite leb_ltb by assumption. rewrite E1. reflexivity.
Qed.

(** ** lexicographic order *)
Lemma lex_irrefl a : lex_ltb a a = false.
Proof.
  induction a as [|x a IH]; [reflexivity|]. simpl. rewrite ltb_irrefl, IH, andb_false_r. reflexivity.
Qed.

Lemma lex_trans m : forall a b c, vrow m a -> vrow m b -> vrow m c ->
  lex_ltb a b = true -> lex_ltb b c = true -> lex_ltb a c = true.
Proof.
  intros a b c [La Va] [Lb Vb] [Lc Vc]. revert m b c La Lb Lc Vb Vc.
  induction Va as [|x a Hx Va IH]; intros m b c La Lb Lc Vb Vc; [discriminate|].
  destruct b as [|y b]; [discriminate|]. destruct c as [|z c]; [simpl; intros _ H; discriminate|].
  inversion Vb; subst. inversion Vc; subst. simpl in *.
  rewrite !orb_true_iff, !andb_true_iff. intros [P|[P P']] [R|[R R']].
  - left. eapply ltb_trans; eassumption.
  - left. apply eqb_leb in R. eapply ltb_leb_trans; [exact P|tauto].
  - left. apply eqb_leb in P. eapply leb_ltb_trans; [|exact R]. tauto.
  - right. apply eqb_leb in P. apply eqb_leb in R. split.
    + apply eqb_leb. split; eapply leb_trans; try apply P; try apply R.
    + apply (IH (length a) b c); auto; lia.
Qed.

Lemma lex_total m : forall a b, vrow m a -> vrow m b ->
  lex_ltb a b = true \/ row_eqb a b = true \/ lex_ltb b a = true.
Proof.
  intros a b [La Va] [Lb Vb]. revert m b La Lb Vb.
  induction Va as [|x a Hx Va IH]; intros m b La Lb Vb.
  - destruct b; [right; left; reflexivity|simpl in *; lia].
  - destruct b as [|y b]; [simpl in *; lia|]. inversion Vb; subst. simpl in Lb.
    rewrite row_eqb_spec. cbn [lex_ltb]. rewrite !orb_true_iff, !andb_true_iff.
    destruct (num_ltb x y) eqn:E1; [auto|]. destruct (num_ltb y x) eqn:E2; [auto|].
    assert (Exy : num_eqb x y = true).
    { apply eqb_leb. rewrite !leb_ltb, E1, E2 by assumption. auto. }
    rewrite (eqb_sym y x), Exy.
    destruct (IH (length a) b) as [H|[H|H]]; auto; try lia.
    right; left. constructor; [exact Exy|]. apply row_eqb_spec, H.
Qed.

Lemma lex_not_eq a b : lex_ltb a b = true -> row_eqb a b = false.
Proof.
  intros H. destruct (row_eqb a b) eqn:E; [|reflexivity]. apply row_eqb_spec in E. exfalso.
  induction E as [|x y a b Hxy E IH]; [discriminate|]. simpl in H. apply orb_true_iff in H.
  destruct H as [H|H].
  - apply eqb_leb in Hxy. pose proof (ltb_leb_trans _ _ _ H (proj2 Hxy)) as F. rewrite ltb_irrefl in F. discriminate.
  - apply andb_true_iff in H. tauto.
Qed.

Lemma rle_lex m a b : vrow m a -> vrow m b -> rle a b -> lex_ltb b a = false.
Proof.
  intros _ _ H. induction H as [|x y a b Hxy H IH]; [reflexivity|]. simpl.
  destruct (num_ltb y x) eqn:E.
  - pose proof (leb_ltb_trans _ _ _ Hxy E) as F. rewrite ltb_irrefl in F. discriminate.
  - simpl. rewrite IH. apply andb_false_r.
Qed.

(** ** ascending sort *)
Lemma insert_asc_perm {A} (lt : A -> A -> bool) x l : Permutation (x :: l) (insert_asc lt x l).
Proof.
  induction l as [|y l IH]; simpl; [reflexivity|]. destruct (lt y x); [|reflexivity].
  rewrite perm_swap. constructor. exact IH.
Qed.

Lemma sort_asc_perm {A} (lt : A -> A -> bool) l : Permutation l (sort_asc lt l).
Proof. induction l; simpl; [reflexivity|]. rewrite <- insert_asc_perm. constructor. assumption. Qed.

Lemma sort_asc_sorted {A} (lt : A -> A -> bool) (P : A -> Prop) l :
  (forall x y z, P x -> P y -> P z -> lt y x = false -> lt z y = false -> lt z x = false) ->
  (forall x y, P x -> P y -> lt x y = true -> lt y x = false) ->
  Forall P l -> StronglySorted (fun x y => lt y x = false) (sort_asc lt l).
Proof.
  intros Ht Ha. induction l as [|x l IH]; intros HP; [constructor|]. inversion HP; subst. simpl.
  assert (HPs : Forall P (sort_asc lt l)).
  { rewrite <- sort_asc_perm. assumption. }
  specialize (IH H2). clear HP H2. induction (sort_asc lt l) as [|y s IHs]; simpl; [repeat constructor|].
  inversion HPs; subst. inversion IH; subst. destruct (lt y x) eqn:E.
  - constructor; [apply IHs; assumption|].
    assert (Hins : Permutation (x :: s) (insert_asc lt x s)) by apply insert_asc_perm.
    rewrite <- Hins. constructor; [apply Ha; assumption|assumption].
  - constructor; [exact IH|]. constructor; [exact E|]. rewrite Forall_forall in *.
    intros z Hz. apply (Ht x y z); auto.
Qed.

(** a list already in order is left alone *)
Lemma sort_asc_id {A} (lt : A -> A -> bool) l :
  StronglySorted (fun x y => lt y x = false) l -> sort_asc lt l = l.
Proof.
  induction l as [|x l IH]; intros H; [reflexivity|]. inversion H; subst. simpl. rewrite IH by assumption.
  destruct l as [|y l]; [reflexivity|]. simpl. inversion H3; subst. rewrite H4. reflexivity.
Qed.

(** ** the unique rows *)
Lemma drop_dups_incl l : incl (drop_dups l) l.
Proof.
  induction l as [|x [|y l] IH]; [intros z []|apply incl_refl|].
  change (drop_dups (x :: y :: l)) with (if row_eqb x y then drop_dups (y :: l) else x :: drop_dups (y :: l)).
  destruct (row_eqb x y); intros z Hz.
  - right. apply IH, Hz.
  - destruct Hz as [<-|Hz]; [left; reflexivity|right; apply IH, Hz].
Qed.

Lemma row_eqb_refl m r : vrow m r -> row_eqb r r = true.
Proof. intros H. apply row_eqb_rle. split; eapply rle_refl; exact H. Qed.

Lemma row_eqb_sym a b : row_eqb a b = true -> row_eqb b a = true.
Proof. rewrite !row_eqb_rle. tauto. Qed.

Lemma row_eqb_trans a b c : row_eqb a b = true -> row_eqb b c = true -> row_eqb a c = true.
Proof. rewrite !row_eqb_rle. intros [H1 H2] [H3 H4]. split; eapply rle_trans; eassumption. Qed.

Lemma drop_dups_covers m l : Forall (vrow m) l -> forall x, In x l -> exists y, In y (drop_dups l) /\ row_eqb x y = true.
Proof.
  induction l as [|x [|y l] IH]; intros HV z Hz; [destruct Hz| |].
  - destruct Hz as [<-|[]]. exists x. split; [left; reflexivity|]. inversion HV. eapply row_eqb_refl; eassumption.
  - change (drop_dups (x :: y :: l)) with (if row_eqb x y then drop_dups (y :: l) else x :: drop_dups (y :: l)).
    inversion HV; subst. destruct (row_eqb x y) eqn:E.
    + destruct Hz as [<-|Hz].
      * destruct (IH H2 y (or_introl eq_refl)) as (w & Hw & Ew). exists w. split; [exact Hw|].
        eapply row_eqb_trans; eassumption.
      * apply IH; assumption.
    + destruct Hz as [<-|Hz].
      * exists x. split; [left; reflexivity|]. eapply row_eqb_refl; eassumption.
      * destruct (IH H2 z Hz) as (w & Hw & Ew). exists w. split; [right; exact Hw|exact Ew].
Qed.

Lemma lex_ntrans m x y z : vrow m x -> vrow m y -> vrow m z ->
  lex_ltb y x = false -> lex_ltb z y = false -> lex_ltb z x = false.
Proof.
  intros Vx Vy Vz H1 H2. destruct (lex_ltb z x) eqn:E; [|reflexivity].
  destruct (lex_total m x y Vx Vy) as [H|[H|H]]; [| |congruence].
  - rewrite (lex_trans m z x y) in H2 by assumption. discriminate.
  - destruct (lex_total m y z Vy Vz) as [H'|[H'|H']]; [| |congruence].
    + pose proof (lex_trans m y z x Vy Vz Vx H' E) as F. apply lex_not_eq in F. apply row_eqb_sym in H. congruence.
    + pose proof (row_eqb_trans _ _ _ H H') as F. apply row_eqb_sym in F. apply lex_not_eq in E. congruence.
Qed.

Lemma drop_dups_strict m l : Forall (vrow m) l -> StronglySorted (fun x y => lex_ltb y x = false) l ->
  StronglySorted (fun x y => lex_ltb x y = true) (drop_dups l).
Proof.
  induction l as [|x [|y l] IH]; intros HV HS; [constructor|repeat constructor|].
  change (drop_dups (x :: y :: l)) with (if row_eqb x y then drop_dups (y :: l) else x :: drop_dups (y :: l)).
  inversion HV; subst. inversion HS; subst. specialize (IH H2 H3).
  destruct (row_eqb x y) eqn:E; [exact IH|]. constructor; [exact IH|].
  apply Forall_forall. intros z Hz. apply drop_dups_incl in Hz.
  inversion H3; subst. inversion H2; subst. inversion H4; subst.
  assert (Hxy : lex_ltb x y = true). { destruct (lex_total m x y H1 H7) as [G|[G|G]]; congruence. }
  destruct Hz as [<-|Hz]; [exact Hxy|].
  rewrite Forall_forall in *. assert (Vz := H8 z Hz).
  destruct (lex_total m y z H7 Vz) as [G|[G|G]].
  - apply (lex_trans m x y z); assumption.
  - destruct (lex_total m x z H1 Vz) as [G'|[G'|G']]; [exact G'| |].
    + pose proof (row_eqb_trans _ _ _ G' (row_eqb_sym _ _ G)). congruence.
    + pose proof (lex_trans m z x y Vz H1 H7 G' Hxy) as F. apply lex_not_eq in F. apply row_eqb_sym in G. congruence.
  - rewrite (H6 z Hz) in G. discriminate.
Qed.

Lemma unique_rows_facts m rows : Forall (vrow m) rows ->
  Forall (vrow m) (unique_rows rows) /\
  StronglySorted (fun x y => lex_ltb x y = true) (unique_rows rows) /\
  (forall r, In r rows -> exists y, In y (unique_rows rows) /\ row_eqb r y = true) /\
  incl (unique_rows rows) rows.
Proof.
  intros HV. unfold unique_rows.
  assert (HVs : Forall (vrow m) (sort_asc lex_ltb rows)) by (rewrite <- sort_asc_perm; exact HV).
  assert (Hin : incl (drop_dups (sort_asc lex_ltb rows)) rows).
  { intros x Hx. apply drop_dups_incl in Hx. eapply Permutation_in; [apply Permutation_sym, sort_asc_perm|exact Hx]. }
  split; [|split; [|split; [|exact Hin]]].
  - apply Forall_forall. intros x Hx. rewrite Forall_forall in HV. apply HV, Hin, Hx.
  - apply (drop_dups_strict m); [exact HVs|]. apply sort_asc_sorted with (P := vrow m); [| |exact HV].
    + intros x y z. apply lex_ntrans.
    + intros x y Vx Vy H. destruct (lex_ltb y x) eqn:E; [|reflexivity].
      pose proof (lex_trans m x y x Vx Vy Vx H E) as F. rewrite lex_irrefl in F. discriminate.
  - intros r Hr. apply (drop_dups_covers m); [exact HVs|]. eapply Permutation_in; [apply sort_asc_perm|exact Hr].
Qed.

Lemma index_of_spec r l : (exists y, In y l /\ row_eqb r y = true) ->
  index_of r l < length l /\ row_eqb r (nth (index_of r l) l []) = true.
Proof.
  induction l as [|x l IH]; intros (y & Hy & E); [destruct Hy|]. simpl.
  destruct (row_eqb r x) eqn:Ex; [split; [simpl; lia|exact Ex]|].
  destruct Hy as [<-|Hy]; [congruence|]. destruct IH as [I1 I2]; [eauto|]. split; [simpl; lia|exact I2].
Qed.

(** ** one population of unique rows *)
Section Ros.
Variable m : nat.
Variable U : list (list num).
Hypothesis m_pos : 0 < m.
Hypothesis U_rows : Forall (vrow m) U.
Hypothesis U_sorted : StronglySorted (fun x y => lex_ltb x y = true) U.
Let n := length U.
Let row i := nth i U [].

Lemma row_ok i : i < n -> vrow m (row i).
Proof. intros H. rewrite Forall_forall in U_rows. apply U_rows, nth_In, H. Qed.

Lemma entry_viable i k : i < n -> k < m -> viable (entry U i k).
Proof.
  intros Hi Hk. destruct (row_ok i Hi) as [L V]. unfold entry. rewrite Forall_forall in V. apply V, nth_In. fold (row i). lia.
Qed.

Lemma rows_lex i j : i < j < n -> lex_ltb (row i) (row j) = true.
Proof.
  clear m_pos U_rows. unfold n, row. revert i j. induction U_sorted as [|x l HS IH Hx]; intros i j H; [simpl in H; lia|].
  simpl in H. destruct j as [|j]; [lia|]. destruct i as [|i].
  - simpl. rewrite Forall_forall in Hx. apply Hx, nth_In. lia.
  - simpl. apply IH; [exact HS|lia].
Qed.

(** the permutations *)
Lemma permutation_perm k : Permutation (seq 0 n) (permutation_of U k).
Proof. unfold permutation_of. rewrite <- Permutation_rev. apply sort_asc_perm. Qed.

Lemma in_permutation k j : In j (permutation_of U k) <-> j < n.
Proof.
  split; intros H.
  - apply (Permutation_in _ (Permutation_sym (permutation_perm k))) in H. apply in_seq in H. lia.
  - apply (Permutation_in _ (permutation_perm k)). apply in_seq. lia.
Qed.

Lemma StronglySorted_rev {A} (R : A -> A -> Prop) l :
  StronglySorted R l -> StronglySorted (fun x y => R y x) (rev l).
Proof.
  clear. induction 1 as [|x l HS IH Hx]; [constructor|]. simpl.
  assert (G : forall l1, StronglySorted (fun a b => R b a) l1 -> (forall y, In y l1 -> R x y) ->
              StronglySorted (fun a b => R b a) (l1 ++ [x])).
  { induction l1 as [|y l1 IH1]; intros H1 H2; simpl; [repeat constructor|]. inversion H1; subst.
    constructor; [apply IH1; [assumption|intros; apply H2; right; assumption]|].
    apply Forall_app. split; [assumption|]. constructor; [apply H2; left; reflexivity|constructor]. }
  apply G; [exact IH|]. intros y Hy. rewrite Forall_forall in Hx. apply Hx, in_rev, Hy.
Qed.

Lemma permutation_desc k : k < m ->
  StronglySorted (fun i j => num_ltb (entry U i k) (entry U j k) = false) (permutation_of U k).
Proof.
  intros Hk. unfold permutation_of.
  apply (StronglySorted_rev (fun x y => num_ltb (entry U y k) (entry U x k) = false)).
  apply sort_asc_sorted with (P := fun i => i < n).
  - intros x y z Hx Hy Hz H1 H2. destruct (num_ltb (entry U z k) (entry U x k)) eqn:E; [|reflexivity].
    assert (num_leb (entry U x k) (entry U y k) = true) by (rewrite leb_ltb, H1 by (apply entry_viable; assumption); reflexivity).
    assert (num_leb (entry U y k) (entry U z k) = true) by (rewrite leb_ltb, H2 by (apply entry_viable; assumption); reflexivity).
    pose proof (leb_ltb_trans _ _ _ (leb_trans _ _ _ H H0) E) as F. rewrite ltb_irrefl in F. discriminate.
  - intros x y Hx Hy H. destruct (num_ltb (entry U y k) (entry U x k)) eqn:E; [|reflexivity].
    pose proof (ltb_trans _ _ _ H E) as F. rewrite ltb_irrefl in F. discriminate.
  - apply Forall_forall. intros x Hx. apply in_seq in Hx. unfold n. lia.
Qed.

(** the objective rank is the position of the first equal value; everything not larger follows *)
Lemma first_occurrence_split v l :
  let p := first_occurrence v l in
  (forall x, In x (firstn p l) -> num_eqb v x = false) /\
  (forall x r, skipn p l = x :: r -> num_eqb v x = true).
Proof.
  induction l as [|y l IH]; simpl; [split; [intros x []|discriminate]|].
  destruct (num_eqb v y) eqn:E; simpl; [split; [intros x []|intros x r H; injection H as <- _; exact E]|].
  destruct IH as [I1 I2]. split; [|exact I2]. intros x [<-|Hx]; [exact E|apply I1, Hx].
Qed.

Lemma sorted_app_inv {A} (R : A -> A -> Prop) l1 l2 : StronglySorted R (l1 ++ l2) ->
  (forall x y, In x l1 -> In y l2 -> R x y) /\ StronglySorted R l1 /\ StronglySorted R l2.
Proof.
  clear. induction l1 as [|x l1 IH]; simpl; intros H; [repeat split; [intros x y []|constructor|exact H]|].
  inversion H; subst. destruct (IH H2) as (I1 & I2 & I3). apply Forall_app in H3. destruct H3 as [H3 H4].
  rewrite Forall_forall in H4. repeat split; [|constructor; assumption|exact I3].
  intros a b [<-|Ha] Hb; [apply H4, Hb|apply I1; assumption].
Qed.

Lemma dominable_spec i k j : i < n -> k < m ->
  In j (skipn (objective_rank U i k) (permutation_of U k)) <-> j < n /\ num_leb (entry U j k) (entry U i k) = true.
Proof.
  intros Hi Hk. unfold objective_rank. set (perm := permutation_of U k).
  set (v := entry U i k). set (f := fun j => entry U j k).
  set (p := first_occurrence v (map f perm)).
  destruct (first_occurrence_split v (map f perm)) as [F1 F2]. fold p in F1, F2.
  pose proof (permutation_desc k Hk) as HS. fold perm in HS.
  rewrite <- (firstn_skipn p perm) in HS. apply sorted_app_inv in HS. destruct HS as (S1 & S2 & S3).
  assert (Hin : forall x, In x perm <-> x < n) by (intros x; apply in_permutation).
  assert (Hsub1 : forall x, In x (firstn p perm) -> x < n).
  { intros x Hx. apply Hin. rewrite <- (firstn_skipn p perm). apply in_or_app. left. exact Hx. }
  assert (Hsub2 : forall x, In x (skipn p perm) -> x < n).
  { intros x Hx. apply Hin. rewrite <- (firstn_skipn p perm). apply in_or_app. right. exact Hx. }
  assert (Hvi : viable v) by (apply entry_viable; assumption).
  assert (Hi2 : In i (skipn p perm)).
  { assert (Hip : In i perm) by (apply Hin; exact Hi). rewrite <- (firstn_skipn p perm) in Hip.
    apply in_app_or in Hip. destruct Hip as [Hip|Hip]; [|exact Hip]. exfalso.
    assert (num_eqb v (f i) = false).
    { apply F1. rewrite firstn_map. apply in_map, Hip. }
    unfold f in H. fold v in H. rewrite eqb_refl in H by exact Hvi. discriminate. }
  split.
  - intros Hj. assert (Hjn := Hsub2 j Hj). split; [exact Hjn|].
    assert (Vj : viable (entry U j k)) by (apply entry_viable; assumption).
    destruct (skipn p perm) as [|h r] eqn:Es; [destruct Hj|].
    assert (Eh : num_eqb v (f h) = true).
    { apply (F2 (f h) (map f r)). rewrite skipn_map, Es. reflexivity. }
    apply eqb_leb in Eh. apply leb_trans with (f h); [|tauto].
    assert (Vh : viable (f h)) by (apply entry_viable; [apply Hsub2; left; reflexivity|exact Hk]).
    destruct Hj as [<-|Hj]; [apply leb_refl, Vh|].
    inversion S3; subst. rewrite Forall_forall in H2. specialize (H2 j Hj). cbv beta in H2.
    rewrite leb_ltb by assumption. unfold f. rewrite H2. reflexivity.
  - intros [Hjn Hle]. assert (Hjp : In j perm) by (apply Hin; exact Hjn).
    rewrite <- (firstn_skipn p perm) in Hjp. apply in_app_or in Hjp. destruct Hjp as [Hjp|Hjp]; [|exact Hjp].
    exfalso. specialize (S1 j i Hjp Hi2). cbv beta in S1.
    assert (E : num_eqb v (f j) = false) by (apply F1; rewrite firstn_map; apply in_map, Hjp).
    assert (E' : num_eqb v (f j) = true); [|congruence].
    apply eqb_leb. split; [|exact Hle]. unfold v, f. rewrite leb_ltb by (apply entry_viable; assumption).
    rewrite S1. reflexivity.
Qed.

Lemma objective_rank_le i j k : i < n -> j < n -> k < m ->
  (objective_rank U i k <= objective_rank U j k <-> num_leb (entry U j k) (entry U i k) = true).
Proof.
  intros Hi Hj Hk.
  assert (Hle : forall a b, a < n -> b < n -> num_leb (entry U b k) (entry U a k) = true -> objective_rank U a k <= objective_rank U b k).
  { intros a b Ha Hb Hab. destruct (Nat.le_gt_cases (objective_rank U a k) (objective_rank U b k)) as [H|H]; [exact H|].
    exfalso.
    (* b's first equal element sits before a's position, so it is not in a's dominable part *)
    set (perm := permutation_of U k) in *.
    assert (Hlen : forall c, c < n -> objective_rank U c k < length perm).
    { intros c Hc. assert (Hcin : In c (skipn (objective_rank U c k) perm)).
      { apply dominable_spec; [exact Hc|exact Hk|]. split; [exact Hc|]. apply leb_refl, entry_viable; assumption. }
      destruct (Nat.le_gt_cases (length perm) (objective_rank U c k)) as [G|G]; [|exact G].
      rewrite skipn_all2 in Hcin by exact G. destruct Hcin. }
    pose proof (Hlen b Hb) as Lb.
    (* head of b's part *)
    destruct (skipn (objective_rank U b k) perm) as [|h r] eqn:Es.
    { assert (length (skipn (objective_rank U b k) perm) = 0) by (rewrite Es; reflexivity). rewrite skipn_length in H0. lia. }
    assert (Hh : In h (skipn (objective_rank U b k) perm)) by (rewrite Es; left; reflexivity).
    assert (Hhb := proj1 (dominable_spec b k h Hb Hk) Hh). destruct Hhb as [Hhn Hhb].
    assert (Hha : In h (skipn (objective_rank U a k) perm)).
    { apply dominable_spec; [exact Ha|exact Hk|]. split; [exact Hhn|]. eapply leb_trans; eassumption. }
    assert (ND : NoDup perm).
    { apply (Permutation_NoDup (permutation_perm k)), seq_NoDup. }
    (* h occurs at position rank b and again at or after rank a > rank b *)
    assert (Hhr : In h r).
    { assert (Esk : skipn (objective_rank U a k) perm = skipn (objective_rank U a k - objective_rank U b k) (skipn (objective_rank U b k) perm)).
      { assert (G : forall (l : list nat) x y, skipn x (skipn y l) = skipn (y + x) l).
        { clear. induction l as [|z l IH]; intros x y; [rewrite !skipn_nil; reflexivity|]. destruct y; [reflexivity|simpl; apply IH]. }
        rewrite G. f_equal. lia. }
      rewrite Esk, Es in Hha. destruct (objective_rank U a k - objective_rank U b k) as [|d] eqn:Ed; [lia|].
      simpl in Hha. rewrite <- (firstn_skipn d r). apply in_or_app. right. exact Hha. }
    rewrite <- (firstn_skipn (objective_rank U b k) perm), Es in ND. apply NoDup_remove_2 in ND.
    apply ND. apply in_or_app. right. exact Hhr. }
  split; [|apply Hle; assumption]. intros H.
  destruct (num_ltb (entry U i k) (entry U j k)) eqn:E.
  - (* i is smaller than j: strictly later *)
    exfalso. assert (Hji : objective_rank U j k <= objective_rank U i k) by (apply Hle; [assumption|assumption|apply ltb_leb, E]).
    assert (Heq : objective_rank U i k = objective_rank U j k) by lia.
    assert (Hjin : In j (skipn (objective_rank U i k) (permutation_of U k))).
    { rewrite Heq. apply dominable_spec; [exact Hj|exact Hk|]. split; [exact Hj|]. apply leb_refl, entry_viable; assumption. }
    apply dominable_spec in Hjin; [|exact Hi|exact Hk]. destruct Hjin as [_ Hc].
    pose proof (leb_ltb_trans _ _ _ Hc E) as F. rewrite ltb_irrefl in F. discriminate.
  - rewrite leb_ltb by (apply entry_viable; assumption). rewrite E. reflexivity.
Qed.

Lemma argmax_from_lt best bestv pos l : best < pos -> argmax_from best bestv pos l < pos + length l.
Proof.
  clear. revert best bestv pos. induction l as [|v l IH]; intros best bestv pos H; simpl; [lia|].
  destruct (bestv <? v).
  - specialize (IH pos v (S pos)). lia.
  - specialize (IH best bestv (S pos)). lia.
Qed.

Lemma argmax_lt l : l <> [] -> argmax l < length l.
Proof.
  destruct l as [|v l]; [congruence|]. intros _. simpl. pose proof (argmax_from_lt 0 v 1 l). lia.
Qed.

Definition below j i : Prop := forall k, k < m -> num_leb (entry U j k) (entry U i k) = true.

Lemma forallb_le_ranks i j : i < n -> j < n ->
  forallb (fun p => fst p <=? snd p) (combine (ranks_of U m i) (ranks_of U m j)) = true <-> below j i.
Proof.
  intros Hi Hj. unfold ranks_of, below.
  rewrite forallb_forall. split.
  - intros H k Hk. apply objective_rank_le; try assumption. apply Nat.leb_le.
    apply (H (objective_rank U i k, objective_rank U j k)).
    assert (G : forall l, In k l -> In (objective_rank U i k, objective_rank U j k) (combine (map (objective_rank U i) l) (map (objective_rank U j) l))).
    { induction l as [|a l IH]; [intros []|]. intros [->|Hin]; [left; reflexivity|right; apply IH, Hin]. }
    apply G. apply in_seq. lia.
  - intros H [a b] Hab.
    assert (G : forall l, In (a, b) (combine (map (objective_rank U i) l) (map (objective_rank U j) l)) ->
       exists k, In k l /\ a = objective_rank U i k /\ b = objective_rank U j k).
    { induction l as [|c l IH]; [intros []|]. intros [E|Hin].
      - injection E as <- <-. exists c. split; [left; reflexivity|auto].
      - destruct (IH Hin) as (k & Hk & E). exists k. split; [right; exact Hk|exact E]. }
    apply G in Hab. destruct Hab as (k & Hk & -> & ->). apply in_seq in Hk. simpl. apply Nat.leb_le.
    apply objective_rank_le; try assumption; [lia|]. apply H. lia.
Qed.

Lemma ros_turn_spec ranks i j : i < n -> j < n ->
  (ranks i = ranks j /\ below j i -> ros_turn U m ranks i j = S (ranks j)) /\
  (~ (ranks i = ranks j /\ below j i) -> ros_turn U m ranks i j = ranks j).
Proof.
  intros Hi Hj. unfold ros_turn.
  set (k := argmax (ranks_of U m i)).
  assert (Hk : k < m).
  { unfold k. assert (L : length (ranks_of U m i) = m) by (unfold ranks_of; rewrite map_length, seq_length; reflexivity).
    pose proof (argmax_lt (ranks_of U m i)) as G. rewrite L in G. apply G. intros E. rewrite E in L. simpl in L. lia. }
  match goal with |- context [existsb (Nat.eqb j) ?h] => set (hit := h) end.
  assert (Hh : In j hit <-> ranks i = ranks j /\ below j i).
  { unfold hit. rewrite !filter_In, dominable_spec by assumption. rewrite forallb_le_ranks by assumption.
    rewrite Nat.eqb_eq. split; [tauto|]. intros [H1 H2]. repeat split; auto. }
  assert (He : existsb (Nat.eqb j) hit = true <-> In j hit).
  { rewrite existsb_exists. split.
    - intros (x & Hx & E). apply Nat.eqb_eq in E. subst. exact Hx.
    - intros H. exists j. split; [exact H|apply Nat.eqb_refl]. }
  split; intros H.
  - rewrite (proj2 He (proj2 Hh H)). reflexivity.
  - destruct (existsb (Nat.eqb j) hit) eqn:E; [|reflexivity]. exfalso. apply H, Hh, He. reflexivity.
Qed.

(** dominance among the unique rows *)
Definition rdom i j : Prop := dominated_vec (row j) (row i) = true.

Lemma below_rle j i : i < n -> j < n -> (below j i <-> rle (row j) (row i)).
Proof.
  intros Hi Hj. destruct (row_ok i Hi) as [Li _]. destruct (row_ok j Hj) as [Lj _].
  unfold below, entry. fold (row i) (row j). rewrite <- Li. assert (L : length (row j) = length (row i)) by lia.
  clear -L. revert L. generalize (row i). generalize (row j). unfold rle.
  induction l as [|x l IH]; intros [|y l'] L; simpl in L; try lia.
  - split; [constructor|simpl; intros; lia].
  - split.
    + intros H. constructor; [exact (H 0 ltac:(simpl; lia))|]. apply IH; [lia|]. intros k Hk. apply (H (S k)). simpl. lia.
    + intros H. inversion H; subst. intros [|k] Hk; simpl; [assumption|].
      apply (proj2 (IH l' ltac:(lia))); [assumption|simpl in Hk; lia].
Qed.

Lemma rows_distinct i j : i < n -> j < n -> row_eqb (row i) (row j) = true -> i = j.
Proof.
  intros Hi Hj E. destruct (Nat.lt_trichotomy i j) as [H|[H|H]]; [|exact H|].
  - pose proof (rows_lex i j ltac:(lia)) as F. apply lex_not_eq in F. congruence.
  - pose proof (rows_lex j i ltac:(lia)) as F. apply lex_not_eq in F. apply row_eqb_sym in E. congruence.
Qed.

Lemma below_cases j i : i < n -> j < n -> (below j i <-> j = i \/ rdom i j).
Proof.
  intros Hi Hj. rewrite below_rle by assumption. unfold rdom.
  rewrite (dominated_rle m) by (apply row_ok; assumption). split.
  - intros H. destruct (row_eqb (row j) (row i)) eqn:E; [left; apply rows_distinct; assumption|right; auto].
  - intros [->|[H _]]; [eapply rle_refl, row_ok; assumption|exact H].
Qed.

Lemma rdom_lt i j : i < n -> j < n -> rdom i j -> j < i.
Proof.
  intros Hi Hj H. apply (dominated_rle m) in H; [|apply row_ok; assumption|apply row_ok; assumption].
  destruct H as [H1 H2]. destruct (Nat.lt_trichotomy j i) as [L|[L|L]]; [exact L| |].
  - subst. rewrite (row_eqb_refl m) in H2 by (apply row_ok; assumption). discriminate.
  - pose proof (rows_lex i j ltac:(lia)) as F.
    rewrite (rle_lex m (row j) (row i)) in F by (try apply row_ok; assumption). discriminate.
Qed.

Lemma rdom_trans i j k : i < n -> j < n -> k < n -> rdom i j -> rdom j k -> rdom i k.
Proof.
  intros Hi Hj Hk H1 H2. pose proof (rdom_lt _ _ Hi Hj H1). pose proof (rdom_lt _ _ Hj Hk H2).
  apply (dominated_rle m) in H1; [|apply row_ok; assumption|apply row_ok; assumption].
  apply (dominated_rle m) in H2; [|apply row_ok; assumption|apply row_ok; assumption].
  apply (dominated_rle m); [apply row_ok; assumption|apply row_ok; assumption|].
  split; [eapply rle_trans; [apply H2|apply H1]|].
  destruct (row_eqb (row k) (row i)) eqn:E; [|reflexivity]. apply rows_distinct in E; [lia|assumption|assumption].
Qed.

(** the first permutation visits the rows from last to first *)
Lemma permutation_0 : permutation_of U 0 = rev (seq 0 n).
Proof.
  unfold permutation_of. f_equal. apply sort_asc_id. fold n.
  assert (G : forall len a, a + len <= n ->
     StronglySorted (fun x y => num_ltb (entry U y 0) (entry U x 0) = false) (seq a len)).
  { induction len as [|len IH]; intros a Ha; simpl; [constructor|]. constructor; [apply IH; lia|].
    apply Forall_forall. intros y Hy. apply in_seq in Hy.
    pose proof (rows_lex a y ltac:(lia)) as F. unfold entry. fold (row a) (row y).
    destruct (row_ok a ltac:(lia)) as [La _]. destruct (row_ok y ltac:(lia)) as [Ly _].
    destruct (row a) as [|u ra]; [simpl in La; lia|]. destruct (row y) as [|w ry]; [simpl in Ly; lia|].
    simpl in *. destruct (num_ltb w u) eqn:E; [|reflexivity]. apply orb_true_iff in F. destruct F as [F|F].
    - pose proof (ltb_trans _ _ _ F E) as F2. rewrite ltb_irrefl in F2. discriminate.
    - apply andb_true_iff in F. destruct F as [F _]. apply eqb_leb in F.
      pose proof (leb_ltb_trans _ _ _ (proj1 F) E) as F2. rewrite ltb_irrefl in F2. discriminate. }
  apply G. lia.
Qed.

(** sweep invariant: rows [t..n-1] are finished *)
Definition sweep (t : nat) (ranks : nat -> nat) : Prop :=
  (forall j, t <= j < n -> 1 <= ranks j /\
     (forall i, i < n -> rdom i j -> ranks i < ranks j) /\
     (ranks j = 1 \/ exists i, i < n /\ rdom i j /\ ranks j = S (ranks i))) /\
  (forall j, j < t -> 
     (forall i, t <= i < n -> rdom i j -> ranks i <= ranks j) /\
     (ranks j = 0 \/ exists i, t <= i < n /\ rdom i j /\ ranks i = ranks j)).

Lemma sweep_step t ranks : S t <= n -> sweep (S t) ranks -> sweep t (ros_turn U m ranks t).
Proof.
  intros Ht [A B]. set (r' := ros_turn U m ranks t).
  assert (Hself : r' t = S (ranks t)).
  { unfold r'. apply ros_turn_spec; [lia|lia|]. split; [reflexivity|]. apply below_cases; [lia|lia|left; reflexivity]. }
  assert (Hhi : forall j, S t <= j < n -> r' j = ranks j).
  { intros j Hj. unfold r'. apply ros_turn_spec; [lia|lia|]. intros [_ Hb]. apply below_cases in Hb; [|lia|lia].
    destruct Hb as [->|Hb]; [lia|]. apply rdom_lt in Hb; lia. }
  assert (Hdom_hi : forall j i, t <= j < n -> i < n -> rdom i j -> S t <= i < n).
  { intros j i Hj Hi Hd. apply rdom_lt in Hd; lia. }
  split.
  - intros j Hj. destruct (Nat.eq_dec j t) as [->|Hne].
    + rewrite Hself. destruct (B t (Nat.lt_succ_diag_r t)) as [B1 B2]. split; [lia|]. split.
      * intros i Hi Hd. pose proof (Hdom_hi t i Hj Hi Hd). rewrite Hhi by assumption. specialize (B1 i H Hd). lia.
      * destruct B2 as [B2|(i & Hi & Hd & B2)]; [left; lia|right]. exists i. rewrite Hhi by exact Hi.
        split; [lia|]. split; [exact Hd|lia].
    + assert (Hj' : S t <= j < n) by lia. destruct (A j Hj') as (A1 & A2 & A3). rewrite Hhi by exact Hj'.
      split; [exact A1|]. split.
      * intros i Hi Hd. pose proof (Hdom_hi j i Hj Hi Hd). rewrite Hhi by assumption. apply A2; assumption.
      * destruct A3 as [A3|(i & Hi & Hd & A3)]; [left; exact A3|right]. exists i.
        pose proof (Hdom_hi j i Hj Hi Hd). rewrite Hhi by assumption. auto.
  - intros j Hj. destruct (B j ltac:(lia)) as [B1 B2]. destruct (B t (Nat.lt_succ_diag_r t)) as [T1 T2].
    destruct (ros_turn_spec ranks t j ltac:(lia) ltac:(lia)) as [R1 R2]. fold r' in R1, R2.
    assert (Dec : rdom t j \/ ~ rdom t j).
    { unfold rdom. destruct (dominated_vec (row j) (row t)); [left; reflexivity|right; discriminate]. }
    destruct Dec as [Hd|Hd].
    + assert (Hb : below j t) by (apply below_cases; [lia|lia|right; exact Hd]).
      assert (Hge : ranks t <= ranks j).
      { destruct T2 as [->|(d & Hd1 & Hd2 & <-)]; [lia|]. apply B1; [exact Hd1|].
        apply (rdom_trans d t j); try lia; assumption. }
      destruct (Nat.eq_dec (ranks t) (ranks j)) as [E|E].
      * rewrite R1 by auto. split.
        -- intros i Hi Hdi. destruct (Nat.eq_dec i t) as [->|Hne]; [rewrite Hself; lia|].
           rewrite Hhi by lia. specialize (B1 i ltac:(lia) Hdi). lia.
        -- right. exists t. rewrite Hself. split; [lia|]. split; [exact Hd|lia].
      * rewrite R2 by tauto. split.
        -- intros i Hi Hdi. destruct (Nat.eq_dec i t) as [->|Hne]; [rewrite Hself; lia|].
           rewrite Hhi by lia. apply B1; [lia|exact Hdi].
        -- right. destruct B2 as [B2|(i & Hi & Hdi & B2)]; [lia|]. exists i. rewrite Hhi by exact Hi.
           split; [lia|]. auto.
    + assert (Hnb : ~ below j t). { intros Hb. apply below_cases in Hb; [|lia|lia]. destruct Hb; [lia|contradiction]. }
      rewrite R2 by tauto. split.
      * intros i Hi Hdi. destruct (Nat.eq_dec i t) as [->|Hne]; [contradiction|].
        rewrite Hhi by lia. apply B1; [lia|exact Hdi].
      * destruct B2 as [B2|(i & Hi & Hdi & B2)]; [left; exact B2|right]. exists i. rewrite Hhi by exact Hi.
        split; [lia|]. auto.
Qed.

Lemma sweep_all : forall t ranks, t <= n -> sweep t ranks ->
  sweep 0 (fold_left (ros_turn U m) (rev (seq 0 t)) ranks).
Proof.
  induction t as [|t IH]; intros ranks Ht H; [exact H|].
  rewrite seq_S, rev_app_distr. cbn [rev app fold_left plus]. apply IH; [lia|]. apply sweep_step; assumption.
Qed.

Lemma ros_ranks_spec : sweep 0 (ros_ranks U m).
Proof.
  unfold ros_ranks. rewrite permutation_0. apply sweep_all; [lia|]. split; [intros j Hj; lia|].
  intros j Hj. split; [intros i Hi; lia|left; reflexivity].
Qed.
End Ros.

(** ** the whole operator *)

Lemma viable_neg x : viable x -> viable (num_neg x).
Proof. unfold viable. rewrite num_val_neg. destruct (num_val x); simpl; congruence. Qed.

Lemma signed_vrow mx f : length f = length mx -> Forall viable f -> vrow (length mx) (signed mx f).
Proof.
  intros L V. revert f L V. induction mx as [|b mx IH]; intros [|x f] L V; simpl in L; try lia; [split; [reflexivity|constructor]|].
  inversion V; subst. destruct (IH f ltac:(lia) H2) as [I1 I2]. rewrite signed_cons. split; [simpl; f_equal; exact I1|].
  constructor; [|exact I2]. unfold sgn. destruct b; [assumption|apply viable_neg; assumption].
Qed.

Lemma dominated_vec_compat m a b a' b' : vrow m a -> vrow m b -> vrow m a' -> vrow m b' ->
  row_eqb a a' = true -> row_eqb b b' = true -> dominated_vec a b = true -> dominated_vec a' b' = true.
Proof.
  intros Va Vb Va' Vb' Ea Eb H. apply (dominated_rle m) in H; [|assumption|assumption].
  apply (dominated_rle m); [assumption|assumption|]. destruct H as [H1 H2].
  pose proof Ea as Ea'. pose proof Eb as Eb'. apply row_eqb_rle in Ea', Eb'. split.
  - eapply rle_trans; [apply Ea'|]. eapply rle_trans; [exact H1|apply Eb'].
  - destruct (row_eqb a' b') eqn:E; [|reflexivity].
    rewrite (row_eqb_trans a a' b Ea (row_eqb_trans a' b' b E (row_eqb_sym _ _ Eb))) in H2. discriminate.
Qed.

Lemma fold_set_at (g : mo -> nat) l : (forall x y, In x l -> In y l -> o_id x = o_id y -> g x = g y) ->
  forall before x, In x l -> fold_left (fun rk y => set_at rk (o_id y) (g y)) l before (o_id x) = g x.
Proof.
  induction l as [|a l IH] using rev_ind; intros Hc before x Hx; [destruct Hx|].
  rewrite fold_left_app. simpl. unfold set_at at 1. destruct (Nat.eqb_spec (o_id x) (o_id a)) as [E|E].
  - apply Hc; [apply in_or_app; right; left; reflexivity|exact Hx|symmetry; exact E].
  - apply in_app_or in Hx. destruct Hx as [Hx|[<-|[]]]; [|congruence]. apply IH; [|exact Hx].
    intros y z Hy Hz. apply Hc; apply in_or_app; left; assumption.
Qed.

Lemma rank_ordinal_correct mx population parents before :
  let working := match parents with Some ps => population ++ ps | None => population end in
  mx <> [] -> working <> [] -> (forall x y, In x working -> In y working -> o_id x = o_id y -> x = y) ->
  numeric_vectors mx working ->
  exists rank, rank_ordinal_sort mx population parents before = Ok (working, rank) /\
    front_numbers (fun y x => dominates mx (o_fit y) (o_fit x)) working (fun x => rank (o_id x)).
Proof.
  intros working Hmx Hne Hid Hv. unfold rank_ordinal_sort. fold working.
  destruct working as [|w0 ws] eqn:Ew; [congruence|]. rewrite <- Ew in *. clear Hne.
  clear w0 ws Ew.
  set (m := length mx). set (rows := map (fun x => signed mx (o_fit x)) working).
  set (U := unique_rows rows). set (ranks := ros_ranks U m). set (ix := fun x => index_of (signed mx (o_fit x)) U).
  assert (Hmpos : 0 < m) by (unfold m; destruct mx; [congruence|simpl; lia]).
  assert (Hrow : forall x, In x working -> vrow m (signed mx (o_fit x))).
  { intros x Hx. destruct (Hv x Hx). apply signed_vrow; assumption. }
  assert (HR : Forall (vrow m) rows).
  { apply Forall_forall. intros r Hr. apply in_map_iff in Hr. destruct Hr as (x & <- & Hx). apply Hrow, Hx. }
  destruct (unique_rows_facts m rows HR) as (U1 & U2 & U3 & U4). fold U in U1, U2, U3, U4.
  assert (Hix : forall x, In x working -> ix x < length U /\ row_eqb (signed mx (o_fit x)) (nth (ix x) U []) = true).
  { intros x Hx. apply index_of_spec, U3. apply in_map_iff. eauto. }
  destruct (ros_ranks_spec m U Hmpos U1 U2) as [S1 _]. fold ranks in S1.
  assert (Hdom : forall y x, In x working -> In y working ->
     (dominates mx (o_fit y) (o_fit x) <-> rdom U (ix y) (ix x))).
  { intros y x Hx Hy. rewrite <- mo_worse_than_spec. unfold mo_worse_than, rdom.
    destruct (Hix x Hx) as [X1 X2]. destruct (Hix y Hy) as [Y1 Y2].
    assert (Vx := row_ok m U U1 (ix x) X1). assert (Vy := row_ok m U U1 (ix y) Y1). split.
    - apply (dominated_vec_compat m); try apply Hrow; assumption.
    - apply (dominated_vec_compat m); try apply Hrow; try assumption; apply row_eqb_sym; assumption. }
  exists (fold_left (fun rk x => set_at rk (o_id x) (ranks (ix x))) working before).
  split; [reflexivity|].
  assert (Hrk : forall x, In x working -> fold_left (fun rk x => set_at rk (o_id x) (ranks (ix x))) working before (o_id x) = ranks (ix x)).
  { intros x Hx. apply (fold_set_at (fun x => ranks (ix x))); [|exact Hx].
    intros a b Ha Hb E. rewrite (Hid a b Ha Hb E). reflexivity. }
  intros x Hx. rewrite Hrk by exact Hx. destruct (Hix x Hx) as [X1 X2].
  destruct (S1 (ix x) (conj (Nat.le_0_l _) X1)) as (A & B & C). split; [exact A|]. split.
  - intros y Hy Hd. rewrite Hrk by exact Hy. apply B; [apply Hix, Hy|]. apply Hdom; assumption.
  - destruct C as [C|(i & Hi & Hd & C)]; [left; exact C|right].
    assert (Hin : In (nth i U []) rows) by (apply U4, nth_In, Hi).
    apply in_map_iff in Hin. destruct Hin as (y & Ey & Hy).
    assert (Eiy : ix y = i).
    { destruct (Hix y Hy) as [Y1 Y2]. apply (rows_distinct m U); auto.
      apply row_eqb_sym. rewrite <- Ey. exact Y2. }
    exists y. rewrite Hrk, Eiy by exact Hy. split; [exact Hy|]. split; [|exact C].
    apply Hdom; [exact Hx|exact Hy|]. rewrite Eiy. exact Hd.
Qed.

Lemma sorts_agree mx population parents before before' fuel :
  let working := match parents with Some ps => population ++ ps | None => population end in
  mx <> [] -> population <> [] -> NoDup (map o_id working) -> numeric_vectors mx working -> length working < fuel ->
  exists st rank,
    fast_nondominated_sort (mo_gt mx) fuel population parents before = Some (Ok (working, st)) /\
    rank_ordinal_sort mx population parents before' = Ok (working, rank) /\
    forall x, In x working -> f_rank st (o_id x) = rank (o_id x).
Proof.
  intros working Hmx Hne Hid Hv Hf.
  destruct (fast_sort_correct mx population parents before fuel Hne Hid) as (st & R1 & F1).
  { intros x Hx. apply Hv, Hx. } { exact Hf. }
  assert (Hw : working <> []).
  { unfold working. destruct parents; [|exact Hne]. destruct population; [congruence|discriminate]. }
  destruct (rank_ordinal_correct mx population parents before' Hmx Hw) as (rank & R2 & F2).
  { intros x y Hx Hy. apply (same_id working Hid x y Hx Hy). } { exact Hv. }
  exists st, rank. split; [exact R1|]. split; [exact R2|].
  intros x Hx. exact (front_numbers_unique _ working _ _ F1 F2 x Hx).
Qed.
