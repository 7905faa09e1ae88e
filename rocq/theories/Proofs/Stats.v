From Verif Require Import Model.Base Model.Transfer Model.Stats Spec.Transfer Spec.Stats.
From Coq Require Import Lia Lqa Sorted Permutation.

Lemma Forall2_imp {A B} (R R' : A -> B -> Prop) l m : (forall a b, R a b -> R' a b) -> Forall2 R l m -> Forall2 R' l m.
Proof. intros H F. induction F; constructor; auto. Qed.
Lemma F2_length {A B} (R : A -> B -> Prop) l m : Forall2 R l m -> length l = length m.
Proof. induction 1; cbn; auto. Qed.
(** ** dicts *)
Lemma dget_in d : dict d -> forall k v, dget d k = Some v <-> In (k, v) d.
Proof.
  unfold dict. induction d as [|[k' v'] d IH]; intros N k v; cbn; [split; [discriminate|tauto]|].
  inversion N as [|? ? Nk N']; subst. destruct (Z.eqb_spec k' k) as [->|H].
  - split; [intro E; inversion E; auto|]. intros [E|E]; [inversion E; reflexivity|].
    exfalso. apply Nk. apply in_map_iff. exists (k, v). auto.
  - rewrite IH by assumption. split; [auto|]. intros [E|E]; [inversion E; congruence|exact E].
Qed.
Lemma dget_none d k : dget d k = None <-> ~ In k (map fst d).
Proof.
  induction d as [|[k' v'] d IH]; cbn; [tauto|]. destruct (Z.eqb_spec k' k) as [->|H].
  - split; [discriminate|]. intro N. exfalso. auto.
  - rewrite IH. tauto.
Qed.
Lemma dset_new d k v : dget d k = None -> dset d k v = d ++ [(k, v)].
Proof.
  induction d as [|[k' v'] d IH]; cbn; [reflexivity|]. destruct (Z.eqb_spec k' k); [discriminate|]. intro H. rewrite IH by exact H. reflexivity.
Qed.
Lemma dset_keys d k v : map fst (dset d k v) = if dget d k then map fst d else map fst d ++ [k].
Proof.
  induction d as [|[k' v'] d IH]; cbn; [reflexivity|]. destruct (Z.eqb_spec k' k) as [->|H]; cbn; [reflexivity|].
  rewrite IH. destruct (dget d k); reflexivity.
Qed.
Lemma nodup_snoc {A} (l : list A) x : NoDup l -> ~ In x l -> NoDup (l ++ [x]).
Proof.
  intros N H. apply Permutation_NoDup with (x :: l); [apply Permutation_cons_append|constructor; assumption].
Qed.
Lemma dset_dict d k v : dict d -> dict (dset d k v).
Proof.
  unfold dict. intro N. rewrite dset_keys. destruct (dget d k) eqn:E; [exact N|]. apply nodup_snoc; [exact N|]. apply dget_none, E.
Qed.
Lemma dset_get d k v j : dget (dset d k v) j = if Z.eqb k j then Some v else dget d j.
Proof.
  induction d as [|[k' v'] d IH]; cbn.
  - destruct (Z.eqb_spec k j); reflexivity.
  - destruct (Z.eqb_spec k' k) as [->|H]; cbn.
    + destruct (Z.eqb_spec k j); reflexivity.
    + rewrite IH. destruct (Z.eqb_spec k' j) as [->|H2]; [|reflexivity]. destruct (Z.eqb_spec k j); [congruence|reflexivity].
Qed.

(** ** sums *)
Lemma total_acc l : forall a, (fold_left Qplus l a == a + sumQ l)%Q.
Proof. induction l as [|x l IH]; intro a; cbn; [ring|]. rewrite IH. ring. Qed.
Lemma total_sum l : (total l == sumQ l)%Q.
Proof. unfold total. rewrite total_acc. ring. Qed.
Lemma sumQ_app a b : (sumQ (a ++ b) == sumQ a + sumQ b)%Q.
Proof. induction a as [|x a IH]; cbn; [ring|]. rewrite IH. ring. Qed.
Lemma dset_total d k v : (sumQ (map snd (dset d k v)) == sumQ (map snd d) + v - match dget d k with Some w => w | None => 0 end)%Q.
Proof.
  induction d as [|[k' v'] d IH]; cbn; [ring|]. destruct (Z.eqb_spec k' k); cbn; [ring|]. rewrite IH. ring.
Qed.

(** ** collect_distribution *)
Definition nat_q (n : nat) : Q := inject_Z (Z.of_nat n).
Lemma nat_q_S n : (nat_q (S n) == nat_q n + 1)%Q.
Proof. unfold nat_q. rewrite Nat2Z.inj_succ. unfold Z.succ. rewrite inject_Z_plus. reflexivity. Qed.

Definition counts (d : list (Z * Q)) (os : list Z) : Prop :=
  dict d /\ (forall k, In k (map fst d) <-> In k os) /\ (forall k v, In (k, v) d -> (v == nat_q (count_occ Z.eq_dec os k))%Q) /\
  (sumQ (map snd d) == nat_q (length os))%Q.

Lemma counts_add d os o : counts d os -> counts (dset d o ((match dget d o with Some c => c | None => 0 end) + 1)%Q) (os ++ [o]).
Proof.
  intros (D & K & V & T). split; [apply dset_dict, D|]. split.
  { intro k. rewrite dset_keys. destruct (dget d o) eqn:E.
    - rewrite K, in_app_iff. cbn. split; [auto|]. intros [H|[<-|[]]]; [exact H|]. apply K. apply dget_in in E; [|exact D].
      apply in_map_iff. exists (o, q). auto.
    - rewrite !in_app_iff, K. tauto. }
  split.
  { intros k v H. apply dget_in in H; [|apply dset_dict, D]. rewrite dset_get in H.
    rewrite count_occ_app. cbn [count_occ]. destruct (Z.eqb_spec o k) as [->|N].
    - inversion H; subst v. destruct (Z.eq_dec k k); [|congruence]. rewrite Nat.add_1_r, nat_q_S.
      destruct (dget d k) as [c|] eqn:E; [apply dget_in in E; [|exact D]; rewrite (V k c E); reflexivity|].
      apply dget_none in E. rewrite K in E. apply (count_occ_not_In Z.eq_dec) in E. rewrite E. reflexivity.
    - destruct (Z.eq_dec o k); [congruence|]. rewrite Nat.add_0_r. apply V. apply dget_in; assumption. }
  rewrite dset_total, T, app_length. cbn [length]. rewrite Nat.add_1_r, nat_q_S. ring.
Qed.
Lemma collect_ok {S} (f : S -> result Z * S) os : forall s s' d done, calls f s os s' -> counts d done ->
  exists d', collect f (length os) d s = (Ok d', s') /\ counts d' (done ++ os).
Proof.
  induction os as [|o os IH]; intros s s' d done H C; inversion H as [|? ? s1 ? ? E H']; subst; cbn.
  - exists d. rewrite app_nil_r. auto.
  - rewrite E. destruct (IH s1 s' _ _ H' (counts_add d done o C)) as (d' & E' & C'). exists d'. split; [exact E'|].
    rewrite <- app_assoc in C'. exact C'.
Qed.
Lemma collect_spec {S} (f : S -> result Z * S) os s s' : calls f s os s' ->
  exists d, collect_distribution f (length os) s = (Ok d, s') /\ dict d /\ (forall k, In k (map fst d) <-> In k os) /\
    (forall k v, In (k, v) d -> (v == inject_Z (Z.of_nat (count_occ Z.eq_dec os k)))%Q) /\
    (sumQ (map snd d) == inject_Z (Z.of_nat (length os)))%Q.
Proof.
  intro H. destruct (collect_ok f os s s' [] [] H) as (d & E & C).
  { split; [constructor|]. split; [intro; cbn; tauto|]. split; [intros k v []|reflexivity]. }
  exists d. split; [exact E|exact C].
Qed.
Lemma collect_err {S} (f : S -> result Z * S) os s s1 e s2 n : calls f s os s1 -> f s1 = (Err e, s2) -> length os < n ->
  collect_distribution f n s = (Err e, s2).
Proof.
  unfold collect_distribution. intros H E. revert n. generalize (@nil (Z * Q)). induction H as [s|s g s1' gs s3 Eg H IH]; intros d n L.
  - destruct n; [lia|]. cbn. rewrite E. reflexivity.
  - destruct n; [lia|]. cbn in L. cbn. rewrite Eg. apply IH; [exact E|lia].
Qed.

(** ** _normalize_dicts *)
Lemma insert_perm k l : Permutation (insert_key k l) (k :: l).
Proof.
  induction l as [|x l IH]; cbn; [reflexivity|]. destruct (Z.leb k x); [reflexivity|].
  transitivity (x :: k :: l); [constructor; exact IH|apply perm_swap].
Qed.
Lemma sort_perm l : Permutation (sort_keys l) l.
Proof. induction l as [|x l IH]; cbn; [reflexivity|]. rewrite insert_perm. constructor. exact IH. Qed.
Lemma insert_sorted k l : StronglySorted Z.lt l -> ~ In k l -> StronglySorted Z.lt (insert_key k l).
Proof.
  induction 1 as [|x l S IH F]; intro N; cbn; [repeat constructor|].
  destruct (Z.leb_spec k x) as [H|H].
  - assert (k < x)%Z by (cbn in N; lia). constructor; [constructor; assumption|]. constructor; [assumption|].
    revert F. apply Forall_impl. intros; lia.
  - constructor; [apply IH; intro; apply N; right; assumption|].
    apply Forall_forall. intros y Hy. apply (Permutation_in _ (insert_perm k l)) in Hy. destruct Hy as [<-|Hy]; [exact H|].
    rewrite Forall_forall in F. apply F, Hy.
Qed.
Lemma sort_sorted l : NoDup l -> StronglySorted Z.lt (sort_keys l).
Proof.
  induction 1 as [|x l N _ IH]; cbn; [constructor|]. apply insert_sorted; [exact IH|].
  intro H. apply N. apply (Permutation_in _ (sort_perm l)), H.
Qed.
Lemma sorted_unique l : forall m, StronglySorted Z.lt l -> StronglySorted Z.lt m -> (forall k, In k l <-> In k m) -> l = m.
Proof.
  induction l as [|x l IH]; intros m Sl Sm H.
  - destruct m as [|y m]; [reflexivity|]. destruct (proj2 (H y) (or_introl eq_refl)).
  - destruct m as [|y m]; [destruct (proj1 (H x) (or_introl eq_refl))|].
    apply StronglySorted_inv in Sl. destruct Sl as [Sl Fl]. apply StronglySorted_inv in Sm. destruct Sm as [Sm Fm].
    rewrite Forall_forall in Fl, Fm.
    assert (E : x = y).
    { destruct (proj1 (H x) (or_introl eq_refl)) as [E|E]; [auto|]. destruct (proj2 (H y) (or_introl eq_refl)) as [E'|E']; [auto|].
      specialize (Fl _ E'). specialize (Fm _ E). lia. }
    subst y. f_equal. apply IH; [exact Sl|exact Sm|]. intro k. split; intro K.
    + destruct (proj1 (H k) (or_intror K)) as [<-|E]; [specialize (Fl _ K); lia|exact E].
    + destruct (proj2 (H k) (or_intror K)) as [<-|E]; [specialize (Fm _ K); lia|exact E].
Qed.

Lemma add_keys_spec ks : forall d, dict d -> dict (add_keys_from ks d) /\
  (forall k, In k (map fst (add_keys_from ks d)) <-> In k (map fst d) \/ In k ks) /\
  (forall k, dget (add_keys_from ks d) k = match dget d k with Some v => Some v | None => if in_dec Z.eq_dec k ks then Some 0%Q else None end).
Proof.
  induction ks as [|x ks IH]; intros d D; cbn [add_keys_from].
  { split; [exact D|]. split; [cbn; tauto|]. intro k. destruct (dget d k); [reflexivity|]. destruct (in_dec Z.eq_dec k []) as [[]|]; reflexivity. }
  destruct (dget d x) as [v|] eqn:E.
  - destruct (IH d D) as (A & B & C). split; [exact A|]. split.
    + intro k. rewrite B. cbn. split; [tauto|]. intros [H|[<-|H]]; try tauto. left. apply dget_in in E; [|exact D]. apply in_map_iff. exists (x, v). auto.
    + intro k. rewrite C. destruct (dget d k) as [w|] eqn:Ek; [reflexivity|].
      destruct (in_dec Z.eq_dec k ks) as [I|I], (in_dec Z.eq_dec k (x :: ks)) as [J|J]; try reflexivity.
      * destruct J. right. exact I.
      * destruct J as [->|J]; [congruence|tauto].
  - destruct (IH (dset d x 0) (dset_dict _ _ _ D)) as (A & B & C). split; [exact A|]. split.
    + intro k. rewrite B, dset_keys, E, in_app_iff. cbn. tauto.
    + intro k. rewrite C, dset_get. destruct (Z.eqb_spec x k) as [->|N].
      * rewrite E. destruct (in_dec Z.eq_dec k (k :: ks)) as [J|J]; [reflexivity|]. destruct J. left. reflexivity.
      * destruct (dget d k) as [w|]; [reflexivity|].
        destruct (in_dec Z.eq_dec k ks) as [I|I], (in_dec Z.eq_dec k (x :: ks)) as [J|J]; try reflexivity.
        -- destruct J. right. exact I.
        -- destruct J as [->|J]; [congruence|tauto].
Qed.
Lemma add_keys_total ks : forall d, (sumQ (map snd (add_keys_from ks d)) == sumQ (map snd d))%Q.
Proof.
  induction ks as [|x ks IH]; intro d; cbn; [reflexivity|]. rewrite IH. destruct (dget d x) eqn:E; [reflexivity|].
  rewrite dset_total, E. ring.
Qed.
Lemma values_spec d ks : dict d -> StronglySorted Z.lt ks -> (forall k, In k (map fst d) <-> In k ks) ->
  exists vs, values_sorted_by_key d = Ok vs /\ Forall2 (fun k v => In (k, v) d) ks vs.
Proof.
  intros D S H. unfold values_sorted_by_key.
  assert (E : sort_keys (dkeys d) = ks).
  { apply sorted_unique; [apply sort_sorted, D|exact S|]. intro k. rewrite <- H. split; apply Permutation_in; [|symmetry]; apply sort_perm. }
  rewrite E. assert (I : forall k, In k ks -> In k (map fst d)) by (intro k; apply H). clear H S E.
  induction ks as [|k ks IH]; cbn; [exists []; auto|].
  destruct IH as (vs & E & F); [intros j Hj; apply I; right; exact Hj|].
  rewrite E. cbn. destruct (dget d k) as [v|] eqn:Ev.
  - exists (v :: vs). split; [reflexivity|]. constructor; [apply dget_in; assumption|exact F].
  - apply dget_none in Ev. destruct Ev. apply I. left. reflexivity.
Qed.
Lemma amount_get d k v : dict d -> (amount d k v <-> match dget d k with Some w => v = w | None => v = 0%Q end).
Proof.
  intro D. unfold amount. destruct (dget d k) as [w|] eqn:E.
  - apply dget_in in E; [|exact D]. split.
    + intros [H|[H _]]; [|destruct H; apply in_map_iff; exists (k, w); auto].
      apply dget_in in H; [|exact D]. apply dget_in in E; [|exact D]. congruence.
    + intros ->. left. exact E.
  - apply dget_none in E. split; [intros [H|[_ H]]; [destruct E; apply in_map_iff; exists (k, v); auto|exact H]|auto].
Qed.
Lemma amount_fun d k v w : dict d -> amount d k v -> amount d k w -> v = w.
Proof. intros D A B. apply amount_get in A; [|exact D]. apply amount_get in B; [|exact D]. destruct (dget d k); congruence. Qed.
Lemma amount_ex d k : dict d -> exists v, amount d k v.
Proof. intro D. destruct (dget d k) as [v|] eqn:E; [exists v|exists 0%Q]; apply amount_get; auto; rewrite E; reflexivity. Qed.

Lemma padded_of d d' ks other : dict d -> d' = add_keys_from other d -> (forall k, In k ks <-> In k (map fst d) \/ In k other) -> padded d d' ks.
Proof.
  intros D -> H. destruct (add_keys_spec other d D) as (A & B & C). split; [exact A|]. split; [intro k; rewrite B, H; tauto|].
  intros k v I. apply dget_in in I; [|exact A]. rewrite C in I. apply amount_get; [exact D|]. destruct (dget d k); [congruence|].
  destruct (in_dec Z.eq_dec k other); congruence.
Qed.
Lemma normalize_spec d1 d2 : dict d1 -> dict d2 -> exists ks v1 v2 d1' d2',
  normalize_dicts d1 d2 = (Ok (v1, v2), (d1', d2')) /\ all_keys d1 d2 ks /\
  Forall2 (amount d1) ks v1 /\ Forall2 (amount d2) ks v2 /\ padded d1 d1' ks /\ padded d2 d2' ks /\
  (sumQ (map snd d1') == sumQ (map snd d1))%Q /\ (sumQ (map snd d2') == sumQ (map snd d2))%Q.
Proof.
  intros D1 D2. set (d2' := add_keys_from (dkeys d1) d2). set (d1' := add_keys_from (dkeys d2') d1).
  destruct (add_keys_spec (dkeys d1) d2 D2) as (A2 & B2 & C2). fold d2' in A2, B2, C2.
  set (ks := sort_keys (map fst d2')).
  assert (K : forall k, In k ks <-> in_either d1 d2 k).
  { intro k. unfold ks, in_either. transitivity (In k (map fst d2')); [split; apply Permutation_in; [|symmetry]; apply sort_perm|].
    rewrite B2. unfold dkeys. tauto. }
  assert (AK : all_keys d1 d2 ks) by (split; [apply sort_sorted, A2|exact K]).
  assert (P2 : padded d2 d2' ks). { apply (padded_of d2 d2' ks (dkeys d1) D2 eq_refl). intro k. rewrite K. unfold in_either, dkeys. tauto. }
  assert (P1 : padded d1 d1' ks).
  { apply (padded_of d1 d1' ks (dkeys d2') D1 eq_refl). intro k. rewrite K. unfold in_either, dkeys. rewrite B2. unfold dkeys. tauto. }
  destruct P1 as (Q1 & Q2 & Q3), P2 as (R1 & R2 & R3).
  destruct (values_spec d1' ks Q1 (proj1 AK) Q2) as (v1 & E1 & F1).
  destruct (values_spec d2' ks R1 (proj1 AK) R2) as (v2 & E2 & F2).
  exists ks, v1, v2, d1', d2'. split.
  { unfold normalize_dicts. fold d2'. fold d1'. rewrite E1. cbn [bind]. rewrite E2. reflexivity. }
  split; [exact AK|]. split; [revert F1; apply Forall2_imp; apply Q3|]. split; [revert F2; apply Forall2_imp; apply R3|].
  split; [split; auto|]. split; [split; auto|]. split; apply add_keys_total.
Qed.

Lemma all_keys_unique d1 d2 ks ks' : all_keys d1 d2 ks -> all_keys d1 d2 ks' -> ks = ks'.
Proof. intros [A B] [A' B']. apply sorted_unique; auto. intro k. rewrite B, B'. tauto. Qed.
Lemma amounts_fun d ks : dict d -> forall v w, Forall2 (amount d) ks v -> Forall2 (amount d) ks w -> v = w.
Proof.
  intro D. induction ks as [|k ks IH]; intros v w A B; inversion A; inversion B; subst; [reflexivity|].
  f_equal; [eapply amount_fun; eassumption|apply IH; assumption].
Qed.
Lemma padded_amount d d' ks k v : dict d -> padded d d' ks -> amount d' k v -> In k ks -> amount d k v.
Proof. intros D (A & B & C) [H|[H _]] I; [apply C, H|]. destruct H. apply B, I. Qed.

(** normalizing normalized dicts gives the same lists *)
Lemma normalize_again d1 d2 v1 v2 d1' d2' : dict d1 -> dict d2 -> normalize_dicts d1 d2 = (Ok (v1, v2), (d1', d2')) ->
  exists d1'' d2'', normalize_dicts d1' d2' = (Ok (v1, v2), (d1'', d2'')).
Proof.
  intros D1 D2 E. destruct (normalize_spec d1 d2 D1 D2) as (ks & a1 & a2 & b1 & b2 & E' & [K1 K2] & F1 & F2 & P1 & P2 & _).
  rewrite E in E'. inversion E'; subst a1 a2 b1 b2. clear E'.
  destruct (normalize_spec d1' d2' (proj1 P1) (proj1 P2)) as (ks' & a1 & a2 & b1 & b2 & E' & [L1 L2] & G1 & G2 & _).
  assert (ks' = ks). { apply sorted_unique; [exact L1|exact K1|]. intro k. rewrite L2. unfold in_either.
    destruct P1 as (_ & P1 & _), P2 as (_ & P2 & _). rewrite P1, P2. tauto. }
  subst ks'.
  assert (T : forall d d' a, dict d -> padded d d' ks -> Forall2 (amount d') ks a -> Forall2 (amount d) ks a).
  { intros d d' a D P. assert (I : incl ks ks) by apply incl_refl. revert I. generalize ks at 1 3 4. intros l I F. induction F; constructor.
    - eapply padded_amount; [exact D|exact P|eassumption|apply I; left; reflexivity].
    - apply IHF. intros z Hz. apply I. right. exact Hz. }
  rewrite (amounts_fun d1 ks D1 v1 a1 F1 (T d1 d1' a1 D1 P1 G1)), (amounts_fun d2 ks D2 v2 a2 F2 (T d2 d2' a2 D2 P2 G2)).
  eauto.
Qed.

(** ** the statistic *)
Lemma chi_finite os : forall es, length os = length es -> Forall (fun e => ~ e == 0)%Q es -> is_value (chi_statistic os es) (pearson os es).
Proof.
  induction os as [|o os IH]; intros [|e es] L F; cbn in L; try discriminate.
  - exists 0%Q. split; reflexivity.
  - inversion F as [|? ? Ne F']; subst. destruct (IH es) as (q & E & Q1); [lia|exact F'|].
    cbn [chi_statistic]. unfold chi_term. destruct (Qeq_bool e 0) eqn:B; [apply Qeq_bool_iff in B; contradiction|].
    unfold num_add. cbn [num_val]. rewrite E. eexists. split; [reflexivity|]. unfold pearson in *. cbn [combine map sumQ fst snd]. rewrite Q1. reflexivity.
Qed.
Lemma chi_never_minf os : forall es, num_val (chi_statistic os es) <> Some MInf.
Proof.
  induction os as [|o os IH]; intros [|e es]; cbn; try discriminate. unfold chi_term, num_add.
  specialize (IH es). destruct (Qeq_bool e 0); [destruct (Qeq_bool o 0)|]; cbn [num_val];
    destruct (num_val (chi_statistic os es)) as [[| |]|]; cbn; congruence.
Qed.
Lemma chi_nan os : forall es i o e, nth_error os i = Some o -> nth_error es i = Some e -> (o == 0)%Q -> (e == 0)%Q -> chi_statistic os es = NNan.
Proof.
  induction os as [|o0 os IH]; intros [|e0 es] [|i] o e Ho He O E; cbn in Ho, He; try discriminate; cbn [chi_statistic].
  - inversion Ho; inversion He; subst. apply Qeq_bool_iff in O. apply Qeq_bool_iff in E. unfold chi_term. rewrite E, O. reflexivity.
  - rewrite (IH es i o e Ho He O E). unfold num_add. destruct (num_val (chi_term o0 e0)) as [[| |]|]; reflexivity.
Qed.
Lemma chi_inf os : forall es, length os = length es -> (forall i o e, nth_error os i = Some o -> nth_error es i = Some e -> (e == 0)%Q -> ~ (o == 0)%Q) ->
  forall i e, nth_error es i = Some e -> (e == 0)%Q -> num_val (chi_statistic os es) = Some PInf.
Proof.
  induction os as [|o0 os IH]; intros [|e0 es] L H i e Hi E; cbn in L; try discriminate; [destruct i; discriminate|].
  assert (NN : num_val (chi_term o0 e0) = Some PInf \/ exists q, num_val (chi_term o0 e0) = Some (Fin q)).
  { unfold chi_term. destruct (Qeq_bool e0 0) eqn:B; [|right; cbn; eauto]. left. apply Qeq_bool_iff in B.
    destruct (Qeq_bool o0 0) eqn:C; [|reflexivity]. apply Qeq_bool_iff in C. destruct (H 0 o0 e0 eq_refl eq_refl B C). }
  assert (H' : forall i o e, nth_error os i = Some o -> nth_error es i = Some e -> (e == 0)%Q -> ~ (o == 0)%Q) by (intros j; exact (H (S j))).
  assert (RN : num_val (chi_statistic os es) <> None).
  { clear - H' L. assert (L' : length os = length es) by lia. clear L. revert es H' L'. induction os as [|o os IH]; intros [|e es] H L; cbn in L; try discriminate.
    cbn [chi_statistic]. unfold chi_term, num_add. specialize (IH es (fun j => H (S j)) ltac:(lia)). pose proof (chi_never_minf os es) as M.
    destruct (Qeq_bool e 0) eqn:B; [destruct (Qeq_bool o 0) eqn:C|].
    - apply Qeq_bool_iff in B. apply Qeq_bool_iff in C. destruct (H 0 o e eq_refl eq_refl B C).
    - cbn [num_val]. destruct (num_val (chi_statistic os es)) as [[| |]|]; cbn; congruence.
    - cbn [num_val]. destruct (num_val (chi_statistic os es)) as [[| |]|]; cbn; congruence. }
  pose proof (chi_never_minf os es) as M.
  cbn [chi_statistic]. unfold num_add.
  destruct i as [|i]; cbn in Hi.
  - inversion Hi; subst e0. destruct NN as [->|[q Hq]].
    + destruct (num_val (chi_statistic os es)) as [[| |]|]; cbn; congruence.
    + unfold chi_term in Hq. apply Qeq_bool_iff in E. rewrite E in Hq. destruct (Qeq_bool o0 0); discriminate.
  - assert (R : num_val (chi_statistic os es) = Some PInf) by (eapply IH; [lia|exact H'|exact Hi|exact E]).
    rewrite R. destruct NN as [->|[q ->]]; reflexivity.
Qed.
Lemma same_values_spec a : forall b, same_values a b = true <-> Forall2 Qeq a b.
Proof.
  induction a as [|x a IH]; intros [|y b]; cbn; split; intro H; try discriminate; try constructor; try solve [inversion H].
  - apply Bool.andb_true_iff in H. apply Qeq_bool_iff, H.
  - apply Bool.andb_true_iff in H. apply IH, H.
  - inversion H; subst. apply Bool.andb_true_iff. split; [apply Qeq_bool_iff; assumption|apply IH; assumption].
Qed.
Lemma pearson_zero os : forall es, Forall2 Qeq os es -> (pearson os es == 0)%Q.
Proof.
  unfold pearson. induction 1 as [|o e os es E _ IH]; cbn; [reflexivity|]. rewrite IH, E. unfold Qdiv. ring.
Qed.

Section Tests.
Variable tail : Z -> num -> num.

Lemma equals_unfold e o p ks ov ev : dict e -> dict o -> all_keys o e ks -> Forall2 (amount o) ks ov -> Forall2 (amount e) ks ev ->
  exists e' o', stochastic_equals tail e o p =
    (if length ks =? 1 then Ok (same_values ov ev)
     else if Qeq_bool (total (dvalues e')) (total (dvalues o')) then
            Ok (negb (num_ltb (tail (Z.of_nat (length ks) - 1)%Z (chi_statistic ov ev)) (NFlt true (Fin p))))
          else Err AssertionError, snd (stochastic_equals tail e o p)) /\
    (sumQ (map snd e') == sumQ (map snd e))%Q /\ (sumQ (map snd o') == sumQ (map snd o))%Q.
Proof.
  intros De Do AK Fo Fe.
  destruct (normalize_spec o e Do De) as (ks' & v1 & v2 & o' & e' & E & AK' & F1 & F2 & P1 & P2 & T1 & T2).
  rewrite (all_keys_unique _ _ _ _ AK' AK) in *. clear AK' ks'.
  rewrite (amounts_fun o ks Do v1 ov F1 Fo), (amounts_fun e ks De v2 ev F2 Fe) in *.
  assert (Lo : length ov = length ks) by (symmetry; exact (F2_length _ _ _ Fo)).
  exists e', o'. split; [|split; assumption]. unfold stochastic_equals. rewrite E. cbv beta iota zeta. rewrite Lo.
  destruct (length ks =? 1); [reflexivity|]. unfold stochastic_chisquare.
  destruct (Qeq_bool (total (dvalues e')) (total (dvalues o'))); [|reflexivity].
  destruct (normalize_again o e ov ev o' e' Do De E) as (o'' & e'' & E2). rewrite E2. cbv beta iota zeta. cbn [bind snd]. rewrite Lo. reflexivity.
Qed.

(** the verdict: with one key the amounts are compared; otherwise the totals must agree and the tail decides *)
Lemma equals_verdict e o p ks ov ev : dict e -> dict o -> all_keys o e ks -> Forall2 (amount o) ks ov -> Forall2 (amount e) ks ev ->
  (length ks = 1 -> exists b, fst (stochastic_equals tail e o p) = Ok b /\ (b = true <-> Forall2 Qeq ov ev)) /\
  (length ks <> 1 -> ~ (sumQ (map snd e) == sumQ (map snd o))%Q -> fst (stochastic_equals tail e o p) = Err AssertionError) /\
  (length ks <> 1 -> (sumQ (map snd e) == sumQ (map snd o))%Q -> Forall (fun x => ~ x == 0)%Q ev ->
     exists x, is_value x (pearson ov ev) /\
       fst (stochastic_equals tail e o p) = Ok (negb (num_ltb (tail (Z.of_nat (length ks) - 1)%Z x) (NFlt true (Fin p))))).
Proof.
  intros De Do AK Fo Fe. destruct (equals_unfold e o p ks ov ev De Do AK Fo Fe) as (e' & o' & E & Te & To).
  assert (L : length ov = length ev) by (rewrite <- (F2_length _ _ _ Fo), <- (F2_length _ _ _ Fe); reflexivity).
  split; [|split].
  - intro H. rewrite E. cbn [fst]. apply Nat.eqb_eq in H. rewrite H. exists (same_values ov ev). split; [reflexivity|apply same_values_spec].
  - intros H N. rewrite E. cbn [fst]. apply Nat.eqb_neq in H. rewrite H.
    destruct (Qeq_bool (total (dvalues e')) (total (dvalues o'))) eqn:B; [|reflexivity].
    apply Qeq_bool_iff in B. rewrite !total_sum in B. unfold dvalues in B. rewrite Te, To in B. contradiction.
  - intros H T NZ. rewrite E. cbn [fst]. apply Nat.eqb_neq in H. rewrite H.
    destruct (Qeq_bool (total (dvalues e')) (total (dvalues o'))) eqn:B.
    + exists (chi_statistic ov ev). split; [apply chi_finite; assumption|reflexivity].
    + apply Qeq_bool_neq in B. destruct B. rewrite !total_sum. unfold dvalues. rewrite Te, To. exact T.
Qed.

End Tests.

Lemma sumQ_perm a b : Permutation a b -> (sumQ a == sumQ b)%Q.
Proof. induction 1; cbn; [reflexivity|rewrite IHPermutation; reflexivity|ring|etransitivity; eassumption]. Qed.
Lemma sorted_nodup l : StronglySorted Z.lt l -> NoDup l.
Proof.
  induction 1 as [|x l _ IH F]; constructor; [|exact IH]. intro H. rewrite Forall_forall in F. specialize (F _ H). lia.
Qed.
Lemma combine_fst {A B} (a : list A) : forall b : list B, length a = length b -> map fst (combine a b) = a.
Proof. induction a as [|x a IH]; intros [|y b] L; cbn in *; try discriminate; [reflexivity|]. f_equal. apply IH. lia. Qed.
Lemma combine_snd {A B} (a : list A) : forall b : list B, length a = length b -> map snd (combine a b) = b.
Proof. induction a as [|x a IH]; intros [|y b] L; cbn in *; try discriminate; [reflexivity|]. f_equal. apply IH. lia. Qed.
Lemma F2_combine {A B} (R : A -> B -> Prop) a b x y : Forall2 R a b -> In (x, y) (combine a b) -> R x y.
Proof. induction 1; cbn; [tauto|]. intros [E|H']; [inversion E; subst; assumption|auto]. Qed.

(** the amounts add up to the total of the dict *)
Lemma amounts_total d ks v : dict d -> StronglySorted Z.lt ks -> (forall k, In k (map fst d) -> In k ks) -> Forall2 (amount d) ks v ->
  (sumQ v == sumQ (map snd d))%Q.
Proof.
  intros D S I F. pose proof (F2_length _ _ _ F) as L. set (d' := add_keys_from ks d).
  destruct (add_keys_spec ks d D) as (A & B & C). fold d' in A, B, C.
  rewrite <- (add_keys_total ks d). fold d'. rewrite <- (combine_snd ks v L). apply sumQ_perm, Permutation_map, NoDup_Permutation.
  - apply (NoDup_map_inv fst). rewrite combine_fst by exact L. apply sorted_nodup, S.
  - apply (NoDup_map_inv fst). exact A.
  - intros [k x]. split; intro H.
    + apply dget_in; [exact A|]. rewrite C. pose proof (F2_combine _ _ _ _ _ F H) as M. apply amount_get in M; [|exact D].
      destruct (dget d k); [congruence|]. apply in_combine_l in H. destruct (in_dec Z.eq_dec k ks); [congruence|contradiction].
    + assert (Hk : In k ks). { assert (K : In k (map fst d')) by (apply in_map_iff; exists (k, x); auto). apply B in K. destruct K; auto. }
      rewrite <- (combine_fst ks v L) in Hk. apply in_map_iff in Hk. destruct Hk as ([k' y] & Ek & Hk). cbn in Ek. subst k'.
      pose proof (F2_combine _ _ _ _ _ F Hk) as M. apply amount_get in M; [|exact D].
      apply dget_in in H; [|exact A]. rewrite C in H. destruct (dget d k); [|destruct (in_dec Z.eq_dec k ks); [|discriminate]]; congruence.
Qed.
Lemma amounts_ex d ks : dict d -> exists v, Forall2 (amount d) ks v.
Proof.
  intro D. induction ks as [|k ks [v IH]]; [exists []; constructor|]. destruct (amount_ex d k D) as [x Hx]. exists (x :: v). constructor; assumption.
Qed.
Lemma keys_ex d1 d2 : dict d1 -> dict d2 -> exists ks, all_keys d1 d2 ks.
Proof. intros A B. destruct (normalize_spec d1 d2 A B) as (ks & _ & _ & _ & _ & _ & H & _). eauto. Qed.
Lemma amounts_agree d1 d2 ks : (forall k v w, In k ks -> amount d1 k v -> amount d2 k w -> (v == w)%Q) ->
  forall a b, Forall2 (amount d1) ks a -> Forall2 (amount d2) ks b -> Forall2 Qeq a b.
Proof.
  intros H. induction ks as [|k ks IH]; intros a b A B; inversion A; inversion B; subst; constructor.
  - eapply H; [left; reflexivity|eassumption|eassumption].
  - apply IH; auto. intros j v w I. apply H. right. exact I.
Qed.
Lemma amounts_forall d ks (P : Q -> Prop) v : (forall k x, In k ks -> amount d k x -> P x) -> Forall2 (amount d) ks v -> Forall P v.
Proof. intros H F. induction F; constructor; [eapply H; [left; reflexivity|eassumption]|]. apply IHF. intros j z I. apply H. right. exact I. Qed.

Lemma amounts_nth d ks : forall l i x, Forall2 (amount d) ks l -> nth_error l i = Some x -> exists k, nth_error ks i = Some k /\ amount d k x.
Proof.
  intros l i x F. revert i. induction F as [|k y ks' l' K _ IH]; intros [|i] Hi; cbn in *; try discriminate; [inversion Hi; subst; eauto|apply IH, Hi].
Qed.
Lemma amounts_nth0 d k0 ks : forall l i, dict d -> Forall2 (amount d) ks l -> nth_error ks i = Some k0 -> amount d k0 0%Q -> nth_error l i = Some 0%Q.
Proof.
  intros l i D F. revert i. induction F as [|k y ks' l' K _ IH]; intros [|i] Hi A; cbn in *; try discriminate.
  - inversion Hi; subst. f_equal. eapply amount_fun; eassumption.
  - apply IH; assumption.
Qed.

Section Verdicts.
Variable tail : Z -> num -> num.
Hypothesis TO : chi_tail_ok tail.

Lemma is_value_lt x q p : is_value x q -> num_ltb x (NFlt true (Fin p)) = Qltb q p.
Proof.
  intros (q' & E & H). unfold num_ltb. rewrite E. cbn. unfold Qltb. f_equal.
  destruct (Qle_bool p q') eqn:A, (Qle_bool p q) eqn:B; try reflexivity; exfalso.
  - apply Qle_bool_iff in A. rewrite H in A. apply Qle_bool_iff in A. congruence.
  - apply Qle_bool_iff in B. rewrite <- H in B. apply Qle_bool_iff in B. congruence.
Qed.
Lemma Qltb_false' a b : (b <= a)%Q -> Qltb a b = false.
Proof. intro H. unfold Qltb. apply Qle_bool_iff in H. rewrite H. reflexivity. Qed.
Lemma Qltb_true' a b : (a < b)%Q -> Qltb a b = true.
Proof. intro H. unfold Qltb. destruct (Qle_bool b a) eqn:E; [|reflexivity]. apply Qle_bool_iff in E. lra. Qed.

(** the same amounts: accepted *)
Lemma accepts_equal e o p k0 : dict e -> dict o -> (p <= 1)%Q -> in_either o e k0 ->
  (forall k v w, amount o k v -> amount e k w -> (v == w)%Q) -> (forall k w, in_either o e k -> amount e k w -> ~ (w == 0)%Q) ->
  fst (stochastic_equals tail e o p) = Ok true.
Proof.
  intros De Do Hp H0 SAME NZ. destruct (keys_ex o e Do De) as [ks AK]. destruct (amounts_ex o ks Do) as [ov Fo]. destruct (amounts_ex e ks De) as [ev Fe].
  pose proof (amounts_agree o e ks (fun k v w _ => SAME k v w) ov ev Fo Fe) as AG.
  destruct (equals_verdict tail e o p ks ov ev De Do AK Fo Fe) as (V1 & _ & V3).
  destruct AK as [SS AK].
  destruct (Nat.eq_dec (length ks) 1) as [L|L].
  - destruct (V1 L) as (b & E & B). rewrite E. f_equal. apply B, AG.
  - destruct V3 as (x & X & E).
    + exact L.
    + rewrite <- (amounts_total e ks ev De SS), <- (amounts_total o ks ov Do SS); try assumption.
      * clear - AG. induction AG as [|a b l m E _ IH]; cbn; [reflexivity|]. rewrite E, IH. reflexivity.
      * intros k Hk. apply AK. left. exact Hk.
      * intros k Hk. apply AK. right. exact Hk.
    + apply (amounts_forall e ks (fun x => ~ x == 0)%Q); [|exact Fe]. intros k y I. apply NZ, AK, I.
    + rewrite E. f_equal. rewrite Bool.negb_true_iff.
      assert (LK : length ks <> 0). { intro Z0. apply length_zero_iff_nil in Z0. apply AK in H0. rewrite Z0 in H0. exact H0. }
      rewrite (is_value_lt _ 1 p); [apply Qltb_false', Hp|]. apply TO; [lia|].
      destruct X as (q & Eq & Q1). exists q. split; [exact Eq|]. rewrite Q1. apply pearson_zero, AG.
Qed.

(** an observation that is not expected at all: rejected, unless some key has amount 0 on both sides *)
Lemma rejects_impossible e o p k0 : dict e -> dict o -> (0 < p)%Q -> in_either o e k0 -> amount e k0 0%Q ->
  (sumQ (map snd e) == sumQ (map snd o))%Q -> (exists k1, k1 <> k0 /\ in_either o e k1) ->
  (forall k v w, in_either o e k -> amount o k v -> amount e k w -> (w == 0)%Q -> ~ (v == 0)%Q) ->
  fst (stochastic_equals tail e o p) = Ok false.
Proof.
  intros De Do Hp H0 A0 T (k1 & N1 & H1) NZ. destruct (keys_ex o e Do De) as [ks AK]. destruct (amounts_ex o ks Do) as [ov Fo]. destruct (amounts_ex e ks De) as [ev Fe].
  destruct (equals_unfold tail e o p ks ov ev De Do AK Fo Fe) as (e' & o' & E & Te & To). rewrite E. cbn [fst].
  destruct AK as [SS AK]. apply AK in H0. apply AK in H1.
  assert (LK : 2 <= length ks).
  { destruct ks as [|a [|b ks]]; cbn; try lia; [destruct H0|]. destruct H0 as [H0|[]], H1 as [H1|[]]. congruence. }
  destruct (length ks =? 1) eqn:L1; [apply Nat.eqb_eq in L1; lia|].
  destruct (Qeq_bool (total (dvalues e')) (total (dvalues o'))) eqn:B.
  2:{ apply Qeq_bool_neq in B. destruct B. rewrite !total_sum. unfold dvalues. rewrite Te, To. exact T. }
  assert (LL : length ov = length ev) by (rewrite <- (F2_length _ _ _ Fo), <- (F2_length _ _ _ Fe); reflexivity).
  pose proof (fun d => amounts_nth d ks) as NTH.
  assert (PI : num_val (chi_statistic ov ev) = Some PInf).
  { apply In_nth_error in H0. destruct H0 as [i Hi].
    assert (Li : i < length ev) by (rewrite <- (F2_length _ _ _ Fe); apply nth_error_Some; congruence).
    destruct (nth_error ev i) as [x|] eqn:Ex; [|apply nth_error_None in Ex; lia].
    destruct (NTH e ev i x Fe Ex) as (k & Hk & Ak). rewrite Hi in Hk. inversion Hk; subst k.
    assert (x = 0%Q) by exact (amount_fun e k0 x 0%Q De Ak A0). subst x.
    apply (chi_inf ov ev LL) with (i := i) (e := 0%Q); [|exact Ex|reflexivity].
    intros j x y Hx Hy Zy. destruct (NTH o ov j x Fo Hx) as (k & Hk' & Akx). destruct (NTH e ev j y Fe Hy) as (k' & Hk'' & Aky).
    rewrite Hk' in Hk''. inversion Hk''; subst k'. apply (NZ k x y); auto. apply AK. eapply nth_error_In, Hk'. }
  f_equal. apply Bool.negb_false_iff.
  assert (LL2 : (1 <= Z.of_nat (length ks) - 1)%Z) by lia. revert LL2. generalize (Z.of_nat (length ks) - 1)%Z. intros kk Hkk.
  destruct TO as (_ & TI & _). destruct (chi_statistic ov ev) as [z|f [| |]|] eqn:ES; cbn in PI; try discriminate.
  rewrite (is_value_lt _ 0 p); [apply Qltb_true', Hp|]. apply TI, Hkk.
Qed.
End Verdicts.

(** a key with amount 0 on both sides hides every difference *)
Lemma nan_accepts tail e o p k0 k1 : chi_tail_ok tail -> dict e -> dict o -> in_either o e k0 -> amount o k0 0%Q -> amount e k0 0%Q ->
  k1 <> k0 -> in_either o e k1 -> (sumQ (map snd e) == sumQ (map snd o))%Q -> fst (stochastic_equals tail e o p) = Ok true.
Proof.
  intros TO De Do H0 Ao Ae N1 H1 T. destruct (keys_ex o e Do De) as [ks AK]. destruct (amounts_ex o ks Do) as [ov Fo]. destruct (amounts_ex e ks De) as [ev Fe].
  destruct (equals_unfold tail e o p ks ov ev De Do AK Fo Fe) as (e' & o' & E & Te & To). rewrite E. cbn [fst].
  destruct AK as [SS AK]. apply AK in H0. apply AK in H1.
  assert (LK : 2 <= length ks).
  { destruct ks as [|a [|b ks]]; cbn; try lia; [destruct H0|]. destruct H0 as [H0|[]], H1 as [H1|[]]. congruence. }
  destruct (length ks =? 1) eqn:L1; [apply Nat.eqb_eq in L1; lia|].
  destruct (Qeq_bool (total (dvalues e')) (total (dvalues o'))) eqn:B.
  2:{ apply Qeq_bool_neq in B. destruct B. rewrite !total_sum. unfold dvalues. rewrite Te, To. exact T. }
  pose proof (fun d => amounts_nth0 d k0 ks) as NTH.
  apply In_nth_error in H0. destruct H0 as [i Hi].
  rewrite (chi_nan ov ev i 0%Q 0%Q); try reflexivity; [|apply (NTH o); assumption|apply (NTH e); assumption].
  destruct TO as (_ & _ & TN). rewrite TN. reflexivity.
Qed.

(** ** equals_uniform *)
Lemma uniform_expected_keys (o : list (Z * Q)) (x : Q) : map fst (map (fun k => (k, x)) (map fst o)) = map fst o.
Proof. rewrite map_map. cbn. apply map_id. Qed.
Lemma uniform_total (ks : list Z) (x : Q) : (sumQ (map snd (map (fun k => (k, x)) ks)) == inject_Z (Z.of_nat (length ks)) * x)%Q.
Proof.
  induction ks as [|k ks IH]; [cbn; ring|]. cbn [map sumQ length snd]. rewrite IH, Nat2Z.inj_succ. unfold Z.succ. rewrite inject_Z_plus.
  change (inject_Z 1) with 1%Q. ring.
Qed.
Lemma len_q {A} (l : list A) : l <> [] -> ~ (inject_Z (Z.of_nat (length l)) == 0)%Q.
Proof. destruct l; [congruence|]. intros _ H. change 0%Q with (inject_Z 0) in H. apply (proj1 (inject_Z_injective _ _)) in H. cbn in H. lia. Qed.

Lemma add_keys_none ks : forall d, dict d -> incl ks (map fst d) -> add_keys_from ks d = d.
Proof.
  induction ks as [|k ks IH]; intros d D I; cbn; [reflexivity|]. destruct (dget d k) as [v|] eqn:E.
  - apply IH; [exact D|]. intros x Hx. apply I. right. exact Hx.
  - apply dget_none in E. destruct E. apply I. left. reflexivity.
Qed.
Lemma same_keys_unchanged tail e o p : dict e -> dict o -> map fst e = map fst o -> snd (stochastic_equals tail e o p) = (e, o).
Proof.
  intros De Do K. assert (N : snd (normalize_dicts o e) = (o, e)).
  { unfold normalize_dicts, dkeys. cbn [snd]. rewrite (add_keys_none (map fst o) e De) by (rewrite K; apply incl_refl).
    rewrite (add_keys_none (map fst e) o Do) by (rewrite K; apply incl_refl). reflexivity. }
  unfold stochastic_equals. destruct (normalize_dicts o e) as [r [o' e']] eqn:E. cbn [snd] in N. inversion N; subst o' e'.
  destruct r as [[v1 v2]|x]; [|reflexivity]. destruct (length v1 =? 1); [reflexivity|].
  unfold stochastic_chisquare. destruct (Qeq_bool _ _); [|reflexivity]. rewrite E. reflexivity.
Qed.
Lemma in_amount d k v : In (k, v) d -> amount d k v. Proof. left. assumption. Qed.

Lemma uniform_verdict tail o p ks ov : dict o -> all_keys o o ks -> Forall2 (amount o) ks ov -> ~ (sumQ ov == 0)%Q ->
  let mean := (sumQ ov / inject_Z (Z.of_nat (length ks)))%Q in
  snd (equals_uniform tail o p) = o /\
  (length ks = 1 -> fst (equals_uniform tail o p) = Ok true) /\
  (length ks <> 1 -> exists x, is_value x (sumQ (map (fun v => (v - mean) * (v - mean) / mean) ov)%Q) /\
     fst (equals_uniform tail o p) = Ok (negb (num_ltb (tail (Z.of_nat (length ks) - 1)%Z x) (NFlt true (Fin p))))).
Proof.
  intros Do [SS AK] Fo NZ mean.
  assert (KI : forall k, In k ks <-> In k (map fst o)) by (intro k; rewrite AK; unfold in_either; tauto).
  assert (PK : Permutation ks (map fst o)) by (apply NoDup_Permutation; [apply sorted_nodup, SS|exact Do|exact KI]).
  assert (LK : length ks = length (map fst o)) by (apply Permutation_length, PK).
  assert (TT : (sumQ ov == sumQ (map snd o))%Q) by (apply (amounts_total o ks ov Do SS); [intros k; apply KI|exact Fo]).
  set (m := (total (dvalues o) / inject_Z (Z.of_nat (length (dkeys o))))%Q).
  assert (ks <> []). { intros ->. inversion Fo; subst. cbn in NZ. destruct NZ. reflexivity. }
  assert (Hm : (m == mean)%Q). { unfold m, mean, dvalues, dkeys. rewrite total_sum, TT, LK. reflexivity. }
  set (e := map (fun k => (k, m)) (dkeys o)).
  assert (Ke : map fst e = map fst o) by apply uniform_expected_keys.
  assert (De : dict e) by (unfold dict; rewrite Ke; exact Do).
  assert (EU : equals_uniform tail o p = (fst (stochastic_equals tail e o p), snd (snd (stochastic_equals tail e o p)))).
  { unfold equals_uniform. fold m. fold e. destruct (stochastic_equals tail e o p) as [r [a b]]. reflexivity. }
  assert (AKe : all_keys o e ks). { split; [exact SS|]. intro k. unfold in_either. rewrite Ke. rewrite KI. tauto. }
  set (ev := map (fun _ => m) ks).
  assert (Fe : Forall2 (amount e) ks ev).
  { assert (I : forall k, In k ks -> In k (map fst o)) by (intro; apply KI). unfold ev. clear - I. induction ks as [|k ks IH]; constructor.
    - left. apply in_map_iff. exists k. split; [reflexivity|]. apply I. left. reflexivity.
    - apply IH. intros j J. apply I. right. exact J. }
  assert (NZm : ~ (mean == 0)%Q).
  { intro Z0. apply NZ. assert (LQ := len_q ks H). assert (X : (sumQ ov == mean * inject_Z (Z.of_nat (length ks)))%Q) by (unfold mean; field; exact LQ).
    rewrite X, Z0. ring. }
  destruct (equals_verdict tail e o p ks ov ev De Do AKe Fo Fe) as (V1 & _ & V3).
  rewrite EU. cbn [fst snd]. rewrite (same_keys_unchanged tail e o p De Do Ke). split; [reflexivity|].
  split.
  - intro L1. destruct (V1 L1) as (b & E & B). rewrite E. f_equal. apply B.
    destruct ks as [|k [|k' ks']]; try discriminate. inversion Fo as [|? v ? l ? F']; subst. inversion F'; subst. unfold ev. cbn [map]. constructor; [|constructor].
    rewrite Hm. unfold mean. cbn. field.
  - intro L1. destruct V3 as (x & X & E).
    + exact L1.
    + unfold e. rewrite uniform_total. rewrite Hm. unfold dkeys. rewrite <- LK, <- TT. unfold mean. field. apply len_q, H.
    + unfold ev. apply Forall_forall. intros y Hy. apply in_map_iff in Hy. destruct Hy as (_ & <- & _). rewrite Hm. exact NZm.
    + exists x. split; [|exact E]. destruct X as (q & Eq & Q1). exists q. split; [exact Eq|]. rewrite Q1. unfold pearson, ev.
      clearbody mean m. clear - Fo Hm. induction Fo as [|k v ks' ov' _ _ IH]; cbn [map combine sumQ fst snd]; [reflexivity|]. rewrite IH, Hm. reflexivity.
Qed.

(** ** equals_gaussian *)
Lemma sample_mean_spec l : l <> [] -> (sample_mean l * inject_Z (Z.of_nat (length l)) == sumQ l)%Q.
Proof. intro H. unfold sample_mean. rewrite total_sum. field. apply len_q, H. Qed.
Lemma sample_var_spec l : l <> [] ->
  (sample_var l * inject_Z (Z.of_nat (length l)) == sumQ (map (fun x => (x - sample_mean l) * (x - sample_mean l)) l))%Q.
Proof.
  intro H. unfold sample_var. set (h := fun x => ((x - sample_mean l) * (x - sample_mean l))%Q).
  rewrite <- (map_length h l). apply sample_mean_spec. destruct l; [congruence|discriminate].
Qed.
Lemma gaussian_spec t_tail l rm rs rn p : equals_gaussian t_tail l rm rs rn p = true <->
  match num_val (t_tail (sample_mean l) (sample_var l) (length l) rm (rs * rs)%Q rn) with
  | Some (Fin q) => (p < q)%Q | Some PInf => True | _ => False end.
Proof.
  unfold equals_gaussian, num_ltb. cbn [num_val]. destruct (num_val _) as [[|q|]|]; cbn; try (split; [discriminate|tauto]); try tauto.
  unfold Qltb. rewrite Bool.negb_true_iff. split.
  - intro H. destruct (Qlt_le_dec p q) as [A|A]; [exact A|]. apply Qle_bool_iff in A. congruence.
  - intro H. destruct (Qle_bool q p) eqn:E; [|reflexivity]. apply Qle_bool_iff in E. lra.
Qed.
