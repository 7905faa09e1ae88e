(** Proofs about max/min/sort/topk over an arbitrary comparison compatible with a total preorder. *)
From Coq Require Import Lia.
From Verif Require Import Model.Base Model.PyList Spec.Selection.

Lemma pymax_from_split {A} (gt : A -> A -> bool) l : forall c, exists l1 l2, c :: l = l1 ++ pymax_from gt c l :: l2.
Proof.
  intros c. apply in_split.
  revert c. induction l as [|x l IH]; intros c; cbn [pymax_from].
  - simpl; tauto.
  - specialize (IH (if gt x c then x else c)). destruct IH as [IH|IH].
    + rewrite <- IH. destruct (gt x c); simpl; tauto.
    + simpl; tauto.
Qed.

Lemma pymin_from_in {A} (lt : A -> A -> bool) l : forall c, In (pymin_from lt c l) (c :: l).
Proof.
  induction l as [|x l IH]; intros c; cbn [pymin_from].
  - simpl; tauto.
  - specialize (IH (if lt x c then x else c)). destruct IH as [IH|IH].
    + rewrite <- IH. destruct (lt x c); simpl; tauto.
    + simpl; tauto.
Qed.
Section Gen.
Context {A : Type}.
Variable nb : A -> A -> Prop.             (* x is not better than y *)
Variable P : A -> Prop.                   (* where the comparisons are exact *)
Variable lt gt eq : A -> A -> bool.
Hypothesis nb_trans : forall x y z, nb x y -> nb y z -> nb x z.
Hypothesis nb_total : forall x y, nb x y \/ nb y x.
Hypothesis lt_true : forall x y, P x -> P y -> lt x y = true -> nb x y.
Hypothesis lt_false : forall x y, P x -> P y -> lt x y = false -> nb y x.

Lemma nb_refl x : nb x x.
Proof. destruct (nb_total x x); assumption. Qed.

Lemma insert_desc_perm x l : Permutation (x :: l) (insert_desc lt x l).
Proof.
  induction l as [|y l IH]; cbn [insert_desc]; [reflexivity|].
  destruct (lt x y); [|reflexivity].
  rewrite perm_swap. apply perm_skip, IH.
Qed.

Lemma sort_desc_perm l : Permutation l (sort_desc lt l).
Proof.
  induction l as [|x l IH]; cbn [sort_desc]; [constructor|].
  rewrite <- insert_desc_perm. apply perm_skip, IH.
Qed.

Lemma sort_desc_length l : length (sort_desc lt l) = length l.
Proof. symmetry. apply Permutation_length, sort_desc_perm. Qed.

Lemma insert_desc_sorted x l : P x -> Forall P l ->
  StronglySorted (fun a b => nb b a) l -> StronglySorted (fun a b => nb b a) (insert_desc lt x l).
Proof.
  intros Px HP Hs. revert HP. induction Hs as [|y l Hs IH Hf]; intros HP; cbn [insert_desc].
  - repeat constructor.
  - inversion HP as [|? ? Py HP']; subst. destruct (lt x y) eqn:E.
    + constructor; [apply IH, HP'|]. apply Forall_forall. intros z Hz.
      apply (Permutation_in z (Permutation_sym (insert_desc_perm x l))) in Hz.
      destruct Hz as [<-|Hz]; [apply lt_true; assumption|].
      rewrite Forall_forall in Hf. apply Hf, Hz.
    + constructor; [constructor; assumption|].
      constructor; [apply lt_false; assumption|].
      rewrite Forall_forall in *. intros z Hz.
      eapply nb_trans; [apply Hf, Hz|apply lt_false; assumption].
Qed.

Lemma sort_desc_sorted l : Forall P l -> StronglySorted (fun a b => nb b a) (sort_desc lt l).
Proof.
  induction l as [|x l IH]; intros HP; cbn [sort_desc]; [constructor|].
  inversion HP; subst. apply insert_desc_sorted; auto.
  eapply Permutation_Forall; [apply sort_desc_perm|assumption].
Qed.

Lemma firstn_sorted {B} (R : B -> B -> Prop) n l :
  StronglySorted R l -> StronglySorted R (firstn n l).
Proof.
  intros H. revert n. induction H as [|x l Hs IH Hf]; intros [|n]; simpl; constructor; auto.
  rewrite Forall_forall in *. intros z Hz. apply Hf.
  rewrite <- (firstn_skipn n l). apply in_or_app. auto.
Qed.

Lemma sorted_firstn_skipn {B} (R : B -> B -> Prop) n l :
  StronglySorted R l -> forall x y, In x (firstn n l) -> In y (skipn n l) -> R x y.
Proof.
  intros H. revert n. induction H as [|z l Hs IH Hf]; intros [|n] x y Hx Hy; simpl in *; try tauto.
  destruct Hx as [->|Hx].
  - rewrite Forall_forall in Hf. apply Hf. rewrite <- (firstn_skipn n l). apply in_or_app. auto.
  - eapply IH; eassumption.
Qed.

(** Sorting and cutting is a best-k selection, whatever the answers on ties. *)
Lemma sort_firstn_best k l : Forall P l -> best_selection nb k l (firstn k (sort_desc lt l)).
Proof.
  intros HP. split; [|split].
  - rewrite firstn_length, sort_desc_length. reflexivity.
  - apply firstn_sorted, sort_desc_sorted, HP.
  - exists (skipn k (sort_desc lt l)). split.
    + rewrite firstn_skipn. apply sort_desc_perm.
    + intros x y Hx Hy. revert x y Hx Hy. apply sorted_firstn_skipn, sort_desc_sorted, HP.
Qed.

(** Running maximum. *)
Hypothesis gt_true : forall x y, P x -> P y -> gt x y = true -> nb y x.
Hypothesis gt_false : forall x y, P x -> P y -> gt x y = false -> nb x y.

Lemma pymax_from_ge l : forall c,
  P c -> Forall P l ->
  nb c (pymax_from gt c l) /\ Forall (fun y => nb y (pymax_from gt c l)) l.
Proof.
  induction l as [|x l IH]; intros c Pc Pl; cbn [pymax_from].
  - split; [apply nb_refl|constructor].
  - inversion Pl as [|? ? Px Pl']; subst.
    destruct (gt x c) eqn:E.
    + destruct (IH x Px Pl') as [H1 H2]. split.
      * eapply nb_trans; [exact (gt_true _ _ Px Pc E)|exact H1].
      * constructor; assumption.
    + destruct (IH c Pc Pl') as [H1 H2]. split; [exact H1|].
      constructor; [|assumption]. eapply nb_trans; [exact (gt_false _ _ Px Pc E)|exact H1].
Qed.

Lemma pymin_from_le l : forall c,
  P c -> Forall P l ->
  nb (pymin_from lt c l) c /\ Forall (fun y => nb (pymin_from lt c l) y) l.
Proof.
  induction l as [|x l IH]; intros c Pc Pl; cbn [pymin_from].
  - split; [apply nb_refl|constructor].
  - inversion Pl as [|? ? Px Pl']; subst.
    destruct (lt x c) eqn:E.
    + destruct (IH x Px Pl') as [H1 H2]. split.
      * eapply nb_trans; [exact H1|exact (lt_true _ _ Px Pc E)].
      * constructor; assumption.
    + destruct (IH c Pc Pl') as [H1 H2]. split; [exact H1|].
      constructor; [|assumption]. eapply nb_trans; [exact H1|exact (lt_false _ _ Px Pc E)].
Qed.

End Gen.

Section TopK.
Context {A : Type}.
Variable nb : A -> A -> Prop.
Variable P : A -> Prop.
Variable lt gt eq : A -> A -> bool.
Hypothesis nb_trans : forall x y z, nb x y -> nb y z -> nb x z.
Hypothesis nb_total : forall x y, nb x y \/ nb y x.
Hypothesis lt_true : forall x y, P x -> P y -> lt x y = true -> nb x y.
Hypothesis lt_false : forall x y, P x -> P y -> lt x y = false -> nb y x.
Hypothesis gt_true : forall x y, P x -> P y -> gt x y = true -> nb y x.
Hypothesis gt_false : forall x y, P x -> P y -> gt x y = false -> nb x y.
Hypothesis eq_true : forall x y, P x -> P y -> eq x y = true -> nb y x.

Lemma topk_best sized k l : Forall P l -> best_selection nb k l (topk lt gt eq sized k l).
Proof.
  intros HP. destruct k as [|[|k]].
  - exact (sort_firstn_best nb P lt nb_trans lt_true lt_false 0 l HP).
  - cbn [topk]. destruct l as [|x l].
    + split; [reflexivity|split; [constructor|]]. exists []. split; [constructor|]. intros ? ? [].
    + inversion HP as [|? ? Px Pl]; subst.
      split; [|split].
      * simpl. reflexivity.
      * repeat constructor.
      * destruct (pymax_from_split gt l x) as (l1 & l2 & E). exists (l1 ++ l2). split.
        -- rewrite E. simpl. apply Permutation_sym, Permutation_middle.
        -- intros a b [<-|[]] Hb.
           destruct (pymax_from_ge nb P gt nb_trans nb_total gt_true gt_false l x Px Pl) as [G1 G2].
           rewrite Forall_forall in G2.
           assert (Hin : In b (x :: l)).
           { rewrite E. rewrite in_app_iff in *. simpl. tauto. }
           destruct Hin as [<-|Hin]; [exact G1|apply G2, Hin].
  - unfold topk. destruct (sized && (length l <=? S (S k))).
    + apply (sort_firstn_best nb P); assumption.
    + apply (sort_firstn_best nb P); try assumption.
      * intros x y Px Py. rewrite andb_true_iff. intros [_ H]. auto.
      * intros x y Px Py. rewrite andb_false_iff, negb_false_iff. intros [H|H]; auto.
Qed.
End TopK.

Lemma sort_desc_ext {A} (lt1 lt2 : A -> A -> bool) l :
  (forall x y, In x l -> In y l -> lt1 x y = lt2 x y) -> sort_desc lt1 l = sort_desc lt2 l.
Proof.
  assert (Hi : forall x l, (forall y, In y l -> lt1 x y = lt2 x y) ->
                 insert_desc lt1 x l = insert_desc lt2 x l).
  { intros x l'. induction l' as [|y l' IH]; intros H; cbn [insert_desc]; [reflexivity|].
    rewrite (H y) by (simpl; tauto). rewrite IH by (intros; apply H; simpl; tauto). reflexivity. }
  induction l as [|x l IH]; intros H; cbn [sort_desc]; [reflexivity|].
  rewrite IH by (intros; apply H; simpl; tauto).
  apply Hi. intros y Hy. apply H; [simpl; tauto|].
  right. apply (Permutation_in y (Permutation_sym (sort_desc_perm lt2 l))). exact Hy.
Qed.

(** Stability, for an exact strict weak order. *)
Section Stable.
Context {A : Type}.
Variable lt : A -> A -> bool.
Hypothesis lt_irrefl : forall x, lt x x = false.
Hypothesis lt_trans : forall x y z, lt x y = true -> lt y z = true -> lt x z = true.
Hypothesis lt_split : forall x y z, lt x z = true -> lt x y = true \/ lt y z = true.

Definition tied (x y : A) : bool := negb (lt x y) && negb (lt y x).

Lemma tied_spec x y : tied x y = true <-> lt x y = false /\ lt y x = false.
Proof. unfold tied. rewrite andb_true_iff, !negb_true_iff. reflexivity. Qed.

Lemma tied_insert z x l :
  filter (tied z) (insert_desc lt x l) = filter (tied z) (x :: l).
Proof.
  induction l as [|y l IH]; [reflexivity|].
  cbn [insert_desc]. destruct (lt x y) eqn:E; [|reflexivity].
  change (filter (tied z) (y :: insert_desc lt x l)) with
    (if tied z y then y :: filter (tied z) (insert_desc lt x l) else filter (tied z) (insert_desc lt x l)).
  rewrite IH. cbn [filter].
  destruct (tied z x) eqn:Ex, (tied z y) eqn:Ey; try reflexivity.
  exfalso. apply tied_spec in Ex, Ey.
  destruct (lt_split x z y E) as [H|H]; destruct Ex, Ey; congruence.
Qed.

Lemma sort_desc_stable z l : filter (tied z) (sort_desc lt l) = filter (tied z) l.
Proof.
  induction l as [|x l IH]; [reflexivity|].
  cbn [sort_desc]. rewrite tied_insert. cbn [filter]. rewrite IH. reflexivity.
Qed.

Lemma filter_firstn_prefix (f : A -> bool) k l :
  exists later, filter f l = filter f (firstn k l) ++ later.
Proof.
  exists (filter f (skipn k l)). rewrite <- filter_app, firstn_skipn. reflexivity.
Qed.

Definition ties (l r : list A) : Prop := forall x, exists later, filter (tied x) l = filter (tied x) r ++ later.

Lemma ties_spec l r : ties l r ->
  ties_favor_earlier (fun x y => lt x y = false /\ lt y x = false) l r.
Proof.
  intros H x f Hf. destruct (H x) as [later E]. exists later.
  assert (Ef : forall y, f y = tied x y).
  { intros y. apply eq_true_iff_eq. rewrite Hf, tied_spec. reflexivity. }
  rewrite !(filter_ext f (tied x) Ef). exact E.
Qed.

Lemma sort_firstn_ties k l : ties l (firstn k (sort_desc lt l)).
Proof.
  intros x. destruct (filter_firstn_prefix (tied x) k (sort_desc lt l)) as [later E].
  rewrite sort_desc_stable in E. eauto.
Qed.

(** for [gt] = flipped [lt], max picks the first of the best *)
Lemma pymax_from_first l : forall c,
  exists l1 l2, c :: l = l1 ++ pymax_from (fun a b => lt b a) c l :: l2 /\
    Forall (fun y => lt y (pymax_from (fun a b => lt b a) c l) = true) l1.
Proof.
  assert (Hgen : forall l c pre, Forall (fun y => lt y c = true) pre ->
    forall mid, Forall (fun y => lt c y = false) mid ->
    exists l1 l2, pre ++ c :: mid ++ l = l1 ++ pymax_from (fun a b => lt b a) c l :: l2 /\
    Forall (fun y => lt y (pymax_from (fun a b => lt b a) c l) = true) l1).
  { intros l'. induction l' as [|x l' IH]; intros c pre Hpre mid Hmid; cbn [pymax_from].
    - exists pre, mid. rewrite app_nil_r. auto.
    - destruct (lt c x) eqn:E.
      + destruct (IH x (pre ++ c :: mid)) with (mid := @nil A) as (l1 & l2 & E1 & H1).
        * rewrite Forall_app. split.
          -- eapply Forall_impl; [|exact Hpre]. intros a Ha. exact (lt_trans _ _ _ Ha E).
          -- constructor; [assumption|].
             eapply Forall_impl; [|exact Hmid]. intros a Ha. simpl in Ha.
             destruct (lt_split c a x E); congruence.
        * constructor.
        * exists l1, l2. split; [|exact H1]. rewrite <- E1. simpl. rewrite <- app_assoc. reflexivity.
      + destruct (IH c pre Hpre (mid ++ [x])) as (l1 & l2 & E1 & H1).
        * rewrite Forall_app. split; [assumption|]. repeat constructor. assumption.
        * exists l1, l2. split; [|exact H1]. rewrite <- E1. rewrite <- app_assoc. reflexivity. }
  intros c. apply (Hgen l c [] (Forall_nil _) [] (Forall_nil _)).
Qed.

Lemma topk_ties gt eq sized k l :
  (forall x y, In x l -> In y l -> gt x y = lt y x) ->
  (forall x y, In x l -> In y l -> eq x y = true -> lt x y = false) ->
  ties l (topk lt gt eq sized k l).
Proof.
  intros Hg He. destruct k as [|[|k]].
  - exact (sort_firstn_ties 0 l).
  - cbn [topk]. destruct l as [|x l]; [intros z; exists []; reflexivity|].
    assert (Ext : forall l' c, incl (c :: l') (x :: l) ->
              pymax_from gt c l' = pymax_from (fun a b => lt b a) c l').
    { induction l' as [|y l' IH]; intros c Hc; cbn [pymax_from]; [reflexivity|].
      rewrite (Hg y c) by (apply Hc; simpl; tauto).
      destruct (lt c y); apply IH; intros w [<-|Hw]; apply Hc; simpl; tauto. }
    rewrite Ext by apply incl_refl.
    destruct (pymax_from_first l x) as (l1 & l2 & E & H1).
    set (m := pymax_from (fun a b => lt b a) x l) in *.
    intros z. rewrite E. rewrite filter_app. cbn [filter].
    destruct (tied z m) eqn:Em.
    + exists (filter (tied z) l2).
      assert (E0 : filter (tied z) l1 = []).
      { clear -H1 Em lt_split. induction H1 as [|y l1 Hy H1 IH]; [reflexivity|]. cbn [filter].
        destruct (tied z y) eqn:Ey; [|exact IH]. exfalso.
        apply tied_spec in Em, Ey. destruct (lt_split y z m Hy); destruct Em, Ey; congruence. }
      rewrite E0. reflexivity.
    + exists (filter (tied z) l1 ++ filter (tied z) l2). reflexivity.
  - unfold topk. destruct (sized && (length l <=? S (S k))).
    + apply sort_firstn_ties.
    + rewrite (sort_desc_ext _ lt).
      * apply sort_firstn_ties.
      * intros x y Hx Hy. destruct (eq x y) eqn:E; simpl; [|reflexivity].
        symmetry. apply He; assumption.
Qed.
End Stable.
