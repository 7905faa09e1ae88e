(** Crowding distance with an objective that is NaN. *)
From Coq Require Import Lia Lqa.
From Verif Require Import Model.Base Model.PyList Model.Pareto Model.Crowding Spec.Crowding Proofs.Crowding.
Local Open Scope nat_scope.
Local Open Scope list_scope.

Definition nan_at (x : mo) : Prop := nth_error (o_fit x) 0 = Some NNan.
Definition number_at (q : Q) (x : mo) : Prop := exists v p, nth_error (o_fit x) 0 = Some v /\ num_val v = Some (Fin p) /\ (p == q)%Q.

Lemma nan_fit x : nan_at x -> fit_at 0 x = None.
Proof. unfold nan_at, fit_at. intros H. rewrite (nth_error_nth _ _ NNan H). reflexivity. Qed.
Lemma number_fit q x : number_at q x -> exists p, fit_at 0 x = Some (Fin p) /\ (p == q)%Q.
Proof. unfold number_at, fit_at. intros (v & p & H & V & E). exists p. rewrite (nth_error_nth _ _ NNan H). auto. Qed.

Lemma sort_asc_const {A} (lt : A -> A -> bool) (l : list A) : (forall x y, In x l -> In y l -> lt x y = false) -> sort_asc lt l = l.
Proof.
  induction l as [|x l IH]; intros H; [reflexivity|]. cbn. rewrite IH by (intros; apply H; right; assumption).
  destruct l as [|y l]; [reflexivity|]. cbn. rewrite H; [reflexivity|right; left; reflexivity|left; reflexivity].
Qed.

Lemma one_rank rank r pop : pop <> [] -> (forall x, In x pop -> rank (o_id x) = r) -> first_ranks rank pop [] = [r].
Proof.
  destruct pop as [|x pop]; [congruence|]. intros _ H. cbn. rewrite (H x) by (left; reflexivity). f_equal.
  assert (K : forall y, In y pop -> rank (o_id y) = r) by (intros; apply H; right; assumption). clear H x.
  induction pop as [|y pop IH]; [reflexivity|]. cbn. rewrite (K y) by (left; reflexivity). rewrite Nat.eqb_refl. cbn.
  apply IH. intros; apply K; right; assumption.
Qed.
Lemma one_filter rank r pop : (forall x, In x pop -> rank (o_id x) = r) -> filter (fun x => rank (o_id x) =? r) pop = pop.
Proof.
  induction pop as [|x pop IH]; intros H; [reflexivity|]. cbn. rewrite (H x) by (left; reflexivity). rewrite Nat.eqb_refl. f_equal.
  apply IH. intros; apply H; right; assumption.
Qed.
Lemma one_calc mx rank r pop d : pop <> [] -> (forall x, In x pop -> rank (o_id x) = r) ->
  crowding_distance_calc mx rank pop d = Ok (per_rank_crowding_calc mx pop d).
Proof.
  intros NE H. unfold crowding_distance_calc. rewrite (one_rank rank r pop NE H). cbn [crowd_ranks]. rewrite (one_filter rank r pop H).
  destruct (per_rank_crowding_calc mx pop d) as [o d1]. rewrite app_nil_r. destruct pop; [congruence|reflexivity].
Qed.

Lemma zero_all (pop : list mo) : forall d x, (In x pop \/ d (o_id x) = Some (Fin 0%Q)) ->
  fold_left (fun d x => set_at d (o_id x) (Some (Fin 0%Q))) pop d (o_id x) = Some (Fin 0%Q).
Proof.
  induction pop as [|y pop IH]; intros d x H; cbn; [destruct H as [[]|H]; exact H|]. apply IH.
  unfold set_at. destruct (Nat.eqb_spec (o_id y) (o_id x)) as [E|E].
  - right. rewrite ?E, Nat.eqb_refl. reflexivity.
  - destruct H as [[->|H]|H]; [congruence|left; exact H|right].
    destruct (Nat.eqb_spec (o_id x) (o_id y)); congruence.
Qed.

Lemma fold_keep (f : val -> val -> val) (pop : list mo) : (forall x, In x pop -> nan_at x) -> (forall a, f a None = a) ->
  forall a, fold_left (fun a x => f a (fit_at 0 x)) pop a = a.
Proof.
  intros H Hf. induction pop as [|x pop IH]; intros a; [reflexivity|]. cbn. rewrite (nan_fit x) by (apply H; left; reflexivity). rewrite Hf.
  apply IH. intros; apply H; right; assumption.
Qed.
Lemma min2_none a : min2 a None = a.
Proof. reflexivity. Qed.
Lemma max2_none a : max2 a None = a.
Proof. destruct a; reflexivity. Qed.

Lemma nan_range mk pop : (forall x, In x pop -> nan_at x) -> objective_range 0 mk pop = Some (if mk then MInf else PInf).
Proof.
  intros H. unfold objective_range. rewrite (fold_keep min2 pop H min2_none), (fold_keep max2 pop H max2_none). destruct mk; reflexivity.
Qed.
Lemma nan_sort mk pop : (forall x, In x pop -> nan_at x) -> sort_objective 0 mk pop = pop.
Proof.
  intros H. unfold sort_objective. destruct mk; apply sort_asc_const; intros x y Hx Hy; rewrite (nan_fit x), (nan_fit y) by auto; reflexivity.
Qed.

Lemma destruct_last {A} (l : list A) : l = [] \/ exists r z, l = r ++ [z].
Proof. destruct l as [|a l]; [left; reflexivity|]. right. destruct (exists_last (l := a :: l)) as (r & z & E); [discriminate|]. eauto. Qed.
Lemma inside_split {A} (l : list A) x : In x l -> ~ at_end l x -> exists l1 p n l2, l = l1 ++ p :: x :: n :: l2.
Proof.
  intros H N. destruct (in_split _ _ H) as (a & b & ->).
  destruct (destruct_last a) as [->|(a' & p & ->)]; [exfalso; apply N; exists b; left; reflexivity|].
  destruct b as [|n b]; [exfalso; apply N; exists (a' ++ [p]); right; reflexivity|].
  exists a', p, n, b. rewrite <- app_assoc. reflexivity.
Qed.

(** the walk gives infinity to the ends and NaN to the others *)
Lemma nan_walk w pop d x : (forall x, In x pop -> nan_at x) -> NoDup (map o_id pop) -> In x pop ->
  (at_end pop x -> crowd_walk 0 w pop d (o_id x) = Some PInf) /\ (~ at_end pop x -> crowd_walk 0 w pop d (o_id x) = None).
Proof.
  intros H ND Hx. split; [apply crowd_walk_end, ND|]. intros N. destruct (inside_split pop x Hx N) as (l1 & p & n & l2 & E).
  rewrite (crowd_walk_inside 0 w pop d l1 p x n l2 ND E).
  - rewrite (nan_fit n); [cbn; destruct (d (o_id x)) as [[]|]; reflexivity|]. apply H. rewrite E. apply in_or_app. right. right. right. left. reflexivity.
Qed.

Lemma nan_objective mk rank r pop d : pop <> [] -> NoDup (map o_id pop) -> (forall x, In x pop -> rank (o_id x) = r) ->
  (forall x, In x pop -> nan_at x) ->
  exists d', crowding_distance_calc [mk] rank pop d = Ok (pop, d') /\
    forall x, In x pop -> (at_end pop x -> d' (o_id x) = Some PInf) /\ (~ at_end pop x -> d' (o_id x) = None).
Proof.
  intros NE ND R H.
  exists (crowd_walk 0 (Some (if mk then MInf else PInf)) pop (fold_left (fun d x => set_at d (o_id x) (Some (Fin 0%Q))) pop d)). split.
  - rewrite (one_calc [mk] rank r pop d NE R). unfold per_rank_crowding_calc. cbn [crowd_objectives].
    rewrite (nan_range mk pop H), (nan_sort mk pop H). destruct mk; reflexivity.
  - intros x Hx. apply nan_walk; assumption.
Qed.

(** what is left of the values is one number *)
Lemma mixed_min q pop : (forall x, In x pop -> nan_at x \/ number_at q x) -> forall a, (a = PInf \/ exists p, a = Fin p /\ (p == q)%Q) ->
  exists b, fold_left (fun a x => min2 a (fit_at 0 x)) pop (Some a) = Some b /\ (b = PInf \/ exists p, b = Fin p /\ (p == q)%Q) /\
    ((exists p, a = Fin p) \/ (exists x, In x pop /\ number_at q x) -> exists p, b = Fin p).
Proof.
  induction pop as [|x pop IH]; intros H a Ha; cbn [fold_left].
  - exists a. split; [reflexivity|]. split; [exact Ha|]. intros [K|(x & [] & _)]. exact K.
  - assert (H' : forall x, In x pop -> nan_at x \/ number_at q x) by (intros; apply H; right; assumption).
    destruct (H x) as [N|N]; [left; reflexivity| |].
    + rewrite (nan_fit x N), min2_none. destruct (IH H' a Ha) as (b & E & B & C). exists b. split; [exact E|]. split; [exact B|].
      intros [K|(y & [->|Hy] & K)]; [apply C; left; exact K| |apply C; right; eauto].
      exfalso. destruct K as (v & p & K & V & _). unfold nan_at in N. rewrite N in K. injection K as <-. discriminate.
    + destruct (number_fit q x N) as (p & F & P). rewrite F.
      assert (M : exists a', min2 (Some a) (Some (Fin p)) = Some (Fin a') /\ (a' == q)%Q).
      { unfold min2, vlt. destruct Ha as [->|(p' & -> & P')]; cbn; [eauto|]. destruct (Qltb p p'); eauto. }
      destruct M as (a' & M & A'). rewrite M. destruct (IH H' (Fin a')) as (b & E & B & C); [right; eauto|].
      exists b. split; [exact E|]. split; [exact B|]. intros _. apply C. left. eauto.
Qed.
Lemma mixed_max q pop : (forall x, In x pop -> nan_at x \/ number_at q x) -> forall a, (a = MInf \/ exists p, a = Fin p /\ (p == q)%Q) ->
  exists b, fold_left (fun a x => max2 a (fit_at 0 x)) pop (Some a) = Some b /\ (b = MInf \/ exists p, b = Fin p /\ (p == q)%Q) /\
    ((exists p, a = Fin p) \/ (exists x, In x pop /\ number_at q x) -> exists p, b = Fin p).
Proof.
  induction pop as [|x pop IH]; intros H a Ha; cbn [fold_left].
  - exists a. split; [reflexivity|]. split; [exact Ha|]. intros [K|(x & [] & _)]. exact K.
  - assert (H' : forall x, In x pop -> nan_at x \/ number_at q x) by (intros; apply H; right; assumption).
    destruct (H x) as [N|N]; [left; reflexivity| |].
    + rewrite (nan_fit x N), max2_none. destruct (IH H' a Ha) as (b & E & B & C). exists b. split; [exact E|]. split; [exact B|].
      intros [K|(y & [->|Hy] & K)]; [apply C; left; exact K| |apply C; right; eauto].
      exfalso. destruct K as (v & p & K & V & _). unfold nan_at in N. rewrite N in K. injection K as <-. discriminate.
    + destruct (number_fit q x N) as (p & F & P). rewrite F.
      assert (M : exists a', max2 (Some a) (Some (Fin p)) = Some (Fin a') /\ (a' == q)%Q).
      { unfold max2, vlt. destruct Ha as [->|(p' & -> & P')]; cbn; [eauto|]. destruct (Qltb p' p); eauto. }
      destruct M as (a' & M & A'). rewrite M. destruct (IH H' (Fin a')) as (b & E & B & C); [right; eauto|].
      exists b. split; [exact E|]. split; [exact B|]. intros _. apply C. left. eauto.
Qed.

Lemma nan_left_out mk rank r pop d q : (forall x, In x pop -> rank (o_id x) = r) ->
  (forall x, In x pop -> nan_at x \/ number_at q x) -> (exists x, In x pop /\ number_at q x) ->
  exists d', crowding_distance_calc [mk] rank pop d = Ok ([], d') /\ forall x, In x pop -> d' (o_id x) = Some (Fin 0%Q).
Proof.
  intros R H K. assert (NE : pop <> []) by (destruct K as (x & K & _); intros ->; destruct K).
  eexists. split.
  - rewrite (one_calc [mk] rank r pop d NE R). unfold per_rank_crowding_calc. cbn [crowd_objectives].
    destruct (mixed_min q pop H PInf (or_introl eq_refl)) as (lo & El & Bl & Cl).
    destruct (mixed_max q pop H MInf (or_introl eq_refl)) as (hi & Eh & Bh & Ch).
    destruct (Cl (or_intror K)) as (lq & ->). destruct (Ch (or_intror K)) as (hq & ->).
    destruct Bl as [Bl|(p1 & Bl & P1)]; [discriminate|]. destruct Bh as [Bh|(p2 & Bh & P2)]; [discriminate|].
    injection Bl as <-. injection Bh as <-.
    assert (Z : veq (objective_range 0 mk pop) (Some (Fin 0%Q)) = true).
    { unfold objective_range. rewrite El, Eh. destruct mk; cbn; apply Qeq_bool_iff; lra. }
    rewrite Z. reflexivity.
  - intros x Hx. apply zero_all. left. exact Hx.
Qed.
