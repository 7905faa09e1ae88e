(** Crowding distance. *)
From Coq Require Import Lia Lqa Permutation Sorted.
From Verif Require Import Model.Base Model.PyList Model.Pareto Model.Crowding Spec.Order Spec.Pareto Spec.Crowding
  Proofs.Order Proofs.Pareto Proofs.RankOrdinal.

(** the finite value of an objective *)
Definition fval (k : nat) (x : mo) : Q := match fit_at k x with Some (Fin q) => q | _ => 0%Q end.

Definition finite_at (k : nat) (x : mo) : Prop := exists q, fit_at k x = Some (Fin q).

Lemma finite_fval k x : finite_at k x -> fit_at k x = Some (Fin (fval k x)).
Proof. intros [q H]. unfold fval. rewrite H. reflexivity. Qed.

Lemma vlt_fin x y : vlt (Some (Fin x)) (Some (Fin y)) = true <-> (x < y)%Q.
Proof. simpl. apply Qltb_lt. Qed.
Lemma vlt_fin_false x y : vlt (Some (Fin x)) (Some (Fin y)) = false <-> (y <= x)%Q.
Proof. simpl. apply Qltb_ge. Qed.

(** ** smallest and largest value *)
Lemma fold_min k l : forall q, Forall (finite_at k) l ->
  exists m, fold_left (fun a x => min2 a (fit_at k x)) l (Some (Fin q)) = Some (Fin m) /\
    (m <= q)%Q /\ (forall x, In x l -> (m <= fval k x)%Q) /\ (m = q \/ exists x, In x l /\ m = fval k x).
Proof.
  induction l as [|x l IH]; intros q HF.
  - exists q. simpl. split; [reflexivity|]. split; [lra|]. split; [intros ? []|auto].
  - inversion HF; subst. cbn [fold_left]. rewrite (finite_fval k x H1). unfold min2 at 2.
    destruct (vlt (Some (Fin (fval k x))) (Some (Fin q))) eqn:E.
    + apply vlt_fin in E. destruct (IH (fval k x) H2) as (m & Em & M1 & M2 & M3). exists m. split; [exact Em|].
      split; [lra|]. split.
      * intros y [<-|Hy]; [exact M1|apply M2, Hy].
      * right. destruct M3 as [->|(y & Hy & ->)]; [exists x|exists y]; simpl; auto.
    + apply vlt_fin_false in E. destruct (IH q H2) as (m & Em & M1 & M2 & M3). exists m. split; [exact Em|].
      split; [exact M1|]. split.
      * intros y [<-|Hy]; [lra|apply M2, Hy].
      * destruct M3 as [->|(y & Hy & ->)]; [auto|right; exists y; simpl; auto].
Qed.

Lemma fold_max k l : forall q, Forall (finite_at k) l ->
  exists m, fold_left (fun a x => max2 a (fit_at k x)) l (Some (Fin q)) = Some (Fin m) /\
    (q <= m)%Q /\ (forall x, In x l -> (fval k x <= m)%Q) /\ (m = q \/ exists x, In x l /\ m = fval k x).
Proof.
  induction l as [|x l IH]; intros q HF.
  - exists q. simpl. split; [reflexivity|]. split; [lra|]. split; [intros ? []|auto].
  - inversion HF; subst. cbn [fold_left]. rewrite (finite_fval k x H1). unfold max2 at 2.
    destruct (vlt (Some (Fin q)) (Some (Fin (fval k x)))) eqn:E.
    + apply vlt_fin in E. destruct (IH (fval k x) H2) as (m & Em & M1 & M2 & M3). exists m. split; [exact Em|].
      split; [lra|]. split.
      * intros y [<-|Hy]; [exact M1|apply M2, Hy].
      * right. destruct M3 as [->|(y & Hy & ->)]; [exists x|exists y]; simpl; auto.
    + apply vlt_fin_false in E. destruct (IH q H2) as (m & Em & M1 & M2 & M3). exists m. split; [exact Em|].
      split; [exact M1|]. split.
      * intros y [<-|Hy]; [lra|apply M2, Hy].
      * destruct M3 as [->|(y & Hy & ->)]; [auto|right; exists y; simpl; auto].
Qed.

Lemma range_spec k mk l : l <> [] -> Forall (finite_at k) l ->
  exists w r, width fval k l w /\ objective_range k mk l = Some (Fin r) /\
    (r == if mk then w else - w)%Q /\ (0 <= w)%Q /\ (varies fval k l <-> ~ (w == 0)%Q).
Proof.
  intros Hne HF. destruct l as [|x l]; [congruence|]. clear Hne. inversion HF; subst.
  assert (Emin : fold_left (fun a y => min2 a (fit_at k y)) (x :: l) (Some PInf) =
                 fold_left (fun a y => min2 a (fit_at k y)) l (Some (Fin (fval k x)))).
  { cbn [fold_left]. rewrite (finite_fval k x H1). reflexivity. }
  assert (Emax : fold_left (fun a y => max2 a (fit_at k y)) (x :: l) (Some MInf) =
                 fold_left (fun a y => max2 a (fit_at k y)) l (Some (Fin (fval k x)))).
  { cbn [fold_left]. rewrite (finite_fval k x H1). reflexivity. }
  destruct (fold_min k l (fval k x) H2) as (lo & El & L1 & L2 & L3).
  destruct (fold_max k l (fval k x) H2) as (hi & Eh & M1 & M2 & M3).
  assert (Hlo : exists a, In a (x :: l) /\ lo = fval k a).
  { destruct L3 as [->|(y & Hy & ->)]; [exists x|exists y]; simpl; auto. }
  assert (Hhi : exists a, In a (x :: l) /\ hi = fval k a).
  { destruct M3 as [->|(y & Hy & ->)]; [exists x|exists y]; simpl; auto. }
  destruct Hlo as (a & Ha & ->). destruct Hhi as (b & Hb & ->).
  assert (Hall : forall z, In z (x :: l) -> (fval k a <= fval k z <= fval k b)%Q).
  { intros z [<-|Hz]; [split; assumption|split; [apply L2, Hz|apply M2, Hz]]. }
  exists (fval k b - fval k a)%Q, (if mk then (fval k b + - fval k a)%Q else (fval k a + - fval k b)%Q).
  split; [|split; [|split; [|split]]].
  - exists a, b. repeat split; auto; try apply Hall; auto; lra.
  - unfold objective_range. destruct mk; rewrite Emin, Emax, El, Eh; reflexivity.
  - destruct mk; lra.
  - destruct (Hall a Ha). lra.
  - split.
    + intros (u & v & Hu & Hv & Huv) E. apply Huv. destruct (Hall u Hu), (Hall v Hv). lra.
    + intros Hn. exists b, a. split; [exact Hb|]. split; [exact Ha|]. intros E. apply Hn. lra.
Qed.

(** ** the sliding window *)
Lemma set_at_same {B} (f : nat -> B) k v : set_at f k v k = v.
Proof. unfold set_at. rewrite Nat.eqb_refl. reflexivity. Qed.
Lemma set_at_other {B} (f : nat -> B) k v n : n <> k -> set_at f k v n = f n.
Proof. unfold set_at. destruct (Nat.eqb_spec n k); [congruence|reflexivity]. Qed.

Lemma crowd_inner_frame k w : forall l prev d i, ~ In i (map o_id (removelast l)) ->
  crowd_inner k w prev l d i = d i.
Proof.
  induction l as [|cur rest IH]; intros prev d i Hi; [reflexivity|].
  destruct rest as [|next rest']; [reflexivity|].
  change (crowd_inner k w prev (cur :: next :: rest') d) with
    (crowd_inner k w cur (next :: rest')
      (set_at d (o_id cur) (vadd (d (o_id cur)) (vdiv (vsub (fit_at k next) (fit_at k prev)) w)))).
  change (removelast (cur :: next :: rest')) with (cur :: removelast (next :: rest')) in Hi.
  rewrite IH by (intros F; apply Hi; right; exact F). apply set_at_other. intros ->. apply Hi. left. reflexivity.
Qed.

Lemma in_removelast {A} (l : list A) x : In x (removelast l) -> In x l.
Proof.
  induction l as [|a l IH]; [auto|]. destruct l as [|b l]; [intros []|].
  change (removelast (a :: b :: l)) with (a :: removelast (b :: l)). intros [->|H]; [left; reflexivity|right; apply IH, H].
Qed.

Lemma crowd_inner_at k w : forall l prev d, NoDup (map o_id l) ->
  forall l1 p x n l2, prev :: l = l1 ++ p :: x :: n :: l2 ->
  crowd_inner k w prev l d (o_id x) = vadd (d (o_id x)) (vdiv (vsub (fit_at k n) (fit_at k p)) w).
Proof.
  induction l as [|cur rest IH]; intros prev d HN l1 p x n l2 E.
  - destruct l1 as [|? [|]]; discriminate.
  - inversion HN; subst. destruct rest as [|next rest'].
    { destruct l1 as [|? [|? [|]]]; discriminate. }
    change (crowd_inner k w prev (cur :: next :: rest') d) with
      (crowd_inner k w cur (next :: rest')
        (set_at d (o_id cur) (vadd (d (o_id cur)) (vdiv (vsub (fit_at k next) (fit_at k prev)) w)))).
    destruct l1 as [|a l1].
    + simpl in E. injection E as -> -> -> ->. rewrite crowd_inner_frame.
      * apply set_at_same.
      * intros Hin. apply in_map_iff in Hin. destruct Hin as (y & Ey & Hy). apply in_removelast in Hy.
        apply H1. rewrite <- Ey. apply in_map, Hy.
    + simpl in E. injection E as -> E. rewrite (IH _ _ H2 _ _ _ _ _ E). f_equal. apply set_at_other.
      intros Ex. apply H1. rewrite <- Ex. apply in_map.
      destruct l1 as [|b l1]; simpl in E.
      * injection E as -> -> ->. left. reflexivity.
      * injection E as -> E. rewrite E. apply in_or_app. right. right. left. reflexivity.
Qed.

Lemma last_app {A} (l : list A) x d : last (l ++ [x]) d = x.
Proof. induction l as [|a l IH]; [reflexivity|]. simpl. destruct (l ++ [x]) eqn:E; [destruct l; discriminate|exact IH]. Qed.

Lemma removelast_snoc {A} (l : list A) x : removelast (l ++ [x]) = l.
Proof. induction l as [|a l IH]; [reflexivity|]. simpl. destruct (l ++ [x]) eqn:E; [destruct l; discriminate|]. rewrite IH. reflexivity. Qed.

Lemma crowd_walk_end k w s d x : NoDup (map o_id s) -> at_end s x -> crowd_walk k w s d (o_id x) = Some PInf.
Proof.
  intros HN (r & [-> | ->]).
  - simpl. rewrite crowd_inner_frame; [apply set_at_same|].
    inversion HN; subst. intros Hin. apply in_map_iff in Hin. destruct Hin as (y & Ey & Hy).
    apply in_removelast in Hy. apply H1. rewrite <- Ey. apply in_map, Hy.
  - destruct r as [|a r].
    + simpl. apply set_at_same.
    + cbn [app crowd_walk]. rewrite crowd_inner_frame.
      * rewrite last_app. unfold set_at at 1. destruct (_ =? _); [reflexivity|apply set_at_same].
      * rewrite removelast_snoc. simpl in HN. inversion HN; subst. rewrite map_app in H2. simpl in H2.
        apply NoDup_remove_2 in H2. rewrite app_nil_r in H2. exact H2.
Qed.

Lemma crowd_walk_inside k w s d l1 p x n l2 : NoDup (map o_id s) -> s = l1 ++ p :: x :: n :: l2 ->
  crowd_walk k w s d (o_id x) = vadd (d (o_id x)) (vdiv (vsub (fit_at k n) (fit_at k p)) w).
Proof.
  intros HN E. destruct s as [|a s]; [destruct l1; discriminate|]. simpl in HN. inversion HN; subst.
  cbn [crowd_walk]. rewrite (crowd_inner_at k w s a _ H2 _ _ _ _ _ E). f_equal.
  assert (Hs : NoDup (map o_id (a :: s))) by (simpl; exact HN).
  rewrite E in Hs.
  assert (Hx : o_id x <> o_id a).
  { intros Ex. destruct l1 as [|b l1].
    - simpl in E. injection E as -> ->. apply H1. rewrite <- Ex. left. reflexivity.
    - simpl in E. injection E as -> ->. apply H1. rewrite <- Ex.
      apply in_map, in_or_app. right. right. left. reflexivity. }
  rewrite set_at_other by exact Hx. apply set_at_other.
  assert (El : last s a = last (n :: l2) a).
  { destruct l1 as [|b l1].
    - simpl in E. injection E as -> E. rewrite E. reflexivity.
    - simpl in E. injection E as -> E. rewrite E.
      clear. induction l1 as [|c l1 IH]; [reflexivity|]. simpl. destruct (l1 ++ p :: x :: n :: l2) eqn:F; [destruct l1; discriminate|]. exact IH. }
  rewrite El. assert (Hl : In (last (n :: l2) a) (n :: l2)).
  { assert (G : forall (l : list mo) b e, In (last (b :: l) e) (b :: l)).
    { clear. induction l as [|c l IH]; intros b e; [left; reflexivity|].
      change (last (b :: c :: l) e) with (last (c :: l) e). right. apply IH. }
    apply G. }
  intros Ex. rewrite map_app in Hs. simpl in Hs.
  assert (HN2 : NoDup (o_id x :: map o_id (n :: l2))).
  { clear -Hs. induction (map o_id l1) as [|c l IH]; simpl in Hs; [inversion Hs; assumption|].
    inversion Hs; subst. auto. }
  inversion HN2 as [|? ? Hxn _]. apply Hxn. rewrite Ex. exact (in_map o_id _ _ Hl).
Qed.

Lemma crowd_walk_frame k w s d i : ~ In i (map o_id s) -> crowd_walk k w s d i = d i.
Proof.
  destruct s as [|a s]; [reflexivity|]. intros Hi. simpl in Hi. cbn [crowd_walk]. rewrite crowd_inner_frame.
  - rewrite set_at_other by (intros ->; apply Hi; left; reflexivity). apply set_at_other. intros E. apply Hi. destruct s as [|b s]; [left; simpl in E; auto|].
    right. rewrite E. apply in_map.
    assert (G : forall (l : list mo) b e, In (last (b :: l) e) (b :: l)).
    { clear. induction l as [|c l IH]; intros b e; [left; reflexivity|].
      change (last (b :: c :: l) e) with (last (c :: l) e). right. apply IH. }
    apply G.
  - intros H. apply Hi. right. apply in_map_iff in H. destruct H as (y & Ey & Hy). apply in_removelast in Hy.
    rewrite <- Ey. apply in_map, Hy.
Qed.

(** ** sorting by one objective *)
Lemma StronglySorted_weaken {A} (P : A -> Prop) (R S : A -> A -> Prop) l :
  (forall x y, P x -> P y -> R x y -> S x y) -> Forall P l -> StronglySorted R l -> StronglySorted S l.
Proof.
  intros H HP HS. induction HS as [|x l HS IH Hx]; [constructor|]. inversion HP; subst.
  constructor; [auto|]. rewrite Forall_forall in *. intros y Hy. apply H; auto.
Qed.

Lemma sort_objective_ok k mk l : Forall (finite_at k) l -> arrangement fval k l (sort_objective k mk l).
Proof.
  intros HF. unfold sort_objective. destruct mk.
  - split; [apply sort_asc_perm|]. left.
    apply (StronglySorted_weaken (finite_at k) (fun x y => vlt (fit_at k y) (fit_at k x) = false)).
    + intros x y Hx Hy. rewrite (finite_fval k x Hx), (finite_fval k y Hy). apply vlt_fin_false.
    + rewrite <- sort_asc_perm. exact HF.
    + apply sort_asc_sorted with (P := finite_at k); [| |exact HF].
      * intros x y z Hx Hy Hz. rewrite (finite_fval k x Hx), (finite_fval k y Hy), (finite_fval k z Hz), !vlt_fin_false. intros; lra.
      * intros x y Hx Hy. rewrite (finite_fval k x Hx), (finite_fval k y Hy), vlt_fin, vlt_fin_false. intros; lra.
  - split; [apply sort_asc_perm|]. right.
    apply (StronglySorted_weaken (finite_at k) (fun x y => vlt (vneg (fit_at k y)) (vneg (fit_at k x)) = false)).
    + intros x y Hx Hy. rewrite (finite_fval k x Hx), (finite_fval k y Hy). cbn [vneg option_map ext_opp].
      rewrite vlt_fin_false. intros; lra.
    + rewrite <- sort_asc_perm. exact HF.
    + apply sort_asc_sorted with (P := finite_at k); [| |exact HF].
      * intros x y z Hx Hy Hz. rewrite (finite_fval k x Hx), (finite_fval k y Hy), (finite_fval k z Hz).
        cbn [vneg option_map ext_opp]. rewrite !vlt_fin_false. intros; lra.
      * intros x y Hx Hy. rewrite (finite_fval k x Hx), (finite_fval k y Hy).
        cbn [vneg option_map ext_opp]. rewrite vlt_fin, vlt_fin_false. intros; lra.
Qed.

(** not at an end means having two neighbours *)
Lemma inside_split {A} (s : list A) x : In x s -> at_end s x \/ exists l1 p n l2, s = l1 ++ p :: x :: n :: l2.
Proof.
  intros Hx. apply in_split in Hx. destruct Hx as (l1 & l2 & ->).
  destruct l2 as [|n l2]; [left; exists l1; right; reflexivity|].
  destruct l1 as [|a l1] using rev_ind; [left; exists (n :: l2); left; reflexivity|].
  right. exists l1, a, n, l2. rewrite <- app_assoc. reflexivity.
Qed.

(** ** the loop over the objectives *)
Section Rank.
Variable L : list mo.
Hypothesis L_nonempty : L <> [].
Hypothesis L_ids : NoDup (map o_id L).

Definition sofar (m : nat) (arr : nat -> list mo) (d : nat -> val) : Prop :=
  (forall k, k < m -> varies fval k L -> arrangement fval k L (arr k)) /\
  forall x, In x L ->
    ((exists k, k < m /\ varies fval k L /\ at_end (arr k) x) -> d (o_id x) = Some PInf) /\
    ((forall k, k < m -> varies fval k L -> ~ at_end (arr k) x) ->
       exists q c, d (o_id x) = Some (Fin q) /\ (q == total c m)%Q /\
         (forall k, k < m -> varies fval k L -> gap fval k L (arr k) x (c k)) /\
         (forall k, k < m -> ~ varies fval k L -> (c k == 0)%Q)).

Lemma total_ext c c' m : (forall k, k < m -> (c k == c' k)%Q) -> (total c m == total c' m)%Q.
Proof.
  clear. induction m as [|m IH]; intros H; simpl; [reflexivity|]. rewrite (H m) by lia. rewrite IH; [reflexivity|].
  intros k Hk. apply H. lia.
Qed.

Lemma at_end_in {A} (s : list A) x : at_end s x -> In x s.
Proof. intros (r & [-> | ->]); [left; reflexivity|apply in_or_app; right; left; reflexivity]. Qed.

Lemma varies_dec k : Forall (finite_at k) L -> varies fval k L \/ ~ varies fval k L.
Proof.
  intros HF. destruct (range_spec k true L L_nonempty HF) as (w & r & _ & _ & _ & _ & V).
  destruct (Qeq_dec w 0); [right|left]; tauto.
Qed.

Lemma at_end_dec s x : at_end s (x : mo) \/ ~ at_end s x.
Proof.
  clear. assert (D : forall a b : mo, {a = b} + {a <> b}).
  { intros a b. assert (Dq : forall p q : Q, {p = q} + {p <> q}) by (decide equality; try apply Pos.eq_dec; apply Z.eq_dec).
    assert (De : forall p q : ext, {p = q} + {p <> q}) by decide equality.
    assert (Dn : forall p q : num, {p = q} + {p <> q}) by (decide equality; try apply Bool.bool_dec; try apply Z.eq_dec; apply De).
    decide equality; [apply (list_eq_dec Dn)|apply Nat.eq_dec]. }
  destruct s as [|a r]; [right; intros (r & [H|H]); [discriminate|destruct r; discriminate]|].
  destruct (D a x) as [->|N1]; [left; exists r; left; reflexivity|].
  destruct (exists_last (l := a :: r) ltac:(discriminate)) as (l & b & E). rewrite E.
  destruct (D b x) as [->|N2]; [left; exists l; right; reflexivity|]. right. intros (t & [H|H]).
  - rewrite <- E in H. injection H as -> _. congruence.
  - apply app_inj_tail in H. destruct H as [_ H]. congruence.
Qed.

Lemma sofar_step k mk arr d : Forall (finite_at k) L -> sofar k arr d ->
  let range := objective_range k mk L in
  let s := sort_objective k mk L in
  (veq range (Some (Fin 0%Q)) = true -> ~ varies fval k L /\ sofar (S k) arr d) /\
  (veq range (Some (Fin 0%Q)) = false -> varies fval k L /\ arrangement fval k L s /\
     sofar (S k) (fun j => if j =? k then s else arr j) (crowd_walk k range s d)).
Proof.
  intros HF [A B] range s. destruct (range_spec k mk L L_nonempty HF) as (w & r & W & Er & Hr & Hw & V).
  fold range in Er. split; intros Hv; rewrite Er in Hv; simpl in Hv.
  - apply Qeq_bool_eq in Hv. assert (Hn : ~ varies fval k L).
    { rewrite V. intros Hn. apply Hn. destruct mk; lra. }
    split; [exact Hn|]. split.
    + intros j Hj Hvar. destruct (Nat.eq_dec j k) as [->|]; [contradiction|]. apply A; [lia|exact Hvar].
    + intros x Hx. destruct (B x Hx) as [B1 B2]. split.
      * intros (j & Hj & Hvar & He). apply B1. exists j. split; [|auto].
        destruct (Nat.eq_dec j k) as [->|]; [contradiction|lia].
      * intros Hno. destruct B2 as (q & c & Ed & Eq & G1 & G2); [intros j Hj; apply Hno; lia|].
        exists q, (fun j => if j =? k then 0%Q else c j). split; [exact Ed|]. split; [|split].
        -- cbn [total]. rewrite Nat.eqb_refl, Eq, Qplus_0_r. apply total_ext. intros j Hj.
           destruct (Nat.eqb_spec j k); [lia|reflexivity].
        -- intros j Hj Hvar. destruct (Nat.eqb_spec j k) as [->|]; [contradiction|]. apply G1; [lia|exact Hvar].
        -- intros j Hj Hvar. destruct (Nat.eqb_spec j k) as [->|]; [reflexivity|]. apply G2; [lia|exact Hvar].
  - assert (Hvk : varies fval k L).
    { apply V. intros E. apply Qeq_bool_false in Hv. apply Hv. rewrite Hr. destruct mk; lra. }
    assert (Hs : arrangement fval k L s) by (apply sort_objective_ok, HF).
    assert (Hids : NoDup (map o_id s)).
    { apply (Permutation_NoDup (l := map o_id L)); [|exact L_ids]. apply Permutation_map, (proj1 Hs). }
    split; [exact Hvk|]. split; [exact Hs|]. split.
    + intros j Hj Hvar. destruct (Nat.eqb_spec j k) as [->|]; [exact Hs|]. apply A; [lia|exact Hvar].
    + intros x Hx. assert (Hxs : In x s) by (apply (Permutation_in _ (proj1 Hs)), Hx).
      destruct (B x Hx) as [B1 B2].
      destruct (inside_split s x Hxs) as [He|(l1 & p & n & l2 & Es)].
      { rewrite (crowd_walk_end k range s d x Hids He). split; [reflexivity|].
        intros Hno. exfalso. apply (Hno k (Nat.lt_succ_diag_r k) Hvk). rewrite Nat.eqb_refl. exact He. }
      assert (Hp : In p L).
      { apply (Permutation_in _ (Permutation_sym (proj1 Hs))). rewrite Es. apply in_or_app. right. left. reflexivity. }
      assert (Hn : In n L).
      { apply (Permutation_in _ (Permutation_sym (proj1 Hs))). rewrite Es. apply in_or_app. right. right. right. left. reflexivity. }
      rewrite Forall_forall in HF.
      rewrite (crowd_walk_inside k range s d l1 p x n l2 Hids Es).
      rewrite (finite_fval k n (HF n Hn)), (finite_fval k p (HF p Hp)), Er.
      cbn [vneg vsub vadd option_map ext_opp vdiv]. rewrite Hv.
      assert (Hg : ((fval k n + - fval k p) / r == Qabs (fval k n - fval k p) / w)%Q).
      { assert (Hwpos : (0 < w)%Q). { apply V in Hvk. destruct (Qlt_le_dec 0 w); [assumption|]. exfalso. apply Hvk. lra. }
        assert (Dir : if mk then (fval k p <= fval k n)%Q else (fval k n <= fval k p)%Q).
        { assert (Hsd : StronglySorted (fun x y => if mk then (fval k x <= fval k y)%Q else (fval k y <= fval k x)%Q) s).
          { clear -HF. unfold s, sort_objective. assert (HF' : Forall (finite_at k) L) by (apply Forall_forall, HF).
            destruct mk.
            - apply (StronglySorted_weaken (finite_at k) (fun x y => vlt (fit_at k y) (fit_at k x) = false)).
              + intros x y Hx Hy. rewrite (finite_fval k x Hx), (finite_fval k y Hy). apply vlt_fin_false.
              + rewrite <- sort_asc_perm. exact HF'.
              + apply sort_asc_sorted with (P := finite_at k); [| |exact HF'].
                * intros x y z Hx Hy Hz. rewrite (finite_fval k x Hx), (finite_fval k y Hy), (finite_fval k z Hz), !vlt_fin_false. intros; lra.
                * intros x y Hx Hy. rewrite (finite_fval k x Hx), (finite_fval k y Hy), vlt_fin, vlt_fin_false. intros; lra.
            - apply (StronglySorted_weaken (finite_at k) (fun x y => vlt (vneg (fit_at k y)) (vneg (fit_at k x)) = false)).
              + intros x y Hx Hy. rewrite (finite_fval k x Hx), (finite_fval k y Hy). cbn [vneg option_map ext_opp].
                rewrite vlt_fin_false. intros; lra.
              + rewrite <- sort_asc_perm. exact HF'.
              + apply sort_asc_sorted with (P := finite_at k); [| |exact HF'].
                * intros x y z Hx Hy Hz. rewrite (finite_fval k x Hx), (finite_fval k y Hy), (finite_fval k z Hz).
                  cbn [vneg option_map ext_opp]. rewrite !vlt_fin_false. intros; lra.
                * intros x y Hx Hy. rewrite (finite_fval k x Hx), (finite_fval k y Hy).
                  cbn [vneg option_map ext_opp]. rewrite vlt_fin, vlt_fin_false. intros; lra. }
          rewrite Es in Hsd. apply sorted_app_inv in Hsd. destruct Hsd as (_ & _ & Hsd).
          inversion Hsd as [|? ? _ Hall]; subst. rewrite Forall_forall in Hall.
          specialize (Hall n (or_intror (or_introl eq_refl))). exact Hall. }
        rewrite Hr. destruct mk.
        - rewrite Qabs_pos by lra. field. lra.
        - rewrite Qabs_neg by lra. field. lra. }
      split.
      * intros (j & Hj & Hvar & He). destruct (Nat.eqb_spec j k) as [->|Hne].
        -- exfalso. destruct He as (t & [Ht|Ht]).
           ++ rewrite Ht in Es. destruct l1 as [|a l1]; simpl in Es; injection Es as <- Es.
              ** rewrite Ht, Es in Hids. simpl in Hids. inversion Hids; subst. apply H1. left. reflexivity.
              ** rewrite Ht, Es in Hids. simpl in Hids. inversion Hids; subst. apply H1. apply in_map, in_or_app. right. right. left. reflexivity.
           ++ rewrite Ht in Es. destruct (exists_last (l := n :: l2) ltac:(discriminate)) as (u & z & Eu).
              rewrite Eu in Es. replace (l1 ++ p :: x :: u ++ [z]) with ((l1 ++ p :: x :: u) ++ [z]) in Es by (rewrite <- app_assoc; reflexivity).
              apply app_inj_tail in Es. destruct Es as [Es <-]. rewrite Ht, Es in Hids. rewrite map_app in Hids. simpl in Hids.
              apply NoDup_remove_2 in Hids. apply Hids. rewrite app_nil_r. apply in_map, in_or_app. right. right. left. reflexivity.
        -- rewrite B1; [reflexivity|]. exists j. split; [lia|auto].
      * intros Hno. destruct B2 as (q & c & Ed & Eq & G1 & G2).
        { intros j Hj Hvar. specialize (Hno j ltac:(lia) Hvar). destruct (Nat.eqb_spec j k); [lia|exact Hno]. }
        rewrite Ed. cbn [vadd]. eexists. exists (fun j => if j =? k then ((fval k n + - fval k p) / r)%Q else c j).
        split; [reflexivity|]. split; [|split].
        -- cbn [total]. rewrite Nat.eqb_refl, Eq. apply Qplus_inj_r. apply total_ext. intros j Hj.
           destruct (Nat.eqb_spec j k); [lia|reflexivity].
        -- intros j Hj Hvar. destruct (Nat.eqb_spec j k) as [->|].
           ++ exists l1, p, n, l2, w. split; [exact Es|]. split; [exact W|exact Hg].
           ++ apply G1; [lia|exact Hvar].
        -- intros j Hj Hvar. destruct (Nat.eqb_spec j k) as [->|]; [contradiction|]. apply G2; [lia|exact Hvar].
Qed.

Lemma crowd_objectives_ok : forall mx k sp arr d,
  (forall j, k <= j < k + length mx -> Forall (finite_at j) L) -> sofar k arr d ->
  exists out d', crowd_objectives k mx L sp d = (out, d') /\
    (exists arr', sofar (k + length mx) arr' d') /\
    ((exists j, k <= j < k + length mx /\ varies fval j L) -> Permutation L out) /\
    ((forall j, k <= j < k + length mx -> ~ varies fval j L) -> out = sp) /\
    (forall i, ~ In i (map o_id L) -> d' i = d i).
Proof.
  induction mx as [|mk mx IH]; intros k sp arr d HF HS.
  - exists sp, d. simpl. rewrite Nat.add_0_r. split; [reflexivity|]. split; [eauto|].
    split; [intros (j & Hj & _); lia|]. split; reflexivity.
  - simpl length in *. cbn [crowd_objectives].
    assert (HFk : Forall (finite_at k) L) by (apply HF; lia).
    destruct (sofar_step k mk arr d HFk HS) as [S1 S2].
    destruct (veq (objective_range k mk L) (Some (Fin 0%Q))) eqn:E.
    + destruct (S1 eq_refl) as [Nv HS']. destruct (IH (S k) sp arr d) as (out & d' & E' & X1 & X2 & X3 & X4).
      { intros j Hj. apply HF. lia. } { exact HS'. }
      exists out, d'. rewrite Nat.add_succ_r. split; [exact E'|]. split; [exact X1|]. split; [|split; [|exact X4]].
      * intros (j & Hj & Hv). apply X2. exists j. split; [|exact Hv]. destruct (Nat.eq_dec j k) as [->|]; [contradiction|lia].
      * intros Hn. apply X3. intros j Hj. apply Hn. lia.
    + destruct (S2 eq_refl) as (Hv & Hs & HS').
      destruct (IH (S k) (sort_objective k mk L) _ _ ltac:(intros j Hj; apply HF; lia) HS') as (out & d' & E' & X1 & X2 & X3 & X4).
      exists out, d'. rewrite Nat.add_succ_r. split; [exact E'|]. split; [exact X1|]. split; [|split].
      * intros _.
        assert (D : (exists j, S k <= j < S k + length mx /\ varies fval j L) \/ forall j, S k <= j < S k + length mx -> ~ varies fval j L).
        { assert (G : forall n a, (forall j, a <= j < a + n -> Forall (finite_at j) L) ->
             (exists j, a <= j < a + n /\ varies fval j L) \/ forall j, a <= j < a + n -> ~ varies fval j L).
          { induction n as [|n IHn]; intros a Ha; [right; intros; lia|].
            destruct (varies_dec a ltac:(apply Ha; lia)) as [Y|Y]; [left; exists a; split; [lia|exact Y]|].
            destruct (IHn (S a) ltac:(intros j Hj; apply Ha; lia)) as [(j & Hj & Hvj)|Z].
            - left. exists j. split; [lia|exact Hvj].
            - right. intros j Hj. destruct (Nat.eq_dec j a) as [->|]; [exact Y|apply Z; lia]. }
          apply G. intros j Hj. apply HF. lia. }
        destruct D as [D|D]; [apply X2, D|]. rewrite (X3 D). apply (proj1 Hs).
      * intros Hn. exfalso. exact (Hn k ltac:(lia) Hv).
      * intros i Hi. rewrite X4 by exact Hi. apply crowd_walk_frame. intros H. apply Hi.
        eapply Permutation_in; [|exact H]. apply Permutation_map, Permutation_sym, (proj1 Hs).
Qed.
End Rank.

Definition finite_vectors (mx : list bool) (l : list mo) : Prop :=
  forall x, In x l -> length (o_fit x) = length mx /\ forall k, k < length mx -> finite_at k x.

Definition degenerate (m : nat) (l : list mo) : Prop := forall k, k < m -> ~ varies fval k l.

Lemma per_rank_ok mx L d : L <> [] -> NoDup (map o_id L) -> finite_vectors mx L ->
  exists out d', per_rank_crowding_calc mx L d = (out, d') /\
    crowding fval (length mx) L (fun x => d' (o_id x)) /\
    (~ degenerate (length mx) L -> Permutation L out) /\
    (degenerate (length mx) L -> out = []) /\
    (degenerate (length mx) L \/ ~ degenerate (length mx) L) /\
    (forall i, ~ In i (map o_id L) -> d' i = d i).
Proof.
  intros Hne Hid HF.
  assert (HFk : forall j, 0 <= j < 0 + length mx -> Forall (finite_at j) L).
  { intros j Hj. apply Forall_forall. intros x Hx. apply (HF x Hx). lia. }
  set (d0 := fold_left (fun d x => set_at d (o_id x) (Some (Fin 0%Q))) L d).
  assert (H0 : forall x, In x L -> d0 (o_id x) = Some (Fin 0%Q)).
  { clear. unfold d0. intros x Hx. revert x Hx.
    induction L as [|a l IH] using rev_ind; intros x Hx; [destruct Hx|].
    rewrite fold_left_app. simpl. unfold set_at at 1. destruct (Nat.eqb_spec (o_id x) (o_id a)); [reflexivity|].
    apply in_app_or in Hx. destruct Hx as [Hx|[<-|[]]]; [apply IH, Hx|congruence]. }
  assert (Hfr : forall i, ~ In i (map o_id L) -> d0 i = d i).
  { clear. unfold d0. intros i. induction L as [|a l IH] using rev_ind; intros Hi; [reflexivity|].
    rewrite fold_left_app. simpl. rewrite map_app, in_app_iff in Hi. simpl in Hi.
    rewrite set_at_other by (intros ->; tauto). apply IH. tauto. }
  destruct (crowd_objectives_ok L Hne Hid mx 0 [] (fun _ => []) d0 HFk) as (out & d' & E & (arr & X1) & X2 & X3 & X4).
  { split; [intros; lia|]. intros x Hx. split; [intros (k & Hk & _); lia|]. intros _.
    exists 0%Q, (fun _ => 0%Q). split; [apply H0, Hx|]. split; [reflexivity|]. split; intros; lia. }
  exists out, d'. split; [exact E|]. split; [exists arr; exact X1|].
  assert (D : (exists j, 0 <= j < 0 + length mx /\ varies fval j L) \/ forall j, 0 <= j < 0 + length mx -> ~ varies fval j L).
  { assert (G : forall n, n <= length mx -> (exists j, 0 <= j < n /\ varies fval j L) \/ forall j, 0 <= j < n -> ~ varies fval j L).
    { induction n as [|n IHn]; intros Hn; [right; intros; lia|].
      destruct (IHn ltac:(lia)) as [(j & Hj & Hv)|Z]; [left; exists j; split; [lia|exact Hv]|].
      destruct (varies_dec L Hne n ltac:(apply HFk; lia)) as [Y|Y]; [left; exists n; split; [lia|exact Y]|].
      right. intros j Hj. destruct (Nat.eq_dec j n) as [->|]; [exact Y|apply Z; lia]. }
    apply G. lia. }
  split; [|split; [|split]].
  - intros Hnd. apply X2. destruct D as [D|D]; [exact D|]. exfalso. apply Hnd. intros k Hk. apply D. lia.
  - intros Hd. apply X3. intros j Hj. apply Hd. lia.
  - destruct D as [(j & Hj & Hv)|D]; [right; intros Hd; apply (Hd j); [lia|exact Hv]|left; intros k Hk; apply D; lia].
  - intros i Hi. rewrite X4 by exact Hi. apply Hfr, Hi.
Qed.

(** ** all ranks *)
Definition same_rank (rank : nat -> nat) (pop : list mo) (r : nat) : list mo :=
  filter (fun x => rank (o_id x) =? r) pop.

Lemma NoDup_map_filter {A B} (f : A -> B) (p : A -> bool) l : NoDup (map f l) -> NoDup (map f (filter p l)).
Proof.
  induction l as [|x l IH]; intros H; [constructor|]. simpl in *. inversion H; subst.
  destruct (p x); simpl; [|auto]. constructor; [|auto]. intros Hin. apply H2.
  apply in_map_iff in Hin. destruct Hin as (y & Ey & Hy). apply filter_In in Hy. rewrite <- Ey. apply in_map, Hy.
Qed.

Lemma in_same_rank rank pop r x : In x (same_rank rank pop r) <-> In x pop /\ rank (o_id x) = r.
Proof. unfold same_rank. rewrite filter_In, Nat.eqb_eq. tauto. Qed.

Lemma first_ranks_spec rank pop : forall seen,
  NoDup (first_ranks rank pop seen) /\ (forall r, In r (first_ranks rank pop seen) -> ~ In r seen) /\
  (forall r, In r (first_ranks rank pop seen) -> exists x, In x pop /\ rank (o_id x) = r) /\
  (forall x, In x pop -> In (rank (o_id x)) seen \/ In (rank (o_id x)) (first_ranks rank pop seen)).
Proof.
  induction pop as [|a pop IH]; intros seen; simpl.
  - split; [constructor|]. split; [intros ? []|]. split; [intros ? []|intros ? []].
  - destruct (existsb (Nat.eqb (rank (o_id a))) seen) eqn:E.
    + destruct (IH seen) as (I1 & I2 & I3 & I4). apply existsb_exists in E. destruct E as (r & Hr & Er).
      apply Nat.eqb_eq in Er. split; [exact I1|]. split; [exact I2|]. split.
      * intros r' Hr'. destruct (I3 r' Hr') as (x & Hx & Ex). eauto.
      * intros x [<-|Hx]; [left; rewrite Er; exact Hr|apply I4, Hx].
    + assert (Hn : ~ In (rank (o_id a)) seen).
      { intros Hin. assert (existsb (Nat.eqb (rank (o_id a))) seen = true) by (apply existsb_exists; exists (rank (o_id a)); split; [exact Hin|apply Nat.eqb_refl]). congruence. }
      destruct (IH (rank (o_id a) :: seen)) as (I1 & I2 & I3 & I4). split; [|split; [|split]].
      * constructor; [|exact I1]. intros Hin. apply (I2 _ Hin). left. reflexivity.
      * intros r [<-|Hr]; [exact Hn|]. intros Hin. apply (I2 r Hr). right. exact Hin.
      * intros r [<-|Hr]; [exists a; auto|]. destruct (I3 r Hr) as (x & Hx & Ex). eauto.
      * intros x [<-|Hx]; [right; left; reflexivity|]. destruct (I4 x Hx) as [[H|H]|H]; [right; left; exact H|left; exact H|right; right; exact H].
Qed.

Lemma crowd_ranks_ok mx rank pop : NoDup (map o_id pop) -> finite_vectors mx pop ->
  forall rs d, NoDup rs -> (forall r, In r rs -> exists x, In x pop /\ rank (o_id x) = r) ->
  exists out d', crowd_ranks mx rank pop rs d = (out, d') /\
    (forall r, In r rs -> crowding fval (length mx) (same_rank rank pop r) (fun x => d' (o_id x))) /\
    (exists blocks, out = concat blocks /\
       Forall2 (fun r b => (~ degenerate (length mx) (same_rank rank pop r) /\ Permutation (same_rank rank pop r) b)
                        \/ (degenerate (length mx) (same_rank rank pop r) /\ b = [])) rs blocks) /\
    (forall x, In x pop -> ~ In (rank (o_id x)) rs -> d' (o_id x) = d (o_id x)).
Proof.
  intros Hid HF. induction rs as [|r rs IH]; intros d HN Hex.
  - exists [], d. simpl. split; [reflexivity|]. split; [intros ? []|]. split; [exists []; split; [reflexivity|constructor]|reflexivity].
  - inversion HN; subst.
    assert (Hne : same_rank rank pop r <> []).
    { destruct (Hex r (or_introl eq_refl)) as (x & Hx & Ex). intros E.
      assert (Hin : In x (same_rank rank pop r)) by (apply in_same_rank; auto). rewrite E in Hin. destruct Hin. }
    assert (Hgid : NoDup (map o_id (same_rank rank pop r))) by (apply NoDup_map_filter, Hid).
    assert (HgF : finite_vectors mx (same_rank rank pop r)).
    { intros x Hx. apply HF. apply in_same_rank in Hx. tauto. }
    destruct (per_rank_ok mx (same_rank rank pop r) d Hne Hgid HgF) as (out1 & d1 & E1 & C1 & P1 & P2 & P3 & F1).
    destruct (IH d1 H2) as (outs & d2 & E2 & C2 & (blocks & -> & HB) & F2).
    { intros r' Hr'. apply Hex. right. exact Hr'. }
    exists (out1 ++ concat blocks), d2. cbn [crowd_ranks]. unfold same_rank in E1. rewrite E1, E2. split; [reflexivity|].
    assert (Hinj : forall x y, In x pop -> In y pop -> o_id x = o_id y -> x = y).
    { intros x y Hx Hy. apply (same_id pop Hid x y Hx Hy). }
    split; [|split].
    + intros r' [<-|Hr']; [|apply C2, Hr'].
      destruct C1 as (arr & A1 & A2). exists arr. split; [exact A1|]. intros x Hx.
      assert (Ed : d2 (o_id x) = d1 (o_id x)).
      { apply in_same_rank in Hx. apply F2; [tauto|]. destruct Hx as [_ ->]. exact H1. }
      rewrite Ed. apply A2, Hx.
    + exists (out1 :: blocks). split; [reflexivity|]. constructor; [|exact HB].
      destruct P3 as [P3|P3]; [right; auto|left; auto].
    + intros x Hx Hr. simpl in Hr. rewrite F2 by tauto. apply F1. intros Hin. apply in_map_iff in Hin.
      destruct Hin as (y & Ey & Hy). apply in_same_rank in Hy. destruct Hy as [Hy <-].
      apply Hr. left. rewrite (Hinj y x Hy Hx Ey). reflexivity.
Qed.

(** the blocks of all ranks, put together *)
Lemma partition_ranks rank pop : forall rs, NoDup rs ->
  Permutation (filter (fun x => existsb (Nat.eqb (rank (o_id x))) rs) pop) (concat (map (same_rank rank pop) rs)).
Proof.
  induction rs as [|r rs IH]; intros HN; simpl.
  - induction pop; simpl; auto.
  - inversion HN; subst. rewrite <- (IH H2). clear IH HN H2. induction pop as [|x pop IHp]; simpl; [constructor|].
    destruct (Nat.eqb_spec (rank (o_id x)) r) as [E|E]; simpl.
    + destruct (existsb (Nat.eqb (rank (o_id x))) rs) eqn:F.
      * exfalso. apply H1. apply existsb_exists in F. destruct F as (r' & Hr' & Er'). apply Nat.eqb_eq in Er'.
        rewrite <- E, Er'. exact Hr'.
      * constructor. exact IHp.
    + destruct (existsb (Nat.eqb (rank (o_id x))) rs); [|exact IHp].
      rewrite IHp. apply Permutation_middle.
Qed.

Lemma crowding_calc_ok mx rank pop d : pop <> [] -> NoDup (map o_id pop) -> finite_vectors mx pop ->
  exists out d', crowding_distance_calc mx rank pop d = Ok (out, d') /\
    (forall x, In x pop -> crowding fval (length mx) (same_rank rank pop (rank (o_id x))) (fun y => d' (o_id y))) /\
    (exists dropped, Permutation pop (out ++ dropped) /\
       (forall x, In x out -> ~ degenerate (length mx) (same_rank rank pop (rank (o_id x)))) /\
       (forall x, In x dropped -> degenerate (length mx) (same_rank rank pop (rank (o_id x))))) /\
    (exists blocks : list (nat * list mo), out = concat (map snd blocks) /\ NoDup (map fst blocks) /\
       forall r b x, In (r, b) blocks -> In x b -> rank (o_id x) = r).
Proof.
  intros Hne Hid HF. unfold crowding_distance_calc.
  destruct (first_ranks_spec rank pop []) as (I1 & _ & I3 & I4).
  set (rs := first_ranks rank pop []) in *.
  destruct (crowd_ranks_ok mx rank pop Hid HF rs d I1 I3) as (out & d' & E & C & (blocks & Eo & HB) & _).
  exists out, d'. split; [destruct pop; [congruence|rewrite E; reflexivity]|].
  assert (Hin : forall x, In x pop -> In (rank (o_id x)) rs).
  { intros x Hx. destruct (I4 x Hx) as [[]|H]; exact H. }
  split; [intros x Hx; apply C, Hin, Hx|]. split.
  - assert (Hall : Permutation pop (concat (map (same_rank rank pop) rs))).
    { rewrite <- partition_ranks by exact I1.
      assert (Hf : filter (fun x => existsb (Nat.eqb (rank (o_id x))) rs) pop = pop).
      { assert (G : forall l, (forall x, In x l -> In (rank (o_id x)) rs) -> filter (fun x => existsb (Nat.eqb (rank (o_id x))) rs) l = l).
        { induction l as [|x l IH]; intros Hl; [reflexivity|]. simpl.
          assert (Ex : existsb (Nat.eqb (rank (o_id x))) rs = true).
          { apply existsb_exists. exists (rank (o_id x)). split; [apply Hl; left; reflexivity|apply Nat.eqb_refl]. }
          rewrite Ex, IH; [reflexivity|]. intros y Hy. apply Hl. right. exact Hy. }
        apply G, Hin. }
      rewrite Hf. reflexivity. }
    assert (G : forall rs' bl, Forall2 (fun r b => (~ degenerate (length mx) (same_rank rank pop r) /\ Permutation (same_rank rank pop r) b)
                        \/ (degenerate (length mx) (same_rank rank pop r) /\ b = [])) rs' bl ->
       exists dropped, Permutation (concat (map (same_rank rank pop) rs')) (concat bl ++ dropped) /\
         (forall x, In x (concat bl) -> ~ degenerate (length mx) (same_rank rank pop (rank (o_id x)))) /\
         (forall x, In x dropped -> degenerate (length mx) (same_rank rank pop (rank (o_id x))))).
    { intros rs' bl H. induction H as [|r b rs' bl Hb H IH]; simpl.
      - exists []. split; [constructor|]. split; intros ? [].
      - destruct IH as (dr & D1 & D2 & D3). destruct Hb as [[Nd P]|[Dg ->]].
        + exists dr. split; [rewrite P, D1, app_assoc; reflexivity|]. split; [|exact D3].
          intros x Hx. apply in_app_or in Hx. destruct Hx as [Hx|Hx]; [|apply D2, Hx].
          apply (Permutation_in _ (Permutation_sym P)) in Hx. apply in_same_rank in Hx. destruct Hx as [_ ->]. exact Nd.
        + exists (same_rank rank pop r ++ dr). simpl. split; [|split].
          * rewrite D1, !app_assoc. apply Permutation_app_tail, Permutation_app_comm.
          * exact D2.
          * intros x Hx. apply in_app_or in Hx. destruct Hx as [Hx|Hx]; [|apply D3, Hx].
            apply in_same_rank in Hx. destruct Hx as [_ ->]. exact Dg. }
    destruct (G rs blocks HB) as (dr & D1 & D2 & D3). exists dr. subst out. split; [rewrite Hall; exact D1|]. auto.
  - exists (combine rs blocks). subst out.
    assert (G : map snd (combine rs blocks) = blocks /\ map fst (combine rs blocks) = rs).
    { clear -HB. induction HB as [|r b rs bl Hb H [IH1 IH2]]; [split; reflexivity|]. simpl. rewrite IH1, IH2. auto. }
    destruct G as [-> ->]. split; [reflexivity|]. split; [exact I1|].
    intros r b x Hrb Hx. clear -HB Hrb Hx. induction HB as [|r' b' rs bl Hb H IH]; [destruct Hrb|].
    simpl in Hrb. destruct Hrb as [Eq|Hrb]; [|exact (IH Hrb)]. injection Eq as -> ->.
    destruct Hb as [[_ P]|[_ ->]]; [|destruct Hx].
    apply (Permutation_in _ (Permutation_sym P)) in Hx. apply in_same_rank in Hx. tauto.
Qed.

(** ** consequences of the specification *)
Lemma total_nonneg c m : (forall k, k < m -> (0 <= c k)%Q) -> (0 <= total c m)%Q.
Proof.
  induction m as [|m IH]; intros H; simpl; [lra|]. specialize (IH ltac:(intros; apply H; lia)).
  specialize (H m ltac:(lia)). lra.
Qed.

Lemma width_nonneg {A} (value : nat -> A -> Q) k l w : width value k l w -> (0 <= w)%Q.
Proof. intros (lo & hi & Hlo & _ & H & E). destruct (H lo Hlo). lra. Qed.

Lemma crowding_nonneg m L dist x :
  (forall k, k < m -> varies fval k L \/ ~ varies fval k L) ->
  crowding fval m L dist -> In x L ->
  dist x = Some PInf \/ exists q, dist x = Some (Fin q) /\ (0 <= q)%Q.
Proof.
  intros Hdec (arr & A1 & A2) Hx. destruct (A2 x Hx) as [B1 B2].
  assert (D : (exists k, k < m /\ varies fval k L /\ at_end (arr k) x) \/
              forall k, k < m -> varies fval k L -> ~ at_end (arr k) x).
  { assert (G : forall n, n <= m -> (exists k, k < n /\ varies fval k L /\ at_end (arr k) x) \/
              forall k, k < n -> varies fval k L -> ~ at_end (arr k) x).
    { induction n as [|n IH]; intros Hn; [right; intros; lia|].
      destruct (IH ltac:(lia)) as [(k & Hk & R)|Z]; [left; exists k; split; [lia|exact R]|].
      destruct (Hdec n ltac:(lia)) as [V|V].
      - destruct (at_end_dec (arr n) x) as [Y|Y]; [left; exists n; auto|].
        right. intros k Hk Hv. destruct (Nat.eq_dec k n) as [->|]; [exact Y|apply Z; [lia|exact Hv]].
      - right. intros k Hk Hv. destruct (Nat.eq_dec k n) as [->|]; [contradiction|apply Z; [lia|exact Hv]]. }
    apply G. lia. }
  destruct D as [D|D]; [left; apply B1, D|right].
  destruct (B2 D) as (q & c & E & Eq & G1 & G2). exists q. split; [exact E|]. rewrite Eq. apply total_nonneg.
  intros k Hk. destruct (Hdec k Hk) as [V|V].
  - destruct (G1 k Hk V) as (l1 & p & n & l2 & w & _ & W & ->). apply width_nonneg in W.
    unfold Qdiv. apply Qmult_le_0_compat; [apply Qabs_nonneg|apply Qinv_le_0_compat, W].
  - rewrite (G2 k Hk V). lra.
Qed.

(** for each varying objective somebody with the smallest and somebody with the largest value gets an
    infinite distance *)
Lemma crowding_extremes m L dist k : crowding fval m L dist -> k < m -> varies fval k L ->
  exists lo hi, In lo L /\ In hi L /\ dist lo = Some PInf /\ dist hi = Some PInf /\
    forall z, In z L -> (fval k lo <= fval k z <= fval k hi)%Q.
Proof.
  intros (arr & A1 & A2) Hk Hv. destruct (A1 k Hk Hv) as [P S].
  destruct Hv as (u & v & Hu & Hv' & Huv). assert (Hv : varies fval k L) by (exists u, v; auto).
  assert (Hnn : arr k <> []). { intros E. rewrite E in P. apply (Permutation_in _ P) in Hu. destruct Hu. }
  destruct (arr k) as [|a r] eqn:Ea; [congruence|].
  destruct (exists_last (l := a :: r) ltac:(discriminate)) as (s & b & Eb).
  assert (Ha : at_end (arr k) a) by (exists r; left; exact Ea).
  assert (Hb : at_end (arr k) b) by (exists s; right; rewrite Ea; exact Eb).
  assert (HaL : In a L) by (apply (Permutation_in _ (Permutation_sym P)); left; reflexivity).
  assert (HbL : In b L) by (apply (Permutation_in _ (Permutation_sym P)); rewrite Eb; apply in_or_app; right; left; reflexivity).
  assert (Hinf : forall y, In y L -> at_end (arr k) y -> dist y = Some PInf).
  { intros y Hy He. apply (proj1 (A2 y Hy)). exists k. auto. }
  destruct S as [S|S].
  - exists a, b. split; [auto|]. split; [auto|]. split; [auto|]. split; [auto|]. intros z Hz. apply (Permutation_in _ P) in Hz. split.
    + inversion S; subst. rewrite Forall_forall in H2. destruct Hz as [<-|Hz]; [lra|apply H2, Hz].
    + rewrite Eb in S, Hz. apply sorted_app_inv in S. destruct S as (S & _ & _). apply in_app_or in Hz.
      destruct Hz as [Hz|[<-|[]]]; [apply S; [exact Hz|left; reflexivity]|lra].
  - exists b, a. split; [auto|]. split; [auto|]. split; [auto|]. split; [auto|]. intros z Hz. apply (Permutation_in _ P) in Hz. split.
    + rewrite Eb in S, Hz. apply sorted_app_inv in S. destruct S as (S & _ & _). apply in_app_or in Hz.
      destruct Hz as [Hz|[<-|[]]]; [apply S; [exact Hz|left; reflexivity]|lra].
    + inversion S; subst. rewrite Forall_forall in H2. destruct Hz as [<-|Hz]; [lra|apply H2, Hz].
Qed.
