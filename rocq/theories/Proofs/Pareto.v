(** Dominance and fast non-dominated sorting. *)
From Coq Require Import Lia Lqa Permutation.
From Verif Require Import Model.Base Model.PyList Model.Pareto Spec.Order Spec.Pareto Proofs.Order.

(** ** numbers *)
Definition ext_neg (e : ext) : ext := match e with MInf => PInf | PInf => MInf | Fin q => Fin (- q)%Q end.

Lemma num_val_neg n : num_val (num_neg n) = option_map ext_neg (num_val n).
Proof. destruct n as [z|b [| |]|]; reflexivity. Qed.

Lemma ext_neg_lt a b : ext_lt (ext_neg a) (ext_neg b) <-> ext_lt b a.
Proof. destruct a, b; simpl; try tauto. split; intros; lra. Qed.

Lemma ext_eqb_spec a b : ext_eqb a b = true <-> ~ ext_lt a b /\ ~ ext_lt b a.
Proof.
  destruct a as [|x|], b as [|y|]; simpl; try (split; intros; try reflexivity; try discriminate; tauto).
  rewrite Qeq_bool_iff. split; [intros; split; lra|]. intros [H1 H2]. apply Qnot_lt_le in H1, H2. lra.
Qed.

Lemma num_ltb_val a b : num_ltb a b = true <->
  match num_val a, num_val b with Some x, Some y => ext_lt x y | _, _ => False end.
Proof.
  unfold num_ltb. destruct (num_val a), (num_val b); try apply ext_ltb_lt; split; intros; try discriminate; tauto.
Qed.

Lemma num_leb_val a b : num_leb a b = true <->
  match num_val a, num_val b with Some x, Some y => ~ ext_lt y x | _, _ => False end.
Proof.
  unfold num_leb, num_ltb, num_eqb. destruct (num_val a) as [x|], (num_val b) as [y|];
    try (split; intros; try discriminate; tauto).
  rewrite orb_true_iff, ext_ltb_lt, ext_eqb_spec. split.
  - intros [H|[_ H]]; [|exact H]. intros H'. exact (ext_lt_irrefl x (ext_lt_trans x y x H H')).
  - intros H. destruct (ext_lt_dec x y); [left; assumption|right; auto].
Qed.

Definition sgn (m : bool) (n : num) : num := if m then n else num_neg n.

Lemma sgn_leb m a b : num_leb (sgn m b) (sgn m a) = true <-> as_good m a b.
Proof.
  rewrite num_leb_val. unfold as_good, sgn, ext_le. destruct m.
  - destruct (num_val b), (num_val a); tauto.
  - rewrite !num_val_neg. destruct (num_val b), (num_val a); simpl; try tauto. rewrite ext_neg_lt. tauto.
Qed.

Lemma sgn_ltb m a b : num_ltb (sgn m b) (sgn m a) = true <-> strictly_better m a b.
Proof.
  rewrite num_ltb_val. unfold strictly_better, sgn. destruct m.
  - destruct (num_val b), (num_val a); tauto.
  - rewrite !num_val_neg. destruct (num_val b), (num_val a); simpl; try tauto. rewrite ext_neg_lt. tauto.
Qed.

(** ** dominance *)
Lemma signed_cons m mx a f : signed (m :: mx) (a :: f) = sgn m a :: signed mx f.
Proof. reflexivity. Qed.

Lemma all_as_good mx : forall f g,
  forallb (fun p => num_leb (fst p) (snd p)) (combine (signed mx f) (signed mx g)) = true <->
  forall i m a b, nth_error mx i = Some m -> nth_error g i = Some a -> nth_error f i = Some b -> as_good m a b.
Proof.
  induction mx as [|m mx IH]; intros f g.
  { simpl. split; [|reflexivity]. intros _ [|i] m a b H; discriminate H. }
  destruct f as [|b f]; [simpl; split; [|reflexivity]; intros _ [|i] ? ? ? _ _ H; discriminate H|].
  destruct g as [|a g]; [simpl; split; [|reflexivity]; intros _ [|i] ? ? ? _ H; discriminate H|].
  rewrite !signed_cons. cbn [combine forallb fst snd]. rewrite andb_true_iff, IH, sgn_leb. split.
  - intros [H1 H2] [|i] m' a' b'; simpl; intros E1 E2 E3.
    + injection E1 as <-. injection E2 as <-. injection E3 as <-. exact H1.
    + exact (H2 i m' a' b' E1 E2 E3).
  - intros H. split; [exact (H 0 m a b eq_refl eq_refl eq_refl)|]. intros i m' a' b'. exact (H (S i) m' a' b').
Qed.

Lemma some_better mx : forall f g,
  existsb (fun p => num_ltb (fst p) (snd p)) (combine (signed mx f) (signed mx g)) = true <->
  exists i m a b, nth_error mx i = Some m /\ nth_error g i = Some a /\ nth_error f i = Some b /\ strictly_better m a b.
Proof.
  induction mx as [|m mx IH]; intros f g.
  { simpl. split; [discriminate|]. intros ([|i] & m & a & b & H & _); discriminate H. }
  destruct f as [|b f]; [simpl; split; [discriminate|]; intros ([|i] & ? & ? & ? & _ & _ & H & _); discriminate H|].
  destruct g as [|a g]; [simpl; split; [discriminate|]; intros ([|i] & ? & ? & ? & _ & H & _); discriminate H|].
  rewrite !signed_cons. cbn [combine existsb fst snd]. rewrite orb_true_iff, IH, sgn_ltb. split.
  - intros [H|(i & m' & a' & b' & H1 & H2 & H3 & H4)].
    + exists 0, m, a, b. auto.
    + exists (S i), m', a', b'. auto.
  - intros ([|i] & m' & a' & b' & H1 & H2 & H3 & H4); simpl in *.
    + injection H1 as <-. injection H2 as <-. injection H3 as <-. left. exact H4.
    + right. exists i, m', a', b'. auto.
Qed.

Lemma mo_worse_than_spec mx f g : mo_worse_than mx f g = true <-> dominates mx g f.
Proof.
  unfold mo_worse_than, dominated_vec, dominates. rewrite andb_true_iff, all_as_good, some_better. tauto.
Qed.

Lemma strictly_not_as_good m a b : strictly_better m a b -> ~ as_good m b a.
Proof.
  unfold strictly_better, as_good, ext_le. destruct (num_val a), (num_val b); try tauto. destruct m; tauto.
Qed.

Lemma as_good_trans m a b c : as_good m a b -> as_good m b c -> as_good m a c.
Proof.
  unfold as_good, ext_le. destruct (num_val a) as [x|], (num_val b) as [y|], (num_val c) as [z|]; try tauto.
  destruct m; intros H1 H2 H3.
  - destruct (ext_lt_split x y z H3); tauto.
  - destruct (ext_lt_split z y x H3); tauto.
Qed.

Lemma strict_as_good_trans m a b c : strictly_better m a b -> as_good m b c -> strictly_better m a c.
Proof.
  unfold strictly_better, as_good, ext_le. destruct (num_val a) as [x|], (num_val b) as [y|], (num_val c) as [z|]; try tauto.
  destruct m; intros H1 H2.
  - destruct (ext_lt_split y z x H1); tauto.
  - destruct (ext_lt_split x z y H1); tauto.
Qed.

Lemma dominates_irrefl mx f : ~ dominates mx f f.
Proof.
  intros [_ (i & m & a & b & _ & H1 & H2 & H)]. rewrite H1 in H2. injection H2 as <-.
  unfold strictly_better in H. destruct (num_val a); [|exact H]. destruct m; exact (ext_lt_irrefl _ H).
Qed.

Lemma dominates_asym mx f g : dominates mx f g -> ~ dominates mx g f.
Proof.
  intros [_ (i & m & a & b & Hm & Ha & Hb & H)] [H' _].
  exact (strictly_not_as_good m a b H (H' i m b a Hm Hb Ha)).
Qed.


Lemma dominates_trans mx f g h : length g = length mx -> length h = length mx ->
  dominates mx f g -> dominates mx g h -> dominates mx f h.
Proof.
  intros L L' [F1 (i & m & a & b & Hm & Ha & Hb & H)] [F2 _].
  assert (Ex : forall l j mj, length l = length mx -> nth_error mx j = Some mj -> exists x : num, nth_error l j = Some x).
  { intros l j mj Hl Hj. destruct (nth_error l j) eqn:E; [eauto|].
    apply nth_error_None in E. assert (j < length mx) by (apply nth_error_Some; congruence). lia. }
  split.
  - intros j mj x z Hj Hx Hz. destruct (Ex g j mj L Hj) as [y Hy].
    exact (as_good_trans mj x y z (F1 j mj x y Hj Hx Hy) (F2 j mj y z Hj Hy Hz)).
  - destruct (Ex h i m L' Hm) as [c Hc]. exists i, m, a, c. repeat split; auto.
    exact (strict_as_good_trans m a b c H (F2 i m b c Hm Hb Hc)).
Qed.

Lemma mo_lt_spec mx a b : mo_lt mx a b = true <-> dominates mx (o_fit b) (o_fit a).
Proof. apply mo_worse_than_spec. Qed.

Lemma mo_gt_lt mx a b : mo_gt mx a b = mo_lt mx b a.
Proof.
  unfold mo_gt, mo_eq, mo_equivalent, mo_lt.
  destruct (mo_worse_than mx (o_fit a) (o_fit b)) eqn:E1, (mo_worse_than mx (o_fit b) (o_fit a)) eqn:E2; try reflexivity.
  apply mo_worse_than_spec in E1, E2. exfalso. exact (dominates_asym _ _ _ E1 E2).
Qed.

Lemma mo_gt_spec mx a b : mo_gt mx a b = true <-> dominates mx (o_fit a) (o_fit b).
Proof. rewrite mo_gt_lt. apply mo_lt_spec. Qed.

Lemma mo_eq_spec mx a b : mo_eq mx a b = true <->
  ~ dominates mx (o_fit a) (o_fit b) /\ ~ dominates mx (o_fit b) (o_fit a).
Proof.
  unfold mo_eq, mo_equivalent. rewrite andb_true_iff, !negb_true_iff, <- !mo_worse_than_spec.
  destruct (mo_worse_than mx (o_fit a) (o_fit b)), (mo_worse_than mx (o_fit b) (o_fit a)); split; intros [? ?]; split; congruence.
Qed.

(** ** front numbers are unique *)
Lemma front_numbers_unique {A} (dom : A -> A -> Prop) pop r1 r2 :
  front_numbers dom pop r1 -> front_numbers dom pop r2 -> forall x, In x pop -> r1 x = r2 x.
Proof.
  intros H1 H2.
  assert (G : forall n x, In x pop -> r1 x < n -> r1 x = r2 x).
  { induction n as [|n IH]; intros x Hx Hn; [lia|].
    destruct (H1 x Hx) as (A1 & B1 & C1). destruct (H2 x Hx) as (A2 & B2 & C2).
    assert (Ey : forall y, In y pop -> dom y x -> r1 y = r2 y).
    { intros y Hy Hd. apply IH; [exact Hy|]. specialize (B1 y Hy Hd). lia. }
    destruct C1 as [C1|(y & Hy & Hd & C1)].
    - destruct C2 as [C2|(y & Hy & Hd & C2)]; [lia|].
      specialize (B1 y Hy Hd). destruct (H1 y Hy) as (A3 & _). lia.
    - pose proof (B2 y Hy Hd). rewrite <- (Ey y Hy Hd) in *.
      destruct C2 as [C2|(y' & Hy' & Hd' & C2)]; [destruct (H1 y Hy); lia|].
      rewrite <- (Ey y' Hy' Hd') in C2. specialize (B1 y' Hy' Hd'). lia. }
  intros x Hx. apply (G (S (r1 x))); [exact Hx|lia].
Qed.

(** ** fast_nondominated_sort *)
Section Fns.
Variable gt : mo -> mo -> bool.
Variable W : list mo.
Hypothesis Wids : NoDup (map o_id W).
Hypothesis gt_irrefl : forall x, In x W -> gt x x = false.
Hypothesis gt_trans : forall x y z, In x W -> In y W -> In z W -> gt x y = true -> gt y z = true -> gt x z = true.

Lemma same_id x y : In x W -> In y W -> o_id x = o_id y -> x = y.
Proof.
  clear gt_irrefl gt_trans.
  intros Hx Hy E. induction W as [|w l IH]; [destruct Hx|].
  simpl in Wids. inversion Wids as [|? ? Hn Hl]; subst.
  destruct Hx as [->|Hx], Hy as [->|Hy]; try reflexivity.
  - exfalso. apply Hn. rewrite E. apply in_map, Hy.
  - exfalso. apply Hn. rewrite <- E. apply in_map, Hx.
  - apply IH; assumption.
Qed.

Lemma gt_asym x y : In x W -> In y W -> gt x y = true -> gt y x = false.
Proof.
  intros Hx Hy H. destruct (gt y x) eqn:E; [|reflexivity].
  rewrite <- (gt_irrefl x Hx). symmetry. exact (gt_trans x y x Hx Hy Hx H E).
Qed.

Definition dominated_list x := filter (gt x) W.
Definition ndominators x := length (filter (fun y => gt y x) W).

Lemma fns_inner_spec x l : In x W -> incl l W -> forall doms cnt,
  fns_inner gt x l doms cnt =
  (doms ++ filter (gt x) l, (cnt + Z.of_nat (length (filter (fun y => gt y x) l)))%Z).
Proof.
  intros Hx. induction l as [|y l IH]; intros Hl doms cnt.
  - simpl. rewrite app_nil_r, Z.add_0_r. reflexivity.
  - assert (Hy : In y W) by (apply Hl; left; reflexivity).
    assert (Hl' : incl l W) by (intros z Hz; apply Hl; right; exact Hz).
    cbn [fns_inner filter]. destruct (Nat.eqb_spec (o_id x) (o_id y)) as [E|E].
    + rewrite (same_id x y Hx Hy E) in *. rewrite (gt_irrefl y Hy). apply IH, Hl'.
    + destruct (gt x y) eqn:E1.
      * rewrite (gt_asym x y Hx Hy E1). rewrite IH by exact Hl'. rewrite <- app_assoc. reflexivity.
      * destruct (gt y x) eqn:E2; rewrite IH by exact Hl'; [|reflexivity].
        cbn [length]. f_equal. lia.
Qed.

Lemma set_at_same {B} (f : nat -> B) k v : set_at f k v k = v.
Proof. unfold set_at. rewrite Nat.eqb_refl. reflexivity. Qed.
Lemma set_at_other {B} (f : nat -> B) k v n : n <> k -> set_at f k v n = f n.
Proof. unfold set_at. intros H. destruct (Nat.eqb_spec n k); [contradiction|reflexivity]. Qed.

Definition is_first x := ndominators x =? 0.

Lemma fns_first_spec : forall todo done st front, W = done ++ todo ->
  (forall x, In x done -> f_dominates st (o_id x) = dominated_list x /\
     f_count st (o_id x) = Z.of_nat (ndominators x) /\ f_rank st (o_id x) = if is_first x then 1 else 0) ->
  front = filter is_first done ->
  let '(st', front') := fns_first gt W todo st front in
  (forall x, In x W -> f_dominates st' (o_id x) = dominated_list x /\
     f_count st' (o_id x) = Z.of_nat (ndominators x) /\ f_rank st' (o_id x) = if is_first x then 1 else 0) /\
  front' = filter is_first W.
Proof.
  induction todo as [|x todo IH]; intros done st front HW Hd Hf.
  - rewrite app_nil_r in HW. simpl. subst done. auto.
  - assert (Hx : In x W) by (rewrite HW; apply in_or_app; right; left; reflexivity).
    cbn [fns_first]. rewrite (fns_inner_spec x W Hx (incl_refl W) [] 0%Z). cbn [app].
    rewrite Z.add_0_l. fold (ndominators x). fold (dominated_list x).
    assert (E : (Z.of_nat (ndominators x) =? 0)%Z = is_first x).
    { unfold is_first. destruct (ndominators x); reflexivity. }
    rewrite E. apply (IH (done ++ [x])).
    + rewrite <- app_assoc. exact HW.
    + intros y Hy. apply in_app_or in Hy. destruct Hy as [Hy|[<-|[]]].
      * assert (Hn : o_id y <> o_id x).
        { intros En. rewrite HW, map_app in Wids. apply NoDup_remove_2 in Wids.
          apply Wids. apply in_or_app. left. rewrite <- En. apply in_map, Hy. }
        cbn [f_dominates f_count f_rank]. rewrite !set_at_other by exact Hn. apply Hd, Hy.
      * cbn [f_dominates f_count f_rank]. rewrite !set_at_same. auto.
    + rewrite filter_app, Hf. simpl. destruct (is_first x); [reflexivity|rewrite app_nil_r; reflexivity].
Qed.

(** the release pass *)
Definition occ (n : nat) (l : list mo) : nat := count_occ Nat.eq_dec (map o_id l) n.

Lemma occ_cons_same x l : occ (o_id x) (x :: l) = S (occ (o_id x) l).
Proof. unfold occ. simpl. destruct (Nat.eq_dec (o_id x) (o_id x)); [reflexivity|congruence]. Qed.
Lemma occ_cons_other n x l : o_id x <> n -> occ n (x :: l) = occ n l.
Proof. unfold occ. intros H. simpl. destruct (Nat.eq_dec (o_id x) n); [congruence|reflexivity]. Qed.
Lemma occ_pos x l : In x l -> 0 < occ (o_id x) l.
Proof. intros H. unfold occ. apply count_occ_In, in_map, H. Qed.

Lemma fns_release_spec i : forall l st next,
  (forall x, In x l -> (Z.of_nat (occ (o_id x) l) <= f_count st (o_id x))%Z) ->
  let '(st', next') := fns_release i l st next in
  f_dominates st' = f_dominates st /\
  (forall n, f_count st' n = f_count st n - Z.of_nat (occ n l))%Z /\
  exists nf, next' = next ++ nf /\ NoDup (map o_id nf) /\
    (forall x, In x nf -> In x l /\ f_count st (o_id x) = Z.of_nat (occ (o_id x) l)) /\
    (forall x, In x l -> f_count st (o_id x) = Z.of_nat (occ (o_id x) l) -> In (o_id x) (map o_id nf)) /\
    (forall n, In n (map o_id nf) -> f_rank st' n = S i) /\
    (forall n, ~ In n (map o_id nf) -> f_rank st' n = f_rank st n).
Proof.
  clear Wids gt_irrefl gt_trans.
  induction l as [|y l IH]; intros st next H.
  - simpl. split; [reflexivity|]. split; [intros n; unfold occ; simpl; lia|].
    exists []. rewrite app_nil_r. split; [reflexivity|]. split; [constructor|].
    split; [intros x []|]. split; [intros x []|]. split; [intros n []|]. reflexivity.
  - cbn [fns_release]. cbn [f_count f_dominates f_rank].
    assert (Hy := H y (or_introl eq_refl)). rewrite occ_cons_same in Hy.
    assert (Hpre : forall r x, In x l ->
      (Z.of_nat (occ (o_id x) l) <= f_count (mk_fns (f_dominates st) (set_at (f_count st) (o_id y) (f_count st (o_id y) - 1)%Z) r) (o_id x))%Z).
    { intros r x Hx. cbn [f_count]. specialize (H x (or_intror Hx)).
      destruct (Nat.eq_dec (o_id x) (o_id y)) as [E|E].
      - rewrite E, set_at_same in *. lia.
      - rewrite set_at_other by exact E. rewrite occ_cons_other in H by congruence. exact H. }
    destruct (Z.eqb_spec (f_count st (o_id y) - 1) 0) as [E0|E0].
    + set (st2 := mk_fns (f_dominates st) (set_at (f_count st) (o_id y) (f_count st (o_id y) - 1)%Z) (set_at (f_rank st) (o_id y) (S i))).
      specialize (IH st2 (next ++ [y]) (Hpre _)).
      destruct (fns_release i l st2 (next ++ [y])) as [st' next'].
      destruct IH as (I1 & I2 & nf & I3 & I4 & I5 & I6 & I7 & I8).
      assert (Hyl : ~ In (o_id y) (map o_id l)).
      { intros Hin. assert (0 < occ (o_id y) l) by (apply count_occ_In, Hin). lia. }
      assert (Hynf : ~ In (o_id y) (map o_id nf)).
      { intros Hin. apply in_map_iff in Hin. destruct Hin as (z & Ez & Hz).
        destruct (I5 z Hz) as [Hzl _]. apply Hyl. rewrite <- Ez. apply in_map, Hzl. }
      assert (Hyo : occ (o_id y) l = 0) by (apply count_occ_not_In, Hyl).
      split; [exact I1|]. split.
      { intros n. rewrite I2. unfold st2. cbn [f_count]. destruct (Nat.eq_dec n (o_id y)) as [->|En].
        - rewrite set_at_same, occ_cons_same. lia.
        - rewrite set_at_other by exact En. rewrite occ_cons_other by congruence. reflexivity. }
      exists (y :: nf). rewrite I3, <- app_assoc. split; [reflexivity|].
      split; [simpl; constructor; assumption|]. split.
      { intros x [<-|Hx].
        - split; [left; reflexivity|]. rewrite occ_cons_same. lia.
        - destruct (I5 x Hx) as [A B]. split; [right; exact A|].
          assert (En : o_id x <> o_id y). { intros En. apply Hyl. rewrite <- En. apply in_map, A. }
          unfold st2 in B. cbn [f_count] in B. rewrite set_at_other in B by exact En.
          rewrite occ_cons_other by congruence. exact B. }
      split.
      { intros x [<-|Hx] Hc; [left; reflexivity|]. right.
        assert (En : o_id x <> o_id y). { intros En. apply Hyl. rewrite <- En. apply in_map, Hx. }
        apply I6; [exact Hx|]. unfold st2. cbn [f_count]. rewrite set_at_other by exact En.
        rewrite occ_cons_other in Hc by congruence. exact Hc. }
      split.
      { intros n [<-|Hn]; [|apply I7, Hn]. rewrite I8 by exact Hynf. unfold st2. cbn [f_rank]. apply set_at_same. }
      { intros n Hn. simpl in Hn. rewrite I8 by tauto. unfold st2. cbn [f_rank]. apply set_at_other. intros ->. tauto. }
    + set (st2 := mk_fns (f_dominates st) (set_at (f_count st) (o_id y) (f_count st (o_id y) - 1)%Z) (f_rank st)).
      specialize (IH st2 next (Hpre _)).
      destruct (fns_release i l st2 next) as [st' next'].
      destruct IH as (I1 & I2 & nf & I3 & I4 & I5 & I6 & I7 & I8).
      split; [exact I1|]. split.
      { intros n. rewrite I2. unfold st2. cbn [f_count]. destruct (Nat.eq_dec n (o_id y)) as [->|En].
        - rewrite set_at_same, occ_cons_same. lia.
        - rewrite set_at_other by exact En. rewrite occ_cons_other by congruence. reflexivity. }
      exists nf. split; [exact I3|]. split; [exact I4|].
      assert (Hcase : forall x, f_count st2 (o_id x) = Z.of_nat (occ (o_id x) l) <->
                       f_count st (o_id x) = Z.of_nat (occ (o_id x) (y :: l))).
      { intros x. unfold st2. cbn [f_count]. destruct (Nat.eq_dec (o_id x) (o_id y)) as [E|E].
        - rewrite E, set_at_same, occ_cons_same. lia.
        - rewrite set_at_other by exact E. rewrite occ_cons_other by congruence. reflexivity. }
      split.
      { intros x Hx. destruct (I5 x Hx) as [A B]. split; [right; exact A|]. apply Hcase, B. }
      split.
      { intros x [<-|Hx] Hc.
        - apply Hcase in Hc.
          destruct (occ (o_id y) l) as [|c] eqn:Ec.
          + unfold st2 in Hc. cbn [f_count] in Hc. rewrite set_at_same in Hc. lia.
          + assert (Hin : In (o_id y) (map o_id l)) by (apply (count_occ_In Nat.eq_dec); unfold occ in Ec; lia).
            apply in_map_iff in Hin. destruct Hin as (z & Ez & Hz). rewrite <- Ez. apply I6; [exact Hz|].
            rewrite Ez, Hc, Ec. reflexivity.
        - apply I6; [exact Hx|]. apply Hcase, Hc. }
      split; [exact I7|exact I8].
Qed.

Lemma fns_release_dominates i : forall l st next, f_dominates (fst (fns_release i l st next)) = f_dominates st.
Proof.
  clear Wids gt_irrefl gt_trans.
  induction l as [|y l IH]; intros st next; [reflexivity|]. cbn [fns_release].
  destruct (_ =? 0)%Z; rewrite IH; reflexivity.
Qed.

Lemma fns_release_app i : forall l1 l2 st next,
  fns_release i (l1 ++ l2) st next = let '(st1, n1) := fns_release i l1 st next in fns_release i l2 st1 n1.
Proof.
  clear Wids gt_irrefl gt_trans.
  induction l1 as [|y l1 IH]; intros l2 st next; [reflexivity|]. cbn [fns_release app].
  destruct (_ =? 0)%Z; apply IH.
Qed.

Lemma fns_front_flat i : forall front st next,
  fns_front i front st next = fns_release i (flat_map (fun x => f_dominates st (o_id x)) front) st next.
Proof.
  clear Wids gt_irrefl gt_trans.
  induction front as [|x front IH]; intros st next; [reflexivity|].
  cbn [fns_front flat_map]. rewrite fns_release_app.
  pose proof (fns_release_dominates i (f_dominates st (o_id x)) st next) as E.
  destruct (fns_release i (f_dominates st (o_id x)) st next) as [st1 n1]. cbn [fst] in E.
  rewrite IH, E. reflexivity.
Qed.

(** counting *)
Definition num_of (p : mo -> bool) := length (filter p W).

Lemma num_of_ext p q : (forall x, In x W -> p x = q x) -> num_of p = num_of q.
Proof.
  intros H. unfold num_of. f_equal. apply filter_ext_in. exact H.
Qed.

Lemma num_of_split p q : num_of p = num_of (fun x => p x && q x) + num_of (fun x => p x && negb (q x)).
Proof.
  clear. unfold num_of. induction W as [|x l IH]; [reflexivity|]. simpl.
  destruct (p x), (q x); simpl; rewrite IH; lia.
Qed.

Lemma num_of_zero p : num_of p = 0 <-> forall x, In x W -> p x = false.
Proof.
  clear. unfold num_of. induction W as [|x l IH]; simpl; [split; [intros _ x []|reflexivity]|].
  destruct (p x) eqn:E; simpl.
  - split; [discriminate|]. intros H. rewrite H in E by (left; reflexivity). discriminate.
  - rewrite IH. split; intros H; [intros y [<-|Hy]; auto|intros y Hy; apply H; right; exact Hy].
Qed.

Lemma occ_app n l1 l2 : occ n (l1 ++ l2) = occ n l1 + occ n l2.
Proof. unfold occ. rewrite map_app. apply count_occ_app. Qed.

Lemma occ_nodup l x : NoDup (map o_id l) -> In x l -> occ (o_id x) l = 1.
Proof. intros H Hx. unfold occ. apply NoDup_count_occ'; [exact H|]. apply in_map, Hx. Qed.

Lemma nodup_filter_ids (p : mo -> bool) l : NoDup (map o_id l) -> NoDup (map o_id (filter p l)).
Proof.
  clear. induction l as [|x l IH]; intros H; [constructor|]. simpl in *. inversion H; subst.
  destruct (p x); simpl; [|apply IH; assumption]. constructor; [|apply IH; assumption].
  intros Hin. apply H2. apply in_map_iff in Hin. destruct Hin as (y & E & Hy). rewrite <- E.
  apply in_map. apply filter_In in Hy. tauto.
Qed.

Lemma nodup_ids_nodup l : NoDup (map o_id l) -> NoDup l.
Proof. apply NoDup_map_inv. Qed.

Lemma occ_filter x (p : mo -> bool) : In x W -> occ (o_id x) (filter p W) = if p x then 1 else 0.
Proof.
  intros Hx. destruct (p x) eqn:E.
  - apply occ_nodup; [apply nodup_filter_ids, Wids|]. apply filter_In. auto.
  - unfold occ. apply count_occ_not_In. intros Hin. apply in_map_iff in Hin.
    destruct Hin as (y & Ey & Hy). apply filter_In in Hy. destruct Hy as [Hy Py].
    rewrite (same_id y x Hy Hx Ey) in Py. congruence.
Qed.

Lemma occ_flat front x : incl front W -> In x W ->
  occ (o_id x) (flat_map dominated_list front) = length (filter (fun y => gt y x) front).
Proof.
  intros Hf Hx. induction front as [|y l IH]; [reflexivity|].
  cbn [flat_map filter]. rewrite occ_app, IH by (intros z Hz; apply Hf; right; exact Hz).
  unfold dominated_list at 1. rewrite occ_filter by exact Hx. destruct (gt y x); reflexivity.
Qed.

(** the loop invariant *)
Definition rk (st : fns) (x : mo) := f_rank st (o_id x).
Definition processed i st y := (1 <=? rk st y) && (rk st y <? i).

Record inv (i : nat) (front : list mo) (st : fns) : Prop := {
  inv_dom : forall x, In x W -> f_dominates st (o_id x) = dominated_list x;
  inv_le : forall x, In x W -> rk st x <= i;
  inv_sub : incl front W;
  inv_nodup : NoDup (map o_id front);
  inv_front : forall x, In x W -> (In x front <-> rk st x = i);
  inv_count : forall x, In x W ->
     f_count st (o_id x) = Z.of_nat (num_of (fun y => gt y x && negb (processed i st y)));
  inv_zero : forall x, In x W -> (rk st x = 0 <-> f_count st (o_id x) <> 0%Z);
  inv_rank : forall x, In x W -> 0 < rk st x ->
     (forall y, In y W -> gt y x = true -> 0 < rk st y < rk st x) /\
     (rk st x = 1 \/ exists y, In y W /\ gt y x = true /\ rk st x = S (rk st y)) }.

Lemma fns_first_inv before : let '(st, front) := fns_first gt W W before [] in inv 1 front st.
Proof.
  pose proof (fns_first_spec W [] before [] eq_refl) as H.
  specialize (H (fun x (Hx : In x []) => match Hx with end) eq_refl).
  destruct (fns_first gt W W before []) as [st front]. destruct H as [H ->].
  assert (Rk : forall x, In x W -> rk st x = if is_first x then 1 else 0) by (intros x Hx; apply H, Hx).
  constructor.
  - intros x Hx. apply H, Hx.
  - intros x Hx. rewrite Rk by exact Hx. destruct (is_first x); lia.
  - intros x Hx. apply filter_In in Hx. tauto.
  - apply nodup_filter_ids, Wids.
  - intros x Hx. rewrite Rk, filter_In by exact Hx. destruct (is_first x); split; intros; try tauto; try lia.
  - intros x Hx. destruct (H x Hx) as (_ & -> & _). f_equal. unfold ndominators. apply num_of_ext.
    intros y Hy. unfold processed. rewrite Rk by exact Hy. destruct (gt y x), (is_first y); reflexivity.
  - intros x Hx. rewrite Rk by exact Hx. destruct (H x Hx) as (_ & -> & _). unfold is_first.
    destruct (ndominators x); simpl; split; intros; lia.
  - intros x Hx Hp. rewrite Rk in * by exact Hx. unfold is_first in *. destruct (ndominators x) eqn:E; simpl in *; [|lia].
    split; [|left; reflexivity]. intros y Hy Hg. exfalso.
    pose proof (proj1 (num_of_zero (fun y => gt y x)) E y Hy) as F. cbv beta in F. congruence.
Qed.

Lemma fns_front_inv i front st : 1 <= i -> inv i front st ->
  let '(st', next) := fns_front i front st [] in
  inv (S i) next st' /\
  (forall x, In x W -> rk st x <> 0 -> rk st' x = rk st x) /\
  (forall x, In x next -> rk st x = 0 /\ rk st' x = S i).
Proof.
  intros Hi I. rewrite fns_front_flat.
  assert (EL : flat_map (fun x => f_dominates st (o_id x)) front = flat_map dominated_list front).
  { pose proof (inv_sub _ _ _ I) as Hs. clear -I Hs. induction front as [|x l IH]; [reflexivity|].
    simpl. rewrite (inv_dom _ _ _ I x) by (apply Hs; left; reflexivity). f_equal.
    assert (G : forall l', incl l' W -> flat_map (fun x => f_dominates st (o_id x)) l' = flat_map dominated_list l').
    { induction l' as [|y l' IH']; intros Hl; [reflexivity|]. simpl.
      rewrite (inv_dom _ _ _ I y) by (apply Hl; left; reflexivity). rewrite IH'; [reflexivity|].
      intros z Hz. apply Hl. right. exact Hz. }
    apply G. intros z Hz. apply Hs. right. exact Hz. }
  rewrite EL. set (L := flat_map dominated_list front).
  assert (HL : incl L W).
  { intros x Hx. apply in_flat_map in Hx. destruct Hx as (y & _ & Hx). apply filter_In in Hx. tauto. }
  assert (Hocc : forall x, In x W -> occ (o_id x) L = num_of (fun y => gt y x && (rk st y =? i))).
  { intros x Hx. unfold L. rewrite occ_flat; [|apply inv_sub with (1 := I)|exact Hx].
    unfold num_of. apply Permutation_length, NoDup_Permutation.
    - apply NoDup_filter, nodup_ids_nodup, (inv_nodup _ _ _ I).
    - apply NoDup_filter, nodup_ids_nodup, Wids.
    - intros y. rewrite !filter_In. rewrite andb_true_iff, Nat.eqb_eq. split.
      + intros [H1 H2]. assert (Hy : In y W) by (apply (inv_sub _ _ _ I), H1). split; [exact Hy|].
        split; [exact H2|]. apply (inv_front _ _ _ I); assumption.
      + intros (H1 & H2 & H3). split; [|exact H2]. apply (inv_front _ _ _ I); assumption. }
  set (left := fun x => num_of (fun y => gt y x && negb (processed (S i) st y))).
  assert (Hsplit : forall x, In x W -> f_count st (o_id x) = Z.of_nat (occ (o_id x) L + left x)).
  { intros x Hx. rewrite (inv_count _ _ _ I x Hx), Hocc by exact Hx. f_equal.
    rewrite (num_of_split (fun y => gt y x && negb (processed i st y)) (fun y => rk st y =? i)).
    f_equal; apply num_of_ext; intros y Hy; unfold processed; destruct (gt y x); cbn [andb negb]; try reflexivity;
      pose proof (inv_le _ _ _ I y Hy).
    - destruct (Nat.eqb_spec (rk st y) i) as [E|E]; [|rewrite andb_false_r; reflexivity].
      rewrite andb_true_r. destruct (Nat.ltb_spec (rk st y) i); [lia|]. rewrite andb_false_r. reflexivity.
    - destruct (Nat.eqb_spec (rk st y) i) as [E|E]; destruct (Nat.leb_spec 1 (rk st y));
        destruct (Nat.ltb_spec (rk st y) i); destruct (Nat.ltb_spec (rk st y) (S i)); cbn [andb negb]; try reflexivity; lia. }
  assert (Hpre : forall x, In x L -> (Z.of_nat (occ (o_id x) L) <= f_count st (o_id x))%Z).
  { intros x Hx. rewrite Hsplit by (apply HL, Hx). lia. }
  pose proof (fns_release_spec i L st [] Hpre) as R.
  destruct (fns_release i L st []) as [st' next]. destruct R as (R1 & R2 & nf & R3 & R4 & R5 & R6 & R7 & R8).
  simpl in R3. subst next.
  assert (Hnf : forall x, In x W -> In (o_id x) (map o_id nf) <-> In x nf).
  { intros x Hx. split; [|apply in_map]. intros Hin. apply in_map_iff in Hin. destruct Hin as (z & Ez & Hz).
    rewrite <- (same_id z x); [exact Hz| |exact Hx|exact Ez]. apply HL, (proj1 (R5 z Hz)). }
  assert (Hnf0 : forall x, In x nf -> In x W /\ rk st x = 0 /\ left x = 0 /\ exists y, In y W /\ gt y x = true /\ rk st y = i).
  { intros x Hx. destruct (R5 x Hx) as [Hl Hc]. assert (HxW : In x W) by (apply HL, Hl). split; [exact HxW|].
    rewrite Hsplit in Hc by exact HxW. split; [|split; [lia|]].
    - apply (inv_zero _ _ _ I x HxW). rewrite Hsplit by exact HxW. pose proof (occ_pos x L Hl). lia.
    - unfold L in Hl. apply in_flat_map in Hl. destruct Hl as (y & Hy & Hd).
      assert (HyW : In y W) by (apply (inv_sub _ _ _ I), Hy). apply filter_In in Hd.
      exists y. split; [exact HyW|]. split; [apply Hd|]. apply (inv_front _ _ _ I); assumption. }
  assert (Rnew : forall x, In x nf -> rk st' x = S i) by (intros x Hx; apply R7, in_map, Hx).
  assert (Rold : forall x, In x W -> ~ In x nf -> rk st' x = rk st x).
  { intros x Hx Hn. apply R8. rewrite Hnf by exact Hx. exact Hn. }
  assert (Rkeep : forall x, In x W -> rk st x <> 0 -> rk st' x = rk st x).
  { intros x Hx Hz. apply Rold; [exact Hx|]. intros Hin. apply Hz, Hnf0, Hin. }
  assert (Rproc : forall y, In y W -> processed (S i) st' y = processed (S i) st y).
  { intros y Hy. unfold processed. destruct (in_dec Nat.eq_dec (o_id y) (map o_id nf)) as [Hin|Hin];
      rewrite Hnf in Hin by exact Hy.
    - rewrite (Rnew y Hin). destruct (Hnf0 y Hin) as (_ & -> & _). simpl. apply Nat.ltb_irrefl.
    - rewrite Rold by assumption. reflexivity. }
  assert (Hcount' : forall x, In x W -> f_count st' (o_id x) = Z.of_nat (left x)).
  { intros x Hx. rewrite R2, Hsplit by exact Hx. lia. }
  split; [|split; [exact Rkeep|intros x Hx; split; [apply Hnf0, Hx|apply Rnew, Hx]]].
  constructor.
  - intros x Hx. rewrite R1. apply (inv_dom _ _ _ I x Hx).
  - intros x Hx. destruct (in_dec Nat.eq_dec (o_id x) (map o_id nf)) as [Hin|Hin]; rewrite Hnf in Hin by exact Hx.
    + rewrite Rnew by exact Hin. lia.
    + rewrite Rold by assumption. pose proof (inv_le _ _ _ I x Hx). lia.
  - intros x Hx. apply Hnf0, Hx.
  - exact R4.
  - intros x Hx. split; [apply Rnew|]. intros E.
    destruct (in_dec Nat.eq_dec (o_id x) (map o_id nf)) as [Hin|Hin]; rewrite Hnf in Hin by exact Hx; [exact Hin|].
    rewrite Rold in E by assumption. pose proof (inv_le _ _ _ I x Hx). lia.
  - intros x Hx. rewrite Hcount' by exact Hx. f_equal. apply num_of_ext. intros y Hy. rewrite Rproc by exact Hy. reflexivity.
  - intros x Hx. rewrite Hcount' by exact Hx.
    destruct (in_dec Nat.eq_dec (o_id x) (map o_id nf)) as [Hin|Hin]; rewrite Hnf in Hin by exact Hx.
    + rewrite Rnew by exact Hin. destruct (Hnf0 x Hin) as (_ & _ & -> & _). split; intros H; lia.
    + rewrite Rold by assumption. rewrite (inv_zero _ _ _ I x Hx). rewrite Hsplit by exact Hx. split; intros H.
      * intros Hz. apply Hin. apply Hnf; [exact Hx|].
        assert (Ho : occ (o_id x) L <> 0) by lia.
        assert (Hxl : In x L).
        { assert (Hm : In (o_id x) (map o_id L)) by (apply (count_occ_In Nat.eq_dec); unfold occ in Ho; lia).
          apply in_map_iff in Hm. destruct Hm as (z & Ez & Hz'). rewrite <- (same_id z x (HL z Hz') Hx Ez). exact Hz'. }
        apply R6; [exact Hxl|]. rewrite Hsplit by exact Hx. lia.
      * lia.
  - intros x Hx Hp. destruct (in_dec Nat.eq_dec (o_id x) (map o_id nf)) as [Hin|Hin]; rewrite Hnf in Hin by exact Hx.
    + rewrite (Rnew x Hin) in *. destruct (Hnf0 x Hin) as (_ & _ & Hleft & y0 & Hy0 & Hg0 & Hr0). split.
      * intros y Hy Hg. pose proof (proj1 (num_of_zero _) Hleft y Hy) as F. cbv beta in F. rewrite Hg in F. simpl in F.
        apply negb_false_iff in F. unfold processed in F. apply andb_true_iff in F. destruct F as [F1 F2].
        apply Nat.leb_le in F1. apply Nat.ltb_lt in F2. rewrite Rkeep by (try exact Hy; lia). lia.
      * right. exists y0. rewrite Rkeep by (try exact Hy0; lia). auto.
    + rewrite (Rold x Hx Hin) in *. destruct (inv_rank _ _ _ I x Hx Hp) as [A B]. split.
      * intros y Hy Hg. specialize (A y Hy Hg). rewrite Rkeep by (try exact Hy; lia). exact A.
      * destruct B as [B|(y & Hy & Hg & B)]; [left; exact B|right].
        exists y. specialize (A y Hy Hg). rewrite Rkeep by (try exact Hy; lia). auto.
Qed.

(** a finite set without a first element would contain a cycle *)
Lemma minimal_exists (U : list mo) : incl U W -> U <> [] ->
  exists x, In x U /\ forall y, In y U -> gt y x = false.
Proof.
  induction U as [|x U IH]; intros HU Hne; [congruence|].
  assert (HU' : incl U W) by (intros z Hz; apply HU; right; exact Hz).
  assert (Hx : In x W) by (apply HU; left; reflexivity).
  destruct U as [|u U].
  - exists x. split; [left; reflexivity|]. intros y [<-|[]]. apply gt_irrefl, Hx.
  - destruct (IH HU' ltac:(discriminate)) as (m & Hm & Hmin).
    destruct (gt x m) eqn:E.
    + exists x. split; [left; reflexivity|]. intros y [<-|Hy]; [apply gt_irrefl, Hx|].
      destruct (gt y x) eqn:Ey; [|reflexivity]. rewrite <- (Hmin y Hy). symmetry.
      apply (gt_trans y x m); auto.
    + exists m. split; [right; exact Hm|]. intros y [<-|Hy]; [exact E|apply Hmin, Hy].
Qed.

Definition unranked st := num_of (fun x => rk st x =? 0).

Lemma fns_loop_ok : forall fuel i front st, 1 <= i -> inv i front st -> unranked st < fuel ->
  exists st', fns_loop fuel i front st = Some st' /\ exists j, inv j [] st'.
Proof.
  induction fuel as [|fuel IH]; intros i front st Hi I Hf; [lia|].
  destruct front as [|x front]; [exists st; simpl; eauto|].
  cbn [fns_loop]. pose proof (fns_front_inv i (x :: front) st Hi I) as H.
  destruct (fns_front i (x :: front) st []) as [st' next]. destruct H as (I' & Hk & Hn).
  destruct next as [|y next].
  - exists st'. destruct fuel; simpl; eauto.
  - apply IH; [lia|exact I'|].
    assert (Hlt : unranked st' < unranked st); [|lia].
    unfold unranked. rewrite (num_of_split (fun x => rk st x =? 0) (fun x => rk st' x =? 0)).
    assert (E : num_of (fun x0 => rk st' x0 =? 0) = num_of (fun x0 => (rk st x0 =? 0) && (rk st' x0 =? 0))).
    { apply num_of_ext. intros z Hz. destruct (Nat.eqb_spec (rk st z) 0) as [Ez|Ez]; [reflexivity|].
      rewrite Hk by assumption. destruct (Nat.eqb_spec (rk st z) 0); [contradiction|reflexivity]. }
    rewrite E. destruct (Hn y (or_introl eq_refl)) as [Y1 Y2].
    assert (num_of (fun x0 => (rk st x0 =? 0) && negb (rk st' x0 =? 0)) <> 0); [|lia].
    intros Hz. pose proof (proj1 (num_of_zero _) Hz y (inv_sub _ _ _ I' y (or_introl eq_refl))) as F.
    cbv beta in F. rewrite Y1, Y2 in F. discriminate.
Qed.

Lemma inv_end j st : inv j [] st -> front_numbers (fun y x => gt y x = true) W (rk st).
Proof.
  intros I.
  assert (All : forall x, In x W -> 0 < rk st x).
  { intros x0 Hx0. destruct (rk st x0) eqn:E0; [|lia]. exfalso.
    set (U := filter (fun x => rk st x =? 0) W).
    assert (HU : incl U W) by (intros z Hz; apply filter_In in Hz; tauto).
    assert (Hne : U <> []).
    { intros E. assert (In x0 U) by (apply filter_In; split; [exact Hx0|rewrite E0; reflexivity]). rewrite E in H. destruct H. }
    destruct (minimal_exists U HU Hne) as (m & Hm & Hmin).
    assert (HmW := HU m Hm). apply filter_In in Hm. destruct Hm as [_ Hm]. apply Nat.eqb_eq in Hm.
    apply (inv_zero _ _ _ I m HmW) in Hm. rewrite (inv_count _ _ _ I m HmW) in Hm.
    apply Hm. change 0%Z with (Z.of_nat 0). f_equal. apply num_of_zero. intros y Hy.
    destruct (gt y m) eqn:Eg; [|reflexivity]. simpl. apply negb_false_iff. unfold processed.
    pose proof (inv_le _ _ _ I y Hy). pose proof (inv_front _ _ _ I y Hy) as Hfr.
    destruct (Nat.eq_dec (rk st y) 0) as [Ez|Ez].
    - exfalso. rewrite (Hmin y) in Eg; [discriminate|]. apply filter_In. rewrite Ez. auto.
    - apply andb_true_iff. split; [apply Nat.leb_le; lia|]. apply Nat.ltb_lt.
      destruct (Nat.eq_dec (rk st y) j) as [E|E]; [|lia]. exfalso. exact (proj2 Hfr E). }
  intros x Hx. split; [apply All, Hx|]. destruct (inv_rank _ _ _ I x Hx (All x Hx)) as [A B].
  split; [intros y Hy Hg; apply A; assumption|exact B].
Qed.

Lemma fns_correct fuel before st front : fns_first gt W W before [] = (st, front) -> length W < fuel ->
  exists st', fns_loop fuel 1 front st = Some st' /\
    front_numbers (fun y x => gt y x = true) W (fun x => f_rank st' (o_id x)).
Proof.
  intros E Hf. pose proof (fns_first_inv before) as I. rewrite E in I.
  destruct (fns_loop_ok fuel 1 front st (le_n 1) I) as (st' & R & j & Ij).
  { unfold unranked, num_of. assert (H : forall l, length (filter (fun x => rk st x =? 0) l) <= length l).
    { induction l; simpl; [lia|]. destruct (_ =? 0); simpl; lia. } specialize (H W). lia. }
  exists st'. split; [exact R|]. exact (inv_end j st' Ij).
Qed.
End Fns.

Definition vectors_ok (mx : list bool) (l : list mo) : Prop := forall x, In x l -> length (o_fit x) = length mx.

Lemma fast_sort_correct mx population parents before fuel :
  let working := match parents with Some ps => population ++ ps | None => population end in
  population <> [] -> NoDup (map o_id working) -> vectors_ok mx working -> length working < fuel ->
  exists st, fast_nondominated_sort (mo_gt mx) fuel population parents before = Some (Ok (working, st)) /\
    front_numbers (fun y x => dominates mx (o_fit y) (o_fit x)) working (fun x => f_rank st (o_id x)).
Proof.
  intros working Hne Hid Hv Hf.
  assert (Hir : forall x, In x working -> mo_gt mx x x = false).
  { intros x Hx. destruct (mo_gt mx x x) eqn:E; [|reflexivity]. apply mo_gt_spec in E. destruct (dominates_irrefl _ _ E). }
  assert (Htr : forall x y z, In x working -> In y working -> In z working ->
     mo_gt mx x y = true -> mo_gt mx y z = true -> mo_gt mx x z = true).
  { intros x y z Hx Hy Hz. rewrite !mo_gt_spec. apply dominates_trans; apply Hv; assumption. }
  unfold fast_nondominated_sort. fold working. destruct population as [|p0 ps0]; [congruence|].
  destruct (fns_first (mo_gt mx) working working before []) as [st front] eqn:E.
  destruct (fns_correct (mo_gt mx) working Hid Hir Htr fuel before st front E Hf) as (st' & R & F).
  exists st'. rewrite R. split; [reflexivity|].
  intros x Hx. destruct (F x Hx) as (A & B & C). split; [exact A|]. split.
  - intros y Hy Hd. apply B; [exact Hy|]. apply mo_gt_spec, Hd.
  - destruct C as [C|(y & Hy & Hg & C)]; [left; exact C|right]. exists y. apply mo_gt_spec in Hg. auto.
Qed.
