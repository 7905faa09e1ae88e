(** Proofs about scalar comparison. *)
From Coq Require Import Lia Lqa.
From Verif Require Import Model.Base Model.PyList Model.Scalar Spec.Order.

Lemma Qltb_lt a b : Qltb a b = true <-> (a < b)%Q.
Proof.
  unfold Qltb. rewrite negb_true_iff. split; intros H.
  - apply Qnot_le_lt. intros Hle. apply Qle_bool_iff in Hle. congruence.
  - destruct (Qle_bool b a) eqn:E; [|reflexivity].
    apply Qle_bool_iff in E. exfalso. apply (Qlt_not_le a b); assumption.
Qed.

Lemma Qltb_ge a b : Qltb a b = false <-> (b <= a)%Q.
Proof.
  unfold Qltb. rewrite negb_false_iff. apply Qle_bool_iff.
Qed.

Lemma ext_ltb_lt a b : ext_ltb a b = true <-> ext_lt a b.
Proof.
  destruct a, b; simpl; try (split; intros; try reflexivity; try discriminate; tauto).
  apply Qltb_lt.
Qed.

Lemma ext_ltb_nlt a b : ext_ltb a b = false <-> ~ ext_lt a b.
Proof.
  rewrite <- ext_ltb_lt. destruct (ext_ltb a b); split; intros; congruence.
Qed.

Lemma ext_lt_irrefl a : ~ ext_lt a a.
Proof. destruct a; simpl; try tauto. intros H; lra. Qed.

Lemma ext_lt_trans a b c : ext_lt a b -> ext_lt b c -> ext_lt a c.
Proof. destruct a, b, c; simpl; try tauto; intros; lra. Qed.

(** negative transitivity: the heart of "strict weak order" *)
Lemma ext_lt_split a b c : ext_lt a c -> ext_lt a b \/ ext_lt b c.
Proof.
  destruct a, b, c; simpl; try tauto; intros H.
  destruct (Qlt_le_dec q q0); [tauto|right; lra].
Qed.

Lemma ext_lt_dec a b : {ext_lt a b} + {~ ext_lt a b}.
Proof.
  destruct (ext_ltb a b) eqn:E; [left; apply ext_ltb_lt|right; apply ext_ltb_nlt]; assumption.
Qed.

Lemma viable_cases f : viable f -> exists x, num_val f = Some x.
Proof. unfold viable. destruct (num_val f); [eauto|congruence]. Qed.

Lemma viable_isnan f : viable f <-> isnan f = false.
Proof. unfold viable; destruct f; simpl; split; intros; congruence. Qed.

Lemma isnan_val f : isnan f = true <-> num_val f = None.
Proof. destruct f; simpl; split; intros; congruence. Qed.

Lemma isnan_val_false f : isnan f = false <-> num_val f <> None.
Proof. destruct f; simpl; split; intros; congruence. Qed.

Lemma better_irrefl mx f : ~ better mx f f.
Proof.
  unfold better. destruct (num_val f); [|tauto]. destruct mx; apply ext_lt_irrefl.
Qed.

Lemma better_trans mx f g h : better mx f g -> better mx g h -> better mx f h.
Proof.
  unfold better. destruct (num_val f) as [x|], (num_val g) as [y|], (num_val h) as [z|]; try tauto.
  destruct mx; intros; eapply ext_lt_trans; eassumption.
Qed.

Lemma better_split mx f g h : better mx f h -> better mx f g \/ better mx g h.
Proof.
  unfold better. destruct (num_val f) as [x|], (num_val g) as [y|], (num_val h) as [z|]; try tauto.
  destruct mx; intros H; apply (ext_lt_split _ y) in H; tauto.
Qed.

Lemma better_asym mx f g : better mx f g -> ~ better mx g f.
Proof. intros H1 H2. exact (better_irrefl mx f (better_trans mx f g f H1 H2)). Qed.

Lemma better_dec mx f g : {better mx f g} + {~ better mx f g}.
Proof.
  unfold better. destruct (num_val f) as [x|], (num_val g) as [y|];
    try (left; tauto); try (right; tauto).
  destruct mx; apply ext_lt_dec.
Qed.

(** [worse_than] computes [better] with the arguments exchanged, except when both are NaN. *)
Lemma worse_than_spec mx coin f g :
  viable f \/ viable g -> (worse_than mx coin f g = true <-> better mx g f).
Proof.
  unfold worse_than, better. intros Hv.
  destruct (isnan f) eqn:Hf; destruct (isnan g) eqn:Hg.
  - exfalso. destruct Hv as [H|H]; apply viable_isnan in H; congruence.
  - apply isnan_val in Hf. apply isnan_val_false in Hg. rewrite Hf.
    destruct (num_val g); [tauto|congruence].
  - apply isnan_val in Hg. rewrite Hg. split; [discriminate|tauto].
  - apply isnan_val_false in Hf, Hg. unfold num_ltb.
    destruct (num_val f) as [x|]; [|congruence]. destruct (num_val g) as [y|]; [|congruence].
    destruct mx; apply ext_ltb_lt.
Qed.

(** whatever the coin says, the answer is compatible with the preorder *)
Lemma worse_than_true mx coin f g : worse_than mx coin f g = true -> not_better mx f g.
Proof.
  intros H. destruct (isnan f) eqn:Hf.
  - apply isnan_val in Hf. unfold not_better, better. rewrite Hf. tauto.
  - apply viable_isnan in Hf. apply (worse_than_spec mx coin f g) in H; [|tauto].
    apply better_asym, H.
Qed.

Lemma worse_than_false mx coin f g : worse_than mx coin f g = false -> not_better mx g f.
Proof.
  intros H Hb. destruct (isnan g) eqn:Hg.
  - apply isnan_val in Hg. unfold better in Hb. rewrite Hg in Hb. tauto.
  - apply viable_isnan in Hg. apply (worse_than_spec mx coin f g) in Hb; [|tauto]. congruence.
Qed.

(** numbers that compare equal *)
Lemma Qeq_bool_false x y : Qeq_bool x y = false <-> ~ (x == y)%Q.
Proof.
  rewrite <- Qeq_bool_iff. destruct (Qeq_bool x y); split; intros; congruence.
Qed.

Lemma num_eqb_spec f g :
  num_eqb f g = true <-> (viable f /\ viable g /\ forall mx, ~ better mx f g /\ ~ better mx g f).
Proof.
  unfold num_eqb, viable, better.
  destruct (num_val f) as [x|], (num_val g) as [y|].
  - split.
    + intros H. split; [congruence|split; [congruence|]].
      destruct x, y; simpl in H; try discriminate; intros mx; destruct mx; simpl; try tauto.
      * apply Qeq_bool_iff in H. split; intros H'; lra.
      * apply Qeq_bool_iff in H. split; intros H'; lra.
    + intros (_ & _ & H). specialize (H true). simpl in H.
      destruct x, y; simpl in *; try tauto.
      apply Qeq_bool_iff. destruct H as [H1 H2]. apply Qnot_lt_le in H1, H2. lra.
  - split; [discriminate|intros (_ & H & _); congruence].
  - split; [discriminate|intros (H & _ & _); congruence].
  - split; [discriminate|intros (H & _ & _); congruence].
Qed.

Lemma isclose_spec f g : isclose f g = true <-> within_rel tol f g.
Proof.
  unfold isclose, within_rel.
  destruct (num_val f) as [[|x|]|], (num_val g) as [[|y|]|]; simpl; try tauto;
    try (split; [discriminate|tauto]); try (split; [discriminate|intros [? ?]; tauto]).
  change rel_tol with tol.
  assert (Ht : (0 <= tol)%Q) by (unfold tol; lra).
  rewrite !orb_true_iff, Qeq_bool_iff, !Qle_bool_iff.
  generalize dependent tol. intros t Ht.
  assert (Hmx : (Qabs x <= Qmax (Qabs x) (Qabs y))%Q) by apply Q.le_max_l.
  assert (Hmy : (Qabs y <= Qmax (Qabs x) (Qabs y))%Q) by apply Q.le_max_r.
  assert (Hx := Qabs_nonneg x).
  split.
  - intros [[H|H]|H].
    + assert (E : (Qabs (x - y) == 0)%Q) by (rewrite H; setoid_replace (y - y)%Q with 0%Q by ring; reflexivity).
      rewrite E. apply Qmult_le_0_compat; lra.
    + apply Qle_trans with (t * Qabs y)%Q; [assumption|].
      rewrite (Qmult_comm t), (Qmult_comm t). apply Qmult_le_compat_r; assumption.
    + apply Qle_trans with (t * Qabs x)%Q; [assumption|].
      rewrite (Qmult_comm t), (Qmult_comm t). apply Qmult_le_compat_r; assumption.
  - intros H. destruct (Q.max_spec (Qabs x) (Qabs y)) as [[_ E]|[_ E]]; rewrite E in H; tauto.
Qed.

Lemma is_pyfloat_spec f : viable f -> (is_pyfloat f = true <-> pyfloat_num f).
Proof.
  unfold viable, pyfloat_num. destruct f as [z|b e|]; simpl; intros Hv.
  - split; [discriminate|intros [e H]; discriminate].
  - split; [intros ->; eauto|intros [e' H]; congruence].
  - congruence.
Qed.

Lemma pyfloat_viable f : pyfloat_num f -> viable f.
Proof. intros [e ->]. unfold viable; simpl; congruence. Qed.

Lemma within_rel_nan t f g : within_rel t f g -> viable f /\ viable g.
Proof.
  unfold within_rel, viable.
  destruct (num_val f) as [[|x|]|], (num_val g) as [[|y|]|]; try tauto; split; congruence.
Qed.

Lemma within_rel_sym t f g : within_rel t f g -> within_rel t g f.
Proof.
  unfold within_rel.
  destruct (num_val f) as [[|x|]|], (num_val g) as [[|y|]|]; try tauto.
  rewrite Qabs_Qminus, Q.max_comm. tauto.
Qed.

(** what [==] between individuals means *)
Lemma equivalent_spec f g :
  equivalent f g = true <->
  (blurred f g \/ (viable f /\ viable g /\ forall mx, ~ better mx f g /\ ~ better mx g f)).
Proof.
  unfold equivalent, blurred.
  destruct (is_pyfloat f && is_pyfloat g) eqn:Ep.
  - apply andb_true_iff in Ep. destruct Ep as [Ef Eg]. rewrite isclose_spec. split.
    + intros H. left. destruct (within_rel_nan _ _ _ H) as [Vf Vg].
      repeat split; try assumption; apply is_pyfloat_spec; assumption.
    + intros [(_ & _ & H)|(Vf & Vg & H)]; [assumption|].
      unfold within_rel, viable, better in *.
      destruct (num_val f) as [[|x|]|], (num_val g) as [[|y|]|]; simpl in *; try tauto; try congruence;
        try (specialize (H true); simpl in H; tauto).
      specialize (H true); simpl in H. destruct H as [H1 H2]. apply Qnot_lt_le in H1, H2.
      assert (E : (x == y)%Q) by lra.
      assert (E' : (Qabs (x - y) == 0)%Q)
        by (rewrite E; setoid_replace (y - y)%Q with 0%Q by ring; reflexivity).
      rewrite E'. apply Qmult_le_0_compat; [unfold tol; lra|].
      apply Qle_trans with (Qabs x); [apply Qabs_nonneg|apply Q.le_max_l].
  - rewrite num_eqb_spec. split; [tauto|]. intros [(H1 & H2 & _)|H]; [|assumption].
    exfalso. apply andb_false_iff in Ep.
    assert (V1 := pyfloat_viable _ H1). assert (V2 := pyfloat_viable _ H2).
    apply is_pyfloat_spec in H1, H2; try assumption. destruct Ep; congruence.
Qed.

Lemma better_viable mx f g : better mx f g -> viable f.
Proof. unfold better, viable. destruct (num_val f); [congruence|tauto]. Qed.

(** what [a > b] means, when at least one is numeric *)
Lemma ind_gt_spec mx coin a b :
  viable (si_fit a) \/ viable (si_fit b) ->
  (ind_gt mx coin a b = true <-> clearly_better mx (si_fit a) (si_fit b)).
Proof.
  intros Hv. unfold ind_gt, ind_lt, ind_eq, clearly_better.
  rewrite andb_true_iff, !negb_true_iff.
  split.
  - intros [H1 H2].
    assert (Hn : not_better mx (si_fit b) (si_fit a)) by (eapply worse_than_false; eassumption).
    assert (Hne : ~ equivalent (si_fit a) (si_fit b) = true) by congruence.
    rewrite equivalent_spec in Hne.
    split; [|intros Hb; apply Hne; tauto].
    destruct (better_dec mx (si_fit a) (si_fit b)) as [Hd|Hd]; [assumption|].
    exfalso. apply Hne. right.
    assert (Hboth : viable (si_fit a) /\ viable (si_fit b)).
    { unfold not_better, better, viable in *.
      destruct (num_val (si_fit a)), (num_val (si_fit b)); split; try congruence; tauto. }
    destruct Hboth as [Va Vb]. repeat split; try assumption;
      revert Hd Hn; unfold not_better, better;
      destruct (viable_cases _ Va) as [x ->], (viable_cases _ Vb) as [y ->];
      destruct mx, mx0; tauto.
  - intros [H1 H2]. split.
    + destruct (worse_than mx (coin a b) (si_fit a) (si_fit b)) eqn:E; [|reflexivity].
      exfalso. apply worse_than_true in E. exact (E H1).
    + destruct (equivalent (si_fit a) (si_fit b)) eqn:E; [|reflexivity].
      exfalso. apply equivalent_spec in E. destruct E as [E|(_ & _ & E)]; [tauto|].
      destruct (E mx) as [E1 _]. tauto.
Qed.

(** what [a <= b] and [a >= b] mean *)
Lemma ind_le_spec mx coin a b :
  viable (si_fit a) \/ viable (si_fit b) ->
  (ind_le mx coin a b = true <-> ~ clearly_better mx (si_fit a) (si_fit b)).
Proof.
  intros Hv. rewrite <- (ind_gt_spec mx coin a b Hv).
  unfold ind_le, ind_gt. destruct (ind_lt mx coin a b), (ind_eq a b); simpl; intuition congruence.
Qed.

Lemma nan_pair mx coin a b :
  ~ viable (si_fit a) -> ~ viable (si_fit b) ->
  ind_lt mx coin a b = coin a b /\ ind_eq a b = false.
Proof.
  unfold viable, ind_lt, ind_eq. destruct (si_fit a), (si_fit b); simpl; intros Ha Hb;
    try (exfalso; apply Ha; discriminate); try (exfalso; apply Hb; discriminate).
  split; reflexivity.
Qed.

(** ** Running maximum *)

Lemma within_rel_between t mx f g h :
  (0 <= t < 1)%Q ->
  better mx f g -> better mx g h -> within_rel t f h -> within_rel t f g.
Proof.
  intros [Ht0 Ht1] Hfg Hgh Hw. unfold better, within_rel in *.
  destruct (num_val f) as [[|x|]|] eqn:Ef, (num_val g) as [[|y|]|] eqn:Eg,
    (num_val h) as [[|z|]|] eqn:Eh; try tauto; destruct mx; simpl in *; try tauto.
  - (* z < y < x *)
    assert (Hxz : (Qabs (x - z) == x - z)%Q) by (apply Qabs_pos; lra).
    assert (Hxy : (Qabs (x - y) == x - y)%Q) by (apply Qabs_pos; lra).
    rewrite Hxz in Hw. rewrite Hxy.
    assert (Hb : (Qmax (Qabs x) (Qabs z) <= Qmax (Qabs x) (Qabs y) + (y - z))%Q).
    { apply Q.max_lub.
      - assert (H := Q.le_max_l (Qabs x) (Qabs y)). lra.
      - assert (H := Q.le_max_r (Qabs x) (Qabs y)).
        assert (H2 : (Qabs z <= Qabs y + Qabs (z - y))%Q).
        { setoid_replace z with (y + (z - y))%Q at 1 by ring. apply Qabs_triangle. }
        assert (H3 : (Qabs (z - y) == y - z)%Q) by (rewrite Qabs_neg by lra; ring).
        lra. }
    assert (Hm : (t * Qmax (Qabs x) (Qabs z) <= t * (Qmax (Qabs x) (Qabs y) + (y - z)))%Q).
    { rewrite (Qmult_comm t), (Qmult_comm t). apply Qmult_le_compat_r; assumption. }
    assert (Hk : (t * (y - z) <= 1 * (y - z))%Q) by (apply Qmult_le_compat_r; lra).
    lra.
  - (* x < y < z *)
    assert (Hxz : (Qabs (x - z) == z - x)%Q) by (rewrite Qabs_neg by lra; ring).
    assert (Hxy : (Qabs (x - y) == y - x)%Q) by (rewrite Qabs_neg by lra; ring).
    rewrite Hxz in Hw. rewrite Hxy.
    assert (Hb : (Qmax (Qabs x) (Qabs z) <= Qmax (Qabs x) (Qabs y) + (z - y))%Q).
    { apply Q.max_lub.
      - assert (H := Q.le_max_l (Qabs x) (Qabs y)). lra.
      - assert (H := Q.le_max_r (Qabs x) (Qabs y)).
        assert (H2 : (Qabs z <= Qabs y + Qabs (z - y))%Q).
        { setoid_replace z with (y + (z - y))%Q at 1 by ring. apply Qabs_triangle. }
        assert (H3 : (Qabs (z - y) == z - y)%Q) by (apply Qabs_pos; lra).
        lra. }
    assert (Hm : (t * Qmax (Qabs x) (Qabs z) <= t * (Qmax (Qabs x) (Qabs y) + (z - y)))%Q).
    { rewrite (Qmult_comm t), (Qmult_comm t). apply Qmult_le_compat_r; assumption. }
    assert (Hk : (t * (z - y) <= 1 * (z - y))%Q) by (apply Qmult_le_compat_r; lra).
    lra.
Qed.

(** [almost t mx c y]: y is not better than c except within relative distance t *)
Definition almost (t : Q) (mx : bool) (c y : num) : Prop :=
  better mx y c -> within_rel t y c.

Lemma almost_step t mx c c' y :
  (0 <= t < 1)%Q -> almost t mx c y -> better mx c' c -> almost t mx c' y.
Proof.
  unfold almost. intros Ht H Hc Hy.
  assert (Hyc : better mx y c) by (eapply better_trans; eassumption).
  eapply within_rel_between; eauto.
Qed.

Lemma almost_refl t mx c : almost t mx c c.
Proof. intros H. exfalso. eapply better_irrefl; eassumption. Qed.

Lemma clearly_better_nb mx f g : better mx f g -> ~ clearly_better mx f g -> within_rel tol f g.
Proof.
  intros H1 H2. unfold clearly_better, blurred in H2.
  destruct (is_pyfloat f && is_pyfloat g) eqn:E.
  - unfold within_rel.
    destruct (isclose f g) eqn:Ec; [apply isclose_spec in Ec; exact Ec|].
    exfalso. apply H2. split; [assumption|]. intros (_ & _ & Hw).
    apply isclose_spec in Hw. congruence.
  - exfalso. apply H2. split; [assumption|]. intros (P1 & P2 & _).
    assert (V1 := pyfloat_viable _ P1). assert (V2 := pyfloat_viable _ P2).
    apply is_pyfloat_spec in P1, P2; try assumption. rewrite P1, P2 in E. discriminate.
Qed.

(** the outcome of one comparison, whatever the coin *)
Lemma ind_gt_true mx coin a b :
  ind_gt mx coin a b = true -> better mx (si_fit a) (si_fit b) \/
    (~ viable (si_fit a) /\ ~ viable (si_fit b)).
Proof.
  intros H. destruct (isnan (si_fit a)) eqn:Ea, (isnan (si_fit b)) eqn:Eb.
  - right. unfold viable. apply isnan_val in Ea, Eb. rewrite Ea, Eb. tauto.
  - left. apply ind_gt_spec in H; [apply H|right; apply viable_isnan; assumption].
  - left. apply ind_gt_spec in H; [apply H|left; apply viable_isnan; assumption].
  - left. apply ind_gt_spec in H; [apply H|left; apply viable_isnan; assumption].
Qed.

Lemma ind_gt_false mx coin a b :
  ind_gt mx coin a b = false -> almost tol mx (si_fit b) (si_fit a).
Proof.
  intros H Hb. assert (Hv := better_viable _ _ _ Hb).
  assert (Hn : ~ clearly_better mx (si_fit a) (si_fit b)).
  { intros Hc. apply (ind_gt_spec mx coin a b) in Hc; [congruence|tauto]. }
  eapply clearly_better_nb; eassumption.
Qed.

Lemma almost_nan t mx c c' y :
  ~ viable c -> almost t mx c y -> almost t mx c' y.
Proof.
  intros Hc H Hy. destruct (better_dec mx y c) as [Hd|Hd].
  - specialize (H Hd). apply within_rel_nan in H. tauto.
  - exfalso. apply Hd. apply better_viable in Hy. revert Hy Hc. unfold better, viable.
    destruct (num_val y), (num_val c); try tauto; try congruence.
    intros _ Hx. exfalso. apply Hx. discriminate.
Qed.

Lemma tol_range : (0 <= tol < 1)%Q.
Proof. unfold tol. split; reflexivity || lra. Qed.

Lemma pymax_from_in {A} (gt : A -> A -> bool) l : forall c,
  In (pymax_from gt c l) (c :: l).
Proof.
  induction l as [|x l IH]; intros c; cbn [pymax_from].
  - simpl; tauto.
  - specialize (IH (if gt x c then x else c)). destruct IH as [IH|IH].
    + rewrite <- IH. destruct (gt x c); simpl; tauto.
    + simpl; tauto.
Qed.

Lemma pymax_from_almost mx coin l : forall c seen,
  (forall y, In y seen -> almost tol mx (si_fit c) (si_fit y)) ->
  forall y, In y (seen ++ c :: l) ->
    almost tol mx (si_fit (pymax_from (ind_gt mx coin) c l)) (si_fit y).
Proof.
  induction l as [|x l IH]; intros c seen Hs y Hy; cbn [pymax_from].
  - apply in_app_iff in Hy. destruct Hy as [Hy|[<-|[]]]; [apply Hs, Hy|apply almost_refl].
  - destruct (ind_gt mx coin x c) eqn:E.
    + apply (IH x (seen ++ [c])).
      * intros z Hz. assert (Hzc : almost tol mx (si_fit c) (si_fit z)).
        { apply in_app_iff in Hz. destruct Hz as [Hz|[<-|[]]]; [apply Hs, Hz|apply almost_refl]. }
        destruct (ind_gt_true _ _ _ _ E) as [Hb|[_ Hn]].
        -- eapply almost_step; [apply tol_range|exact Hzc|exact Hb].
        -- eapply almost_nan; eassumption.
      * rewrite <- app_assoc. simpl. assumption.
    + apply (IH c (seen ++ [x])).
      * intros z Hz. apply in_app_iff in Hz. destruct Hz as [Hz|[<-|[]]]; [apply Hs, Hz|].
        eapply ind_gt_false; eassumption.
      * rewrite <- app_assoc. simpl. rewrite !in_app_iff in *. simpl in *. tauto.
Qed.
