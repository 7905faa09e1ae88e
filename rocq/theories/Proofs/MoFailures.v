From Coq Require Import Permutation Lia.
From Verif Require Import Model.Base Model.PyList Model.Selection Model.Pareto Model.Crowding Model.MoFailures
  Spec.Order Spec.Pareto Spec.NsgaRun Spec.MoFailures Proofs.Pareto Proofs.RankOrdinal Proofs.Algorithm Proofs.Crowding Proofs.NsgaRun.
Local Open Scope nat_scope.

(** ** sorting when some elements (not [p]) come after all others *)
Section Sorting.
Context {A : Type}.
Variables lt' lt : A -> A -> bool.
Variable p : A -> bool.
Variable D : A -> Prop.
Hypothesis same : forall x y, D x -> D y -> p x = true -> p y = true -> lt' x y = lt x y.
Hypothesis later : forall x y, D x -> D y -> p x = true -> p y = false -> lt' x y = true /\ lt' y x = false.
Hypothesis alike : forall x y, D x -> D y -> p x = false -> p y = false -> lt' x y = false.

Lemma insert_first x a l : D x -> p x = true -> Forall (fun y => D y /\ p y = true) a -> Forall (fun y => D y /\ p y = false) l ->
  insert_asc lt' x (a ++ l) = insert_asc lt x a ++ l.
Proof using same later.
  intros Dx Px Ha Hl. induction Ha as [|y a [Dy Py] Ha IH]; cbn [app insert_asc].
  - destruct Hl as [|y l [Dy Py] Hl]; [reflexivity|]. cbn [insert_asc]. rewrite (proj2 (later x y Dx Dy Px Py)). reflexivity.
  - rewrite (same y x Dy Dx Py Px). destruct (lt y x); [|reflexivity]. cbn [app]. f_equal. exact IH.
Qed.
Lemma insert_second x a l : D x -> p x = false -> Forall (fun y => D y /\ p y = true) a -> Forall (fun y => D y /\ p y = false) l ->
  insert_asc lt' x (a ++ l) = a ++ x :: l.
Proof using later alike.
  intros Dx Px Ha Hl. induction Ha as [|y a [Dy Py] Ha IH]; cbn [app insert_asc].
  - destruct Hl as [|y l [Dy Py] Hl]; [reflexivity|]. cbn [insert_asc]. rewrite (alike y x Dy Dx Py Px). reflexivity.
  - rewrite (proj1 (later y x Dy Dx Py Px)). f_equal. exact IH.
Qed.
Lemma sort_split l : Forall D l -> sort_asc lt' l = sort_asc lt (filter p l) ++ filter (fun x => negb (p x)) l.
Proof using same later alike.
  induction l as [|x l IH]; intros Hl; [reflexivity|]. pose proof (Forall_inv Hl) as Dx. apply Forall_inv_tail in Hl.
  cbn [sort_asc filter]. rewrite (IH Hl).
  assert (Ha : Forall (fun y => D y /\ p y = true) (sort_asc lt (filter p l))).
  { apply Forall_forall. intros y Hy. apply (Permutation_in _ (Permutation_sym (sort_asc_perm lt _))) in Hy. apply filter_In in Hy.
    destruct Hy as [Hy Py]. rewrite Forall_forall in Hl. auto. }
  assert (Hb : Forall (fun y => D y /\ p y = false) (filter (fun x => negb (p x)) l)).
  { apply Forall_forall. intros y Hy. apply filter_In in Hy. destruct Hy as [Hy Py]. apply negb_true_iff in Py. rewrite Forall_forall in Hl. auto. }
  destruct (p x) eqn:Px; cbn [negb sort_asc].
  - apply insert_first; assumption.
  - apply insert_second; assumption.
Qed.
End Sorting.

Lemma filter_all {A} (f : A -> bool) l : (forall x, In x l -> f x = true) -> filter f l = l.
Proof. induction l as [|x l IH]; intros H; [reflexivity|]. cbn. rewrite (H x (or_introl eq_refl)), IH; [reflexivity|]. intros y Hy. apply H. right. exact Hy. Qed.
Lemma filter_none {A} (f : A -> bool) l : (forall x, In x l -> f x = false) -> filter f l = [].
Proof. induction l as [|x l IH]; intros H; [reflexivity|]. cbn. rewrite (H x (or_introl eq_refl)), IH; [reflexivity|]. intros y Hy. apply H. right. exact Hy. Qed.
Lemma argmax_shift k l : argmax (map (fun v => k + v) l) = argmax l.
Proof.
  destruct l as [|v l]; [reflexivity|]. cbn [map argmax]. generalize 0, 1. revert v. induction l as [|w l IH]; intros v b q; [reflexivity|].
  cbn [map argmax_from]. replace (k + v <? k + w) with (v <? w); [|destruct (Nat.ltb_spec v w), (Nat.ltb_spec (k + v) (k + w)); lia].
  destruct (v <? w); apply IH.
Qed.
Lemma le_shift k a : forall b, forallb (fun p => fst p <=? snd p) (combine (map (fun v => k + v) a) (map (fun v => k + v) b)) =
  forallb (fun p => fst p <=? snd p) (combine a b).
Proof.
  induction a as [|x a IH]; intros [|y b]; try reflexivity. cbn [map combine forallb fst snd]. rewrite IH. f_equal.
  destruct (Nat.leb_spec x y), (Nat.leb_spec (k + x) (k + y)); lia.
Qed.

Lemma viable_nan x : viable x -> isnan x = false.
Proof. unfold viable. destruct x; cbn; congruence. Qed.
Lemma eqb_nan x : num_eqb x NNan = false.
Proof. unfold num_eqb. destruct (num_val x); reflexivity. Qed.
Lemma nan_ltb x : num_ltb NNan x = false.
Proof. unfold num_ltb. cbn. reflexivity. Qed.
Lemma ltb_nan x : num_ltb x NNan = false.
Proof. unfold num_ltb. destruct (num_val x); reflexivity. Qed.
Lemma np_ltb_num x y : viable y -> np_ltb x y = num_ltb x y.
Proof. intros H. unfold np_ltb. rewrite (viable_nan y H). apply orb_false_r. Qed.
Lemma np_ltb_nan x : viable x -> np_ltb x NNan = true.
Proof. intros H. unfold np_ltb. rewrite (viable_nan x H). cbn. apply orb_true_r. Qed.
Lemma np_nan_ltb x : np_ltb NNan x = false.
Proof. unfold np_ltb. rewrite nan_ltb. cbn. apply andb_false_r. Qed.

Lemma np_lex_num a : forall b, length a = length b -> Forall viable a -> Forall viable b -> np_lex a b = lex_ltb a b.
Proof.
  induction a as [|x a IH]; intros [|y b] L Va Vb; try discriminate; [reflexivity|]. cbn [np_lex lex_ltb].
  pose proof (Forall_inv Va) as Vx. pose proof (Forall_inv Vb) as Vy.
  rewrite np_ltb_num, np_ltb_num by assumption. rewrite IH; [|cbn in L; lia|eapply Forall_inv_tail; eassumption|eapply Forall_inv_tail; eassumption].
  destruct (num_ltb x y) eqn:E1; [reflexivity|]. cbn [orb]. destruct (num_ltb y x) eqn:E2.
  - destruct (num_eqb x y) eqn:E; [|reflexivity]. apply eqb_leb in E. destruct E as [E _]. rewrite leb_ltb, E2 in E by assumption. discriminate.
  - assert (E : num_eqb x y = true) by (apply eqb_leb; rewrite !leb_ltb, E1, E2 by assumption; auto). rewrite E. reflexivity.
Qed.

(** ** rows of NaN *)
Lemma nan_row_left m b : 0 < m -> length b = m -> dominated_vec (repeat NNan m) b = false.
Proof. destruct m as [|m]; [lia|]. destruct b as [|y b]; [discriminate|]. intros _ _. reflexivity. Qed.
Lemma nan_row_right m b : 0 < m -> length b = m -> dominated_vec b (repeat NNan m) = false.
Proof.
  destruct m as [|m]; [lia|]. destruct b as [|y b]; [discriminate|]. intros _ _. unfold dominated_vec. cbn [repeat combine forallb fst snd].
  replace (num_leb y NNan) with false; [reflexivity|]. unfold num_leb, num_ltb, num_eqb. destruct (num_val y); reflexivity.
Qed.

Section Failures.
Variable failed : nat -> bool.
Variable mx : list bool.
Hypothesis mx_some : mx <> [].
Notation m := (length mx).
Lemma m_pos : 0 < m. Proof. destruct mx; [congruence|cbn; lia]. Qed.

Lemma row_length x : length (o_fit x) = m -> length (row_of failed mx x) = m.
Proof.
  intros H. unfold row_of. destruct (failed (o_id x)); [apply repeat_length|]. unfold signed. rewrite map_length, combine_length. lia.
Qed.
Definition full (l : list mo) : Prop := forall x, In x l -> failed (o_id x) = false -> length (o_fit x) = m.

Lemma row_length' x : (failed (o_id x) = false -> length (o_fit x) = m) -> length (row_of failed mx x) = m.
Proof.
  intros H. unfold row_of. destruct (failed (o_id x)) eqn:E; [apply repeat_length|]. unfold signed. rewrite map_length, combine_length, (H eq_refl). lia.
Qed.

Lemma robust_lt_spec a b : (failed (o_id a) = false -> length (o_fit a) = m) -> (failed (o_id b) = false -> length (o_fit b) = m) ->
  (robust_lt failed mx a b = true <-> better_evaluated failed mx b a).
Proof.
  intros La Lb. unfold better_evaluated, evaluated, robust_lt. destruct (failed (o_id a)) eqn:Fa.
  - unfold row_of at 1. rewrite Fa, nan_row_left; [|apply m_pos|apply row_length'; exact Lb]. split; [discriminate|intros (_ & H & _); discriminate].
  - destruct (failed (o_id b)) eqn:Fb.
    + unfold row_of at 2. rewrite Fb, nan_row_right; [|apply m_pos|apply row_length'; intros _; apply La; reflexivity].
      split; [discriminate|intros (H & _); discriminate].
    + unfold row_of. rewrite Fa, Fb. change (dominated_vec (signed mx (o_fit a)) (signed mx (o_fit b))) with (mo_worse_than mx (o_fit a) (o_fit b)).
      rewrite mo_worse_than_spec. tauto.
Qed.

Lemma better_asym a b : better_evaluated failed mx a b -> ~ better_evaluated failed mx b a.
Proof. intros (_ & _ & H) (_ & _ & H'). exact (dominates_asym mx _ _ H H'). Qed.

Theorem robust_comparison a b : (failed (o_id a) = false -> length (o_fit a) = m) -> (failed (o_id b) = false -> length (o_fit b) = m) ->
  (robust_lt failed mx a b = true <-> better_evaluated failed mx b a) /\
  (robust_gt failed mx a b = true <-> better_evaluated failed mx a b) /\
  (robust_eq failed mx a b = true <-> ~ better_evaluated failed mx a b /\ ~ better_evaluated failed mx b a).
Proof.
  intros La Lb. pose proof (robust_lt_spec a b La Lb) as H1. pose proof (robust_lt_spec b a Lb La) as H2.
  split; [exact H1|]. unfold robust_gt, robust_eq.
  destruct (robust_lt failed mx a b) eqn:E1; destruct (robust_lt failed mx b a) eqn:E2; cbn [negb andb].
  - exfalso. apply (better_asym a b); [apply H2|apply H1]; reflexivity.
  - pose proof (proj1 H1 eq_refl) as B. split; split; try discriminate.
    + intros H. destruct (better_asym _ _ H B).
    + intros (_ & H). destruct (H B).
  - pose proof (proj1 H2 eq_refl) as B. split; split; try discriminate; try reflexivity; intros; try tauto.
  - split; split; try discriminate.
    + intros H. apply H2 in H. discriminate.
    + intros _. split; intros H; [apply H2 in H|apply H1 in H]; discriminate.
    + reflexivity.
Qed.

(** ** fast_nondominated_sort *)
Theorem fast_sort_with_failures population parents before fuel :
  let working := match parents with Some ps => population ++ ps | None => population end in
  population <> [] -> NoDup (map o_id working) -> full working -> length working < fuel ->
  exists st, fast_nondominated_sort (robust_gt failed mx) fuel population parents before = Some (Ok (working, st)) /\
    (forall x, In x working -> failed (o_id x) = true -> f_rank st (o_id x) = 1) /\
    front_numbers (fun y x => dominates mx (o_fit y) (o_fit x)) (successes failed working) (fun x => f_rank st (o_id x)).
Proof.
  intros working Hne Hid Hv Hf.
  assert (GT : forall x y, In x working -> In y working -> (robust_gt failed mx x y = true <-> better_evaluated failed mx x y)).
  { intros x y Hx Hy. apply robust_comparison; apply Hv; assumption. }
  assert (Hir : forall x, In x working -> robust_gt failed mx x x = false).
  { intros x Hx. destruct (robust_gt failed mx x x) eqn:E; [|reflexivity]. apply GT in E; [|exact Hx|exact Hx]. destruct (better_asym _ _ E E). }
  assert (Htr : forall x y z, In x working -> In y working -> In z working -> robust_gt failed mx x y = true -> robust_gt failed mx y z = true -> robust_gt failed mx x z = true).
  { intros x y z Hx Hy Hz A B. apply GT in A; [|exact Hx|exact Hy]. apply GT in B; [|exact Hy|exact Hz]. apply GT; [exact Hx|exact Hz|].
    destruct A as (A1 & A2 & A3). destruct B as (B1 & B2 & B3). split; [exact A1|]. split; [exact B2|].
    eapply dominates_trans; [apply Hv; [exact Hy|exact A2]|apply Hv; [exact Hz|exact B2]|exact A3|exact B3]. }
  unfold fast_nondominated_sort. fold working. destruct population as [|p0 ps0] eqn:Ep; [congruence|]. rewrite <- Ep in *.
  destruct (fns_first (robust_gt failed mx) working working before []) as [st front] eqn:E.
  destruct (fns_correct (robust_gt failed mx) working Hid Hir Htr fuel before st front E Hf) as (st' & R & F).
  rewrite R. exists st'. split; [reflexivity|]. split.
  - intros x Hx Fx. destruct (F x Hx) as (A & B & [C|(y & Hy & D & C)]); [exact C|]. apply GT in D; [|exact Hy|exact Hx]. destruct D as (_ & D & _).
    unfold evaluated in D. congruence.
  - intros x Hx. apply filter_In in Hx. destruct Hx as [Hx Ex]. apply negb_true_iff in Ex. destruct (F x Hx) as (A & B & C). split; [exact A|]. split.
    + intros y Hy Hd. apply filter_In in Hy. destruct Hy as [Hy Ey]. apply negb_true_iff in Ey. apply B; [exact Hy|]. apply GT; [exact Hy|exact Hx|]. repeat split; [exact Ey|exact Ex|apply Hd|apply Hd].
    + destruct C as [C|(y & Hy & D & C)]; [left; exact C|right]. apply GT in D; [|exact Hy|exact Hx]. destruct D as (D1 & _ & D). exists y.
      split; [apply filter_In; split; [exact Hy|apply negb_true_iff; exact D1]|]. split; [exact D|exact C].
Qed.
End Failures.

(** ** rank_ordinal_sort: the rows *)
Section Rows.
Variable m : nat.
Hypothesis m_some : 0 < m.
Notation nanrow := (repeat NNan m).
Definition good_row (r : list num) : Prop := vrow m r \/ r = nanrow.

Lemma nanrow_not r : vrow m r -> row_eqb r nanrow = false /\ row_eqb nanrow r = false.
Proof using m_some.
  intros [L V]. destruct m as [|m']; [lia|]. destruct r as [|x r]; [discriminate|]. cbn [repeat]. unfold row_eqb. cbn [combine forallb fst snd].
  rewrite eqb_nan, eqb_sym, eqb_nan. cbn [andb]. rewrite !andb_false_r. split; reflexivity.
Qed.
Lemma nanrow_self : row_eqb nanrow nanrow = false.
Proof using m_some. destruct m as [|m']; [lia|]. unfold row_eqb. cbn [repeat combine forallb fst snd]. rewrite eqb_nan. apply andb_false_r. Qed.
Lemma good_row_test r : good_row r -> (row_eqb r r = true -> vrow m r) /\ (row_eqb r r = false -> r = nanrow).
Proof using m_some.
  intros [H|H].
  - split; [intros _; exact H|]. rewrite (row_eqb_refl m r H). discriminate.
  - subst r. split; [rewrite nanrow_self; discriminate|reflexivity].
Qed.

Definition numbers (rows : list (list num)) : list (list num) := filter (fun r => row_eqb r r) rows.
Definition nans (rows : list (list num)) : nat := length (filter (fun r => negb (row_eqb r r)) rows).

Lemma nan_rows rows : Forall good_row rows -> filter (fun r => negb (row_eqb r r)) rows = repeat nanrow (nans rows).
Proof using m_some.
  unfold nans. induction rows as [|r rows IH]; intros H; [reflexivity|]. cbn [filter]. pose proof (Forall_inv H) as Hr.
  destruct (row_eqb r r) eqn:E; cbn [negb]; [apply IH; eapply Forall_inv_tail; exact H|].
  cbn [length repeat]. rewrite <- IH by (eapply Forall_inv_tail; exact H). f_equal. apply (proj2 (good_row_test r Hr) E).
Qed.
Lemma number_rows rows : Forall good_row rows -> Forall (vrow m) (numbers rows).
Proof using m_some.
  intros H. apply Forall_forall. intros r Hr. apply filter_In in Hr. destruct Hr as [Hr E]. rewrite Forall_forall in H. apply (good_row_test r (H r Hr)), E.
Qed.

Lemma sorted_rows rows : Forall good_row rows -> sort_asc np_lex rows = sort_asc lex_ltb (numbers rows) ++ repeat nanrow (nans rows).
Proof using m_some.
  intros H. rewrite <- nan_rows by exact H. apply sort_split with (D := good_row).
  - intros x y Dx Dy Px Py. apply (good_row_test x Dx) in Px. apply (good_row_test y Dy) in Py. destruct Px as [Lx Vx]. destruct Py as [Ly Vy].
    apply np_lex_num; [lia|exact Vx|exact Vy].
  - intros x y Dx Dy Px Py. apply (good_row_test x Dx) in Px. apply (good_row_test y Dy) in Py. subst y. destruct Px as [Lx Vx].
    destruct m as [|m']; [lia|]. destruct x as [|v x]; [discriminate|]. cbn [repeat np_lex]. pose proof (Forall_inv Vx) as Vv.
    rewrite np_ltb_nan, np_nan_ltb by exact Vv. split; reflexivity.
  - intros x y Dx Dy Px Py. apply (good_row_test x Dx) in Px. apply (good_row_test y Dy) in Py. subst x y. clear. induction m as [|k IH]; [reflexivity|].
    cbn [repeat np_lex]. rewrite np_nan_ltb. exact IH.
  - exact H.
Qed.

Lemma drop_nans k : drop_dups (repeat nanrow k) = repeat nanrow k.
Proof using m_some.
  induction k as [|[|k] IH]; [reflexivity|reflexivity|]. change (repeat nanrow (S (S k))) with (nanrow :: nanrow :: repeat nanrow k) at 1.
  change (drop_dups (nanrow :: nanrow :: repeat nanrow k)) with
    (if row_eqb nanrow nanrow then drop_dups (repeat nanrow (S k)) else nanrow :: drop_dups (repeat nanrow (S k))).
  rewrite nanrow_self, IH. reflexivity.
Qed.
Lemma drop_dups_nans a k : Forall (vrow m) a -> drop_dups (a ++ repeat nanrow k) = drop_dups a ++ repeat nanrow k.
Proof using m_some.
  induction a as [|x [|y a] IH]; intros H; [apply drop_nans| |].
  - destruct k as [|k]; [reflexivity|].
    change (drop_dups ([x] ++ repeat nanrow (S k))) with (if row_eqb x nanrow then drop_dups (repeat nanrow (S k)) else x :: drop_dups (repeat nanrow (S k))).
    rewrite (proj1 (nanrow_not x (Forall_inv H))), drop_nans. reflexivity.
  - change (drop_dups ((x :: y :: a) ++ repeat nanrow k)) with
      (if row_eqb x y then drop_dups ((y :: a) ++ repeat nanrow k) else x :: drop_dups ((y :: a) ++ repeat nanrow k)).
    rewrite IH by (eapply Forall_inv_tail; exact H).
    change (drop_dups (x :: y :: a)) with (if row_eqb x y then drop_dups (y :: a) else x :: drop_dups (y :: a)). destruct (row_eqb x y); reflexivity.
Qed.
Lemma unique_with_nans rows : Forall good_row rows -> np_unique_rows rows = unique_rows (numbers rows) ++ repeat nanrow (nans rows).
Proof using m_some.
  intros H. unfold np_unique_rows, unique_rows. rewrite sorted_rows by exact H. apply drop_dups_nans.
  apply Forall_forall. intros r Hr. apply (Permutation_in _ (Permutation_sym (sort_asc_perm lex_ltb _))) in Hr.
  pose proof (number_rows rows H) as N. rewrite Forall_forall in N. apply N, Hr.
Qed.
End Rows.

(** ** rank_ordinal_sort: the sweep over rows of numbers [U] followed by k rows of NaN *)
Section Sweep.
Variable mx : list bool.
Variable U : list (list num).
Variable k : nat.
Notation m := (length mx).
Notation n := (length U).
Hypothesis m_some : 0 < m.
Hypothesis U_rows : Forall (vrow m) U.
Definition V : list (list num) := U ++ repeat (repeat NNan m) k.

Lemma V_length : length V = n + k.
Proof. unfold V. rewrite app_length, repeat_length. reflexivity. Qed.
Lemma entry_number i c : i < n -> entry V i c = entry U i c.
Proof. intros H. unfold entry, V. rewrite app_nth1 by exact H. reflexivity. Qed.
Lemma entry_nan i c : n <= i -> entry V i c = NNan.
Proof.
  intros H. unfold entry, V. rewrite app_nth2 by exact H. destruct (Nat.lt_ge_cases (i - n) k) as [L|L].
  - replace (nth (i - n) (repeat (repeat NNan m) k) []) with (repeat NNan m); [apply nth_repeat|]. symmetry. apply (repeat_spec k). apply nth_In. rewrite repeat_length. exact L.
  - rewrite (nth_overflow (repeat _ k)); [destruct c; reflexivity|rewrite repeat_length; exact L].
Qed.
Lemma in_perm c j : In j (permutation_of U c) <-> j < n.
Proof. apply (in_permutation 1 U). lia. Qed.
Lemma number_viable i c : i < n -> c < m -> viable (entry U i c).
Proof using m_some U_rows. intros. apply (entry_viable m U); assumption. Qed.

Lemma permutation_with_nans c : c < m -> np_permutation V c = rev (seq n k) ++ permutation_of U c.
Proof using m_some U_rows.
  intros Hc. unfold np_permutation, permutation_of. rewrite <- rev_app_distr. f_equal. rewrite V_length.
  rewrite (sort_split (fun i j => np_ltb (entry V i c) (entry V j c)) (fun i j => num_ltb (entry U i c) (entry U j c)) (fun i => i <? n) (fun _ => True)).
  - rewrite seq_app, !filter_app. cbn [plus].
    rewrite (filter_all (fun i => i <? n) (seq 0 n)) by (intros i Hi; apply in_seq in Hi; apply Nat.ltb_lt; lia).
    rewrite (filter_none (fun i => i <? n) (seq n k)) by (intros i Hi; apply in_seq in Hi; apply Nat.ltb_ge; lia).
    rewrite (filter_none (fun i => negb (i <? n)) (seq 0 n)) by (intros i Hi; apply in_seq in Hi; apply negb_false_iff, Nat.ltb_lt; lia).
    rewrite (filter_all (fun i => negb (i <? n)) (seq n k)) by (intros i Hi; apply in_seq in Hi; apply negb_true_iff, Nat.ltb_ge; lia).
    rewrite app_nil_r. reflexivity.
  - intros x y _ _ Hx Hy. apply Nat.ltb_lt in Hx, Hy. rewrite !entry_number by assumption. apply np_ltb_num, number_viable; assumption.
  - intros x y _ _ Hx Hy. apply Nat.ltb_lt in Hx. apply Nat.ltb_ge in Hy. rewrite (entry_number x), (entry_nan y) by assumption.
    split; [apply np_ltb_nan, number_viable; assumption|apply np_nan_ltb].
  - intros x y _ _ Hx Hy. apply Nat.ltb_ge in Hx, Hy. rewrite !entry_nan by assumption. apply np_nan_ltb.
  - apply Forall_forall. intros; exact I.
Qed.

Lemma np_first_number v l : viable v -> np_first v l = first_occurrence v l.
Proof. intros H. induction l as [|x l IH]; [reflexivity|]. cbn. rewrite (viable_nan v H). cbn [andb]. rewrite orb_false_r, IH. reflexivity. Qed.
Lemma np_first_skip v a l : viable v -> (forall x, In x a -> x = NNan) -> np_first v (a ++ l) = length a + np_first v l.
Proof.
  intros H. induction a as [|x a IH]; intros Ha; [reflexivity|]. cbn [app np_first length]. rewrite (Ha x (or_introl eq_refl)), eqb_nan, (viable_nan v H).
  cbn [andb orb plus]. f_equal. apply IH. intros y Hy. apply Ha. right. exact Hy.
Qed.

Lemma rank_number i c : i < n -> c < m -> np_objective_rank V i c = k + objective_rank U i c.
Proof using m_some U_rows.
  intros Hi Hc. unfold np_objective_rank, objective_rank. rewrite permutation_with_nans, map_app, entry_number by assumption.
  pose proof (number_viable i c Hi Hc) as Hv. rewrite np_first_skip; [|exact Hv|].
  - rewrite map_length, rev_length, seq_length, np_first_number by exact Hv. f_equal. f_equal. apply map_ext_in. intros j Hj.
    apply entry_number. apply in_perm in Hj. exact Hj.
  - intros x Hx. apply in_map_iff in Hx. destruct Hx as (j & <- & Hj). apply in_rev, in_seq in Hj. apply entry_nan. lia.
Qed.
Lemma rank_nan i c : n <= i < n + k -> c < m -> np_objective_rank V i c = 0.
Proof using m_some U_rows.
  intros Hi Hc. unfold np_objective_rank. rewrite permutation_with_nans, entry_nan by (try assumption; lia). destruct (rev (seq n k)) as [|j l] eqn:E.
  - apply (f_equal (@length nat)) in E. rewrite rev_length, seq_length in E. cbn in E. lia.
  - cbn [app map np_first]. rewrite (entry_nan j); [reflexivity|]. assert (Hj : In j (rev (seq n k))) by (rewrite E; left; reflexivity).
    apply in_rev, in_seq in Hj. lia.
Qed.
Lemma ranks_number i : i < n -> np_ranks_of mx V i = map (fun v => k + v) (ranks_of U m i).
Proof using m_some U_rows.
  intros Hi. unfold np_ranks_of, ranks_of. rewrite map_map. apply map_ext_in. intros c Hc. apply in_seq in Hc. apply rank_number; lia.
Qed.
Lemma ranks_nan i : n <= i < n + k -> np_ranks_of mx V i = repeat 0 m.
Proof using m_some U_rows.
  intros Hi. unfold np_ranks_of. rewrite <- (seq_length m 0) at 2. generalize (fun c (H : c < m) => rank_nan i c Hi H).
  assert (G : forall l, (forall c, In c l -> np_objective_rank V i c = 0) -> map (np_objective_rank V i) l = repeat 0 (length l)).
  { induction l as [|c l IH]; intros H; [reflexivity|]. cbn. rewrite (H c (or_introl eq_refl)), IH; [reflexivity|]. intros d Hd. apply H. right. exact Hd. }
  intros H. apply G. intros c Hc. apply in_seq in Hc. apply H. lia.
Qed.

Lemma existsb_eqb j l : existsb (Nat.eqb j) l = true <-> In j l.
Proof.
  rewrite existsb_exists. split.
  - intros (x & Hx & E). apply Nat.eqb_eq in E. subst. exact Hx.
  - intros H. exists j. split; [exact H|apply Nat.eqb_refl].
Qed.
Lemma argmax_ranks f : argmax (map f (seq 0 m)) < m.
Proof using m_some.
  pose proof (argmax_lt m [] m_some (map f (seq 0 m))) as H. rewrite map_length, seq_length in H. apply H. generalize m_some; clear; destruct (length mx); [lia|discriminate].
Qed.

Lemma turn_nan ranks t i : n <= i < n + k -> (forall j, j < n + k -> ranks j = t) -> forall j, j < n + k -> np_turn mx V ranks i j = S t.
Proof using m_some U_rows.
  intros Hi Hr j Hj. unfold np_turn. pose proof (argmax_ranks (np_objective_rank V i)) as Hc. fold (np_ranks_of mx V i) in Hc.
  rewrite (rank_nan i _ Hi Hc). cbn [skipn].
  replace (existsb _ _) with true; [rewrite Hr; [reflexivity|exact Hj]|]. symmetry. apply existsb_eqb. apply filter_In. split.
  - apply filter_In. split; [|rewrite !Hr by lia; apply Nat.eqb_refl]. rewrite permutation_with_nans by exact Hc.
    apply in_or_app. destruct (Nat.lt_ge_cases j n) as [L|L]; [right; apply in_perm; exact L|left; apply -> in_rev; apply in_seq; lia].
  - rewrite (ranks_nan i Hi). generalize (np_ranks_of mx V j). generalize (length mx). clear. induction n as [|n IH]; intros l; [reflexivity|].
    destruct l as [|x l]; [reflexivity|]. cbn [repeat combine forallb fst snd]. cbn. apply IH.
Qed.

Lemma skipn_plus {B} (a b : list B) q c : length a = q -> skipn (q + c) (a ++ b) = skipn c b.
Proof. intros <-. induction a; [reflexivity|exact IHa]. Qed.

Lemma turn_number ranks ranks' i : i < n -> (forall j, j < n -> ranks' j = k + ranks j) ->
  (forall j, j < n -> np_turn mx V ranks' i j = k + ros_turn U m ranks i j) /\ (forall j, n <= j -> np_turn mx V ranks' i j = ranks' j).
Proof using m_some U_rows.
  intros Hi Hr. pose proof (argmax_ranks (objective_rank U i)) as Hc. fold (ranks_of U m i) in Hc.
  set (hits := filter (fun j => forallb (fun p => fst p <=? snd p) (combine (ranks_of U m i) (ranks_of U m j)))
                 (filter (fun j => ranks i =? ranks j) (skipn (objective_rank U i (argmax (ranks_of U m i))) (permutation_of U (argmax (ranks_of U m i)))))).
  assert (E : filter (fun j => forallb (fun p => fst p <=? snd p) (combine (np_ranks_of mx V i) (np_ranks_of mx V j)))
                (filter (fun j => ranks' i =? ranks' j) (skipn (np_objective_rank V i (argmax (np_ranks_of mx V i))) (np_permutation V (argmax (np_ranks_of mx V i))))) = hits).
  { unfold hits. rewrite (ranks_number i Hi), argmax_shift, (rank_number i _ Hi Hc), (permutation_with_nans _ Hc).
    assert (L : length (rev (seq n k)) = k) by (rewrite rev_length; apply seq_length). rewrite (skipn_plus _ _ k) by exact L.
    assert (B : forall j, In j (skipn (objective_rank U i (argmax (ranks_of U m i))) (permutation_of U (argmax (ranks_of U m i)))) -> j < n).
    { intros j Hj. apply (in_perm (argmax (ranks_of U m i))). rewrite <- (firstn_skipn (objective_rank U i (argmax (ranks_of U m i)))). apply in_or_app. right. exact Hj. }
    revert B. generalize (skipn (objective_rank U i (argmax (ranks_of U m i))) (permutation_of U (argmax (ranks_of U m i)))).
    induction l as [|j l IH]; intros B; [reflexivity|]. pose proof (B j (or_introl eq_refl)) as Hj. cbn [filter].
    rewrite (Hr i Hi), (Hr j Hj). replace (k + ranks i =? k + ranks j) with (ranks i =? ranks j);
      [|destruct (Nat.eqb_spec (ranks i) (ranks j)), (Nat.eqb_spec (k + ranks i) (k + ranks j)); lia].
    assert (IH' := IH (fun x Hx => B x (or_intror Hx))). rewrite (Hr i Hi) in IH'. destruct (ranks i =? ranks j); [|exact IH']. cbn [filter]. rewrite (ranks_number j Hj), le_shift.
    destruct (forallb _ _); [f_equal|]; exact IH'. }
  assert (B : forall j, In j hits -> j < n).
  { intros j Hj. unfold hits in Hj. apply filter_In in Hj. destruct Hj as [Hj _]. apply filter_In in Hj. destruct Hj as [Hj _].
    apply (in_perm (argmax (ranks_of U m i))). rewrite <- (firstn_skipn (objective_rank U i (argmax (ranks_of U m i)))). apply in_or_app. right. exact Hj. }
  unfold np_turn. cbv zeta. rewrite E. split.
  - intros j Hj. unfold ros_turn. cbv zeta. fold hits. rewrite (Hr j Hj). destruct (existsb (Nat.eqb j) hits); lia.
  - intros j Hj. destruct (existsb (Nat.eqb j) hits) eqn:X; [|reflexivity]. apply existsb_eqb, B in X. lia.
Qed.

Lemma nan_turns : forall t, t <= k -> forall j, j < n + k ->
  fold_left (np_turn mx V) (firstn t (rev (seq n k))) (fun _ => 0) j = t.
Proof using m_some U_rows.
  induction t as [|t IH]; intros Ht j Hj; [reflexivity|].
  assert (L : length (rev (seq n k)) = k) by (rewrite rev_length; apply seq_length).
  assert (X : firstn (S t) (rev (seq n k)) = firstn t (rev (seq n k)) ++ [nth t (rev (seq n k)) 0]).
  { rewrite <- (firstn_skipn t (rev (seq n k))) at 1. rewrite firstn_app, firstn_length, L.
    replace (S t - Nat.min t k) with 1 by lia. rewrite firstn_firstn. replace (Nat.min (S t) t) with t by lia. f_equal.
    rewrite <- (firstn_skipn t (rev (seq n k))) at 2. rewrite app_nth2; rewrite firstn_length, L; [|lia]. replace (t - Nat.min t k) with 0 by lia.
    destruct (skipn t (rev (seq n k))) eqn:S; [|reflexivity]. apply (f_equal (@length nat)) in S. rewrite skipn_length, L in S. cbn in S. lia. }
  rewrite X, fold_left_app. cbn [fold_left]. apply turn_nan; [|exact (fun j' Hj' => IH ltac:(lia) j' Hj')|exact Hj].
  assert (I : In (nth t (rev (seq n k)) 0) (rev (seq n k))) by (apply nth_In; lia). apply in_rev, in_seq in I. lia.
Qed.
Lemma number_turns l : (forall i, In i l -> i < n) -> forall ranks ranks', (forall j, j < n -> ranks' j = k + ranks j) ->
  (forall j, j < n -> fold_left (np_turn mx V) l ranks' j = k + fold_left (ros_turn U m) l ranks j) /\
  (forall j, n <= j -> fold_left (np_turn mx V) l ranks' j = ranks' j).
Proof using m_some U_rows.
  induction l as [|i l IH]; intros Hl ranks ranks' Hr; [split; [exact Hr|reflexivity]|]. cbn [fold_left].
  destruct (turn_number ranks ranks' i (Hl i (or_introl eq_refl)) Hr) as [T1 T2].
  destruct (IH (fun x Hx => Hl x (or_intror Hx)) (ros_turn U m ranks i) (np_turn mx V ranks' i) T1) as [I1 I2].
  split; [exact I1|]. intros j Hj. rewrite I2 by exact Hj. apply T2, Hj.
Qed.
Lemma ranks_with_nans : (forall j, j < n -> np_ranks mx V j = k + ros_ranks U m j) /\ (forall j, n <= j < n + k -> np_ranks mx V j = k).
Proof using m_some U_rows.
  unfold np_ranks, ros_ranks. rewrite permutation_with_nans, fold_left_app by exact m_some.
  assert (L : firstn k (rev (seq n k)) = rev (seq n k)) by (apply firstn_all2; rewrite rev_length, seq_length; lia).
  pose proof (nan_turns k (le_n k)) as N. rewrite L in N.
  destruct (number_turns (permutation_of U 0)) with (ranks := fun _ : nat => 0) (ranks' := fold_left (np_turn mx V) (rev (seq n k)) (fun _ => 0)) as [A B].
  - intros i Hi. apply in_perm in Hi. exact Hi.
  - intros j Hj. rewrite N by lia. lia.
  - split; [exact A|]. intros j Hj. rewrite B by lia. apply N. lia.
Qed.
End Sweep.

(** ** rank_ordinal_sort: the places of the individuals *)
Lemma index_of_app r l l' : (exists y, In y l /\ row_eqb r y = true) -> index_of r (l ++ l') = index_of r l.
Proof.
  induction l as [|x l IH]; intros (y & Hy & E); [destruct Hy|]. cbn [app index_of]. destruct (row_eqb r x) eqn:X; [reflexivity|]. f_equal. apply IH.
  destruct Hy as [->|Hy]; [congruence|]. exists y. auto.
Qed.

Lemma inverse_places (m : nat) (Q : list num -> nat -> Prop) V rows : 0 < m -> Forall (good_row m) rows -> forall next,
  (forall r, In r rows -> vrow m r -> Q r (index_of r V)) -> (forall i, next <= i < next + nans rows -> Q (repeat NNan m) i) ->
  Forall2 Q rows (np_inverse V next rows).
Proof.
  intros Hm. induction rows as [|r rows IH]; intros Hg next H1 H2; [constructor|]. cbn [np_inverse]. pose proof (Forall_inv Hg) as Hr.
  destruct (row_eqb r r) eqn:E.
  - constructor; [apply H1; [left; reflexivity|apply (good_row_test m Hm r Hr), E]|]. apply IH; [eapply Forall_inv_tail; exact Hg| |].
    + intros x Hx. apply H1. right. exact Hx.
    + intros i Hi. apply H2. unfold nans in *. cbn [filter]. rewrite E. exact Hi.
  - assert (N : nans (r :: rows) = S (nans rows)) by (unfold nans; cbn [filter]; rewrite E; reflexivity).
    apply (good_row_test m Hm r Hr) in E. subst r. constructor; [apply H2; lia|]. apply IH; [eapply Forall_inv_tail; exact Hg| |].
    + intros x Hx. apply H1. right. exact Hx.
    + intros i Hi. apply H2. lia.
Qed.

Lemma fold_places (rk : nat -> nat) (g : mo -> nat) l is : Forall2 (fun x i => rk i = g x) l is -> forall before,
  fold_left (fun rk' p => set_at rk' (o_id (fst p)) (rk (snd p))) (combine l is) before = fold_left (fun rk' x => set_at rk' (o_id x) (g x)) l before.
Proof. induction 1 as [|x i l is E H IH]; intros before; [reflexivity|]. cbn [combine fold_left fst snd]. rewrite E. apply IH. Qed.

Lemma places_of_rows (f : mo -> list num) (P : mo -> nat -> Prop) W l : forall is, incl l W ->
  Forall2 (fun r i => forall x, In x W -> f x = r -> P x i) (map f l) is -> Forall2 P l is.
Proof.
  induction l as [|x l IH]; intros is S G; cbn [map] in G; inversion G; subst; constructor.
  - apply H1; [apply S; left; reflexivity|reflexivity].
  - apply IH; [|exact H3]. intros z Hz. apply S. right. exact Hz.
Qed.

Definition plain_rows failed mx working := unique_rows (map (fun x => signed mx (o_fit x)) (successes failed working)).
Definition rank_with_failures failed mx working (x : mo) : nat :=
  let k := length (failures failed working) in
  let U := plain_rows failed mx working in
  if failed (o_id x) then k else k + ros_ranks U (length mx) (index_of (signed mx (o_fit x)) U).

Lemma robust_sort_value failed mx population parents before :
  let working := match parents with Some ps => population ++ ps | None => population end in
  mx <> [] -> working <> [] -> numeric_vectors mx (successes failed working) ->
  robust_rank_ordinal_sort failed mx population parents before =
    Ok (working, fold_left (fun rk x => set_at rk (o_id x) (rank_with_failures failed mx working x)) working before).
Proof.
  intros working Hmx Hne Hv. unfold robust_rank_ordinal_sort. fold working. destruct working as [|w0 ws] eqn:Ew; [congruence|]. rewrite <- Ew in *. clear w0 ws Ew.
  assert (m_some : 0 < length mx) by (destruct mx; [congruence|cbn; lia]).
  set (m := length mx) in *. set (all := map (row_of failed mx) working).
  assert (Hrow : forall x, In x working -> failed (o_id x) = false -> vrow m (signed mx (o_fit x))).
  { intros x Hx Fx. destruct (Hv x) as [A B]; [apply filter_In; rewrite Fx; auto|]. apply signed_vrow; assumption. }
  assert (Hgood : forall x, In x working -> good_row m (row_of failed mx x)).
  { intros x Hx. unfold row_of. destruct (failed (o_id x)) eqn:Fx; [right; reflexivity|left; apply Hrow; assumption]. }
  assert (Hall : Forall (good_row m) all).
  { apply Forall_forall. intros r Hr. apply in_map_iff in Hr. destruct Hr as (x & <- & Hx). apply Hgood, Hx. }
  assert (Etest : forall x, In x working -> row_eqb (row_of failed mx x) (row_of failed mx x) = negb (failed (o_id x))).
  { intros x Hx. unfold row_of. destruct (failed (o_id x)) eqn:Fx; [apply nanrow_self; exact m_some|]. apply (row_eqb_refl m), Hrow; assumption. }
  assert (Enum : numbers all = map (fun x => signed mx (o_fit x)) (successes failed working)).
  { unfold numbers, all, successes. clear -Etest. induction working as [|x l IH]; [reflexivity|]. cbn [map filter].
    rewrite (Etest x (or_introl eq_refl)), IH by (intros y Hy; apply Etest; right; exact Hy). unfold row_of at 1. destruct (failed (o_id x)); reflexivity. }
  assert (Enan : nans all = length (failures failed working)).
  { unfold nans, all, failures. clear -Etest. induction working as [|x l IH]; [reflexivity|]. cbn [map filter].
    rewrite (Etest x (or_introl eq_refl)), negb_involutive. specialize (IH (fun y Hy => Etest y (or_intror Hy))). destruct (failed (o_id x)); cbn [length]; rewrite IH; reflexivity. }
  set (k := length (failures failed working)) in *. set (U := unique_rows (numbers all)).
  assert (EV : np_unique_rows all = V mx U k) by (unfold V; rewrite (unique_with_nans m m_some all Hall), Enan; reflexivity). rewrite EV.
  destruct (unique_rows_facts m (numbers all) (number_rows m m_some all Hall)) as (U1 & _ & U3 & _). fold U in U1, U3.
  assert (Elen : length (filter (fun r => row_eqb r r) (V mx U k)) = length U).
  { unfold V. rewrite filter_app, (filter_all _ U), (filter_none _ (repeat _ k)).
    - rewrite app_nil_r. reflexivity.
    - intros r Hr. apply repeat_spec in Hr. subst r. apply nanrow_self, m_some.
    - intros r Hr. rewrite Forall_forall in U1. apply (row_eqb_refl m), U1, Hr. }
  rewrite Elen. destruct (ranks_with_nans mx U k m_some U1) as [R1 R2].
  set (g := fun x : mo => if failed (o_id x) then k else k + ros_ranks U m (index_of (signed mx (o_fit x)) U)).
  assert (Hix : forall x, In x working -> failed (o_id x) = false -> exists y, In y U /\ row_eqb (signed mx (o_fit x)) y = true).
  { intros x Hx Fx. apply U3. rewrite Enum. apply in_map_iff. exists x. split; [reflexivity|]. apply filter_In. rewrite Fx. auto. }
  assert (PL : Forall2 (fun x i => np_ranks mx (V mx U k) i = g x) working (np_inverse (V mx U k) (length U) all)).
  { assert (G : Forall2 (fun r i => forall x, In x working -> row_of failed mx x = r -> np_ranks mx (V mx U k) i = g x) all (np_inverse (V mx U k) (length U) all)).
    { apply (inverse_places m); [exact m_some|exact Hall| |].
      - intros r Hr Vr x Hx Ex. subst r. unfold g. destruct (failed (o_id x)) eqn:Fx.
        + unfold row_of in Vr. rewrite Fx in Vr. destruct Vr as [_ Vr]. fold m in Vr. destruct m as [|m']; [lia|]. apply Forall_inv in Vr. exfalso. apply Vr. reflexivity.
        + unfold row_of. rewrite Fx. unfold V at 2. rewrite index_of_app by (apply Hix; assumption). apply R1. apply index_of_spec, Hix; assumption.
      - intros i Hi x Hx Ex. rewrite Enan in Hi. rewrite R2 by lia. unfold g. destruct (failed (o_id x)) eqn:Fx; [reflexivity|].
        exfalso. pose proof (Etest x Hx) as T. rewrite Ex, (nanrow_self m m_some), Fx in T. discriminate. }
    exact (places_of_rows (row_of failed mx) (fun x i => np_ranks mx (V mx U k) i = g x) working working _ (incl_refl _) G). }
  rewrite (fold_places (np_ranks mx (V mx U k)) g working _ PL). unfold rank_with_failures, plain_rows. rewrite <- Enum. reflexivity.
Qed.

Theorem rank_ordinal_with_failures failed mx population parents before :
  let working := match parents with Some ps => population ++ ps | None => population end in
  mx <> [] -> working <> [] -> (forall x y, In x working -> In y working -> o_id x = o_id y -> x = y) ->
  numeric_vectors mx (successes failed working) ->
  exists rank fronts, robust_rank_ordinal_sort failed mx population parents before = Ok (working, rank) /\
    front_numbers (fun y x => dominates mx (o_fit y) (o_fit x)) (successes failed working) (fun x => fronts (o_id x)) /\
    (forall x, In x (failures failed working) -> rank (o_id x) = length (failures failed working)) /\
    (forall x, In x (successes failed working) -> rank (o_id x) = length (failures failed working) + fronts (o_id x)).
Proof.
  intros working Hmx Hne Hid Hv. pose proof (robust_sort_value failed mx population parents before Hmx Hne Hv) as RV. fold working in RV. rewrite RV. clear RV.
  set (g := rank_with_failures failed mx working). eexists.
  assert (Hg : forall x, In x working -> fold_left (fun rk x => set_at rk (o_id x) (g x)) working before (o_id x) = g x).
  { intros x Hx. apply fold_set_at; [|exact Hx]. intros a b Ha Hb E. rewrite (Hid a b Ha Hb E). reflexivity. }
  destruct (successes failed working) as [|s0 ss] eqn:Es.
  - exists (fun _ => 0). split; [reflexivity|]. split; [intros x []|]. split; [|intros x []].
    intros x Hx. apply filter_In in Hx. destruct Hx as [Hx Fx]. rewrite Hg by exact Hx. unfold g, rank_with_failures. rewrite Fx. reflexivity.
  - rewrite <- Es in *.
    assert (Hid' : forall x y, In x (successes failed working) -> In y (successes failed working) -> o_id x = o_id y -> x = y).
    { intros x y Hx Hy. apply filter_In in Hx. apply filter_In in Hy. apply Hid; tauto. }
    destruct (rank_ordinal_correct mx (successes failed working) None (fun _ => 0) Hmx) as (rk & RK & FN); [rewrite Es; discriminate|exact Hid'|exact Hv|].
    exists rk. split; [reflexivity|]. split; [exact FN|]. split.
    + intros x Hx. apply filter_In in Hx. destruct Hx as [Hx Fx]. rewrite Hg by exact Hx. unfold g, rank_with_failures. rewrite Fx. reflexivity.
    + intros x Hx. pose proof Hx as Hs. apply filter_In in Hx. destruct Hx as [Hx Fx]. apply negb_true_iff in Fx. rewrite Hg by exact Hx. unfold g, rank_with_failures. rewrite Fx. f_equal.
      unfold rank_ordinal_sort in RK. rewrite Es in RK at 1. injection RK as RK. rewrite <- RK. symmetry.
      apply (fold_set_at (fun x => ros_ranks (plain_rows failed mx working) (length mx) (index_of (signed mx (o_fit x)) (plain_rows failed mx working)))); [|exact Hs].
      intros a b Ha Hb E. rewrite (Hid' a b Ha Hb E). reflexivity.
Qed.

(** ** nobody failed *)
Lemma no_failures failed l : failures failed l = [] -> successes failed l = l /\ forall x, In x l -> failed (o_id x) = false.
Proof.
  unfold failures, successes. induction l as [|x l IH]; intros H; [split; [reflexivity|intros x []]|]. cbn [filter] in *.
  destruct (failed (o_id x)) eqn:F; [discriminate|]. destruct (IH H) as [A B]. cbn [negb]. rewrite A. split; [reflexivity|].
  intros y [<-|Hy]; [exact F|apply B, Hy].
Qed.
Lemma clean_sort failed mx population parents before :
  let working := match parents with Some ps => population ++ ps | None => population end in
  mx <> [] -> failures failed working = [] -> numeric_vectors mx working ->
  robust_rank_ordinal_sort failed mx population parents before = rank_ordinal_sort mx population parents before.
Proof.
  intros working Hmx Hf Hv. destruct (no_failures failed working Hf) as [Es Ef].
  destruct working as [|w ws] eqn:Ew.
  - unfold robust_rank_ordinal_sort, rank_ordinal_sort. unfold working in Ew. rewrite Ew. reflexivity.
  - rewrite <- Ew in *. pose proof (robust_sort_value failed mx population parents before Hmx) as RV. cbv zeta in RV. fold working in RV.
    rewrite RV; [|rewrite Ew; discriminate|rewrite Es; exact Hv]. unfold rank_ordinal_sort. fold working.
    transitivity (Ok (working, fold_left (fun rk x => set_at rk (o_id x) (ros_ranks (unique_rows (map (fun x => signed mx (o_fit x)) working)) (length mx)
      (index_of (signed mx (o_fit x)) (unique_rows (map (fun x => signed mx (o_fit x)) working))))) working before)); [|rewrite Ew; reflexivity].
    f_equal. f_equal. assert (G : forall l, incl l working -> forall b,
      fold_left (fun rk x => set_at rk (o_id x) (rank_with_failures failed mx working x)) l b =
      fold_left (fun rk x => set_at rk (o_id x) (ros_ranks (unique_rows (map (fun x => signed mx (o_fit x)) working)) (length mx)
      (index_of (signed mx (o_fit x)) (unique_rows (map (fun x => signed mx (o_fit x)) working))))) l b).
    { induction l as [|x l IH]; intros I b; [reflexivity|]. cbn [fold_left]. rewrite IH by (intros y Hy; apply I; right; exact Hy). f_equal. f_equal.
      unfold rank_with_failures, plain_rows. rewrite Hf, Es, (Ef x) by (apply I; left; reflexivity). reflexivity. }
    apply G, incl_refl.
Qed.

Section Crowd.
Variable failed : nat -> bool.
Variable mx : list bool.
Lemma clean_ranks rank pop : failures failed pop = [] -> forall rs d, robust_ranks failed mx rank pop rs d = Ok (crowd_ranks mx rank pop rs d).
Proof.
  intros H. destruct (no_failures failed pop H) as [_ Hf]. induction rs as [|r rs IH]; intros d; [reflexivity|]. cbn [robust_ranks crowd_ranks]. unfold robust_per_rank.
  replace (existsb (fun x => failed (o_id x)) (filter (fun x => rank (o_id x) =? r) pop)) with false.
  - cbn [bind]. destruct (per_rank_crowding_calc _ _ _) as [out d1]. rewrite IH. cbn [bind]. destruct (crowd_ranks _ _ _ _ _) as [outs d2]. reflexivity.
  - symmetry. destruct (existsb _ _) eqn:E; [|reflexivity]. apply existsb_exists in E. destruct E as (x & Hx & F). apply filter_In in Hx. rewrite (Hf x) in F by tauto. discriminate.
Qed.
Lemma clean_crowding rank pop d : failures failed pop = [] -> robust_crowding failed mx rank pop d = crowding_distance_calc mx rank pop d.
Proof. intros H. unfold robust_crowding, crowding_distance_calc. rewrite clean_ranks by exact H. destruct pop; reflexivity. Qed.

Lemma failing_ranks rank pop x : In x pop -> failed (o_id x) = true -> forall rs d, In (rank (o_id x)) rs -> robust_ranks failed mx rank pop rs d = Err TypeError.
Proof.
  intros Hx Fx. induction rs as [|r rs IH]; intros d Hr; [destruct Hr|]. cbn [robust_ranks]. unfold robust_per_rank.
  destruct (existsb (fun x => failed (o_id x)) (filter (fun x => rank (o_id x) =? r) pop)) eqn:E; [reflexivity|]. cbn [bind].
  destruct (per_rank_crowding_calc _ _ _) as [out d1]. rewrite IH; [reflexivity|]. destruct Hr as [->|Hr]; [|exact Hr].
  exfalso. assert (T : existsb (fun x => failed (o_id x)) (filter (fun y => rank (o_id y) =? rank (o_id x)) pop) = true).
  { apply existsb_exists. exists x. split; [|exact Fx]. apply filter_In. split; [exact Hx|apply Nat.eqb_refl]. }
  congruence.
Qed.
Lemma failing_crowding rank pop d x : In x pop -> failed (o_id x) = true -> robust_crowding failed mx rank pop d = Err TypeError.
Proof.
  intros Hx Fx. unfold robust_crowding. destruct pop as [|y pop]; [destruct Hx|]. apply (failing_ranks rank (y :: pop) x Hx Fx).
  destruct (first_ranks_spec rank (y :: pop) []) as (_ & _ & _ & H). destruct (H x Hx) as [[]|H']. exact H'.
Qed.

Theorem survival_fails rank_func parents offspring a rank x :
  rank_func parents offspring (at_rank a) = Ok (offspring ++ parents, rank) ->
  In x (offspring ++ parents) -> failed (o_id x) = true -> robust_survival failed mx rank_func parents offspring a = Err TypeError.
Proof. intros H Hx Fx. unfold robust_survival. rewrite H. cbn [bind]. rewrite (failing_crowding _ _ _ x Hx Fx). reflexivity. Qed.

Lemma clean_survival parents offspring a : mx <> [] -> failures failed (offspring ++ parents) = [] -> numeric_vectors mx (offspring ++ parents) ->
  robust_survival failed mx (by_rank_ordinal failed mx) parents offspring a = nsga2_survival mx parents offspring a.
Proof.
  intros Hmx Hf Hv. unfold robust_survival, by_rank_ordinal, nsga2_survival. rewrite (clean_sort failed mx offspring (Some parents)) by assumption.
  unfold rank_ordinal_sort. destruct (offspring ++ parents) as [|x l] eqn:E; [reflexivity|]. rewrite <- E in *. cbn [bind]. rewrite clean_crowding by exact Hf. reflexivity.
Qed.

Lemma robust_sort_ok parents offspring before : offspring ++ parents <> [] -> exists rank, by_rank_ordinal failed mx parents offspring before = Ok (offspring ++ parents, rank).
Proof. intros H. unfold by_rank_ordinal, robust_rank_ordinal_sort. destruct (offspring ++ parents) as [|x l]; [congruence|]. eexists. reflexivity. Qed.

Lemma filter_split l : (exists x, In x l /\ failed (o_id x) = true) \/ failures failed l = [].
Proof.
  destruct (failures failed l) as [|x r] eqn:E; [right; reflexivity|left]. exists x. apply (proj1 (filter_In (fun x => failed (o_id x)) x l)). unfold failures in E. rewrite E. left. reflexivity.
Qed.
End Crowd.

Section Runs.
Variable failed : nat -> bool.
Variable mx : list bool.
Variable pipeline : nat -> list mo -> list mo.
Variable stop : nat -> list mo -> bool.
Hypothesis mx_some : mx <> [].
Hypothesis vectors : forall g ps, numeric_vectors mx (successes failed (pipeline g ps)).

Theorem robust_run left : forall g parents a, numeric_vectors mx (successes failed parents) ->
  exists h current, journey pipeline g parents h current /\ length h <= left /\ Forall (fun s => failures failed (pool_of s) = []) h /\
    let plain := nsga2_loop mx pipeline stop left g parents a in
    let run := robust_loop failed mx (by_rank_ordinal failed mx) pipeline stop left g parents a in
    let offspring := pipeline (g + length h) current in
    (run = plain /\ (exists a', run = Ok (current, a')) /\ (length h = left \/ stop (g + length h) current = true)) \/
    (run = plain /\ run = Err IndexError /\ offspring ++ current = []) \/
    (run = Err TypeError /\ length h < left /\ stop (g + length h) current = false /\ failures failed (offspring ++ current) <> []).
Proof using mx_some vectors.
  induction left as [|left IH]; intros g parents a Hv.
  - exists [], parents. cbn [journey length nsga2_loop robust_loop]. split; [reflexivity|]. split; [lia|]. split; [constructor|]. cbv zeta. left. split; [reflexivity|].
    split; [eexists; reflexivity|left; reflexivity].
  - cbn [nsga2_loop robust_loop]. destruct (stop g parents) eqn:St.
    { exists [], parents. cbn [journey length]. split; [reflexivity|]. split; [lia|]. split; [constructor|]. cbv zeta. rewrite Nat.add_0_r. left. split; [reflexivity|].
      split; [eexists; reflexivity|right; exact St]. }
    destruct (filter_split failed (pipeline g parents ++ parents)) as [(x & Hx & Fx)|Hf].
    { exists [], parents. cbn [journey length]. split; [reflexivity|]. split; [lia|]. split; [constructor|]. cbv zeta. rewrite Nat.add_0_r. right. right.
      split; [|split; [lia|split; [exact St|]]].
      - destruct (robust_sort_ok failed mx parents (pipeline g parents) (at_rank a)) as [rank R]; [intros E; rewrite E in Hx; destruct Hx|].
        rewrite (survival_fails failed mx _ parents (pipeline g parents) a rank x R Hx Fx). reflexivity.
      - intros E. assert (I : In x (failures failed (pipeline g parents ++ parents))) by (apply filter_In; auto). rewrite E in I. destruct I. }
    assert (HV : numeric_vectors mx (pipeline g parents ++ parents)).
    { rewrite <- (proj1 (no_failures failed _ Hf)). unfold successes. rewrite filter_app. intros y Hy. apply in_app_or in Hy. destruct Hy as [Hy|Hy]; [apply (vectors g parents y Hy)|apply Hv, Hy]. }
    rewrite (clean_survival failed mx parents (pipeline g parents) a mx_some Hf HV).
    destruct (pipeline g parents ++ parents) as [|y0 l0] eqn:E0.
    { exists [], parents. cbn [journey length]. split; [reflexivity|]. split; [lia|]. split; [constructor|]. cbv zeta. rewrite Nat.add_0_r, E0. right. left.
      unfold nsga2_survival, rank_ordinal_sort. rewrite E0. cbn [bind]. auto. }
    rewrite <- E0 in *. assert (HNE : pipeline g parents ++ parents <> []) by (rewrite E0; discriminate). clear y0 l0 E0.
    destruct (nsga2_survival mx parents (pipeline g parents) a) as [[next a']|e] eqn:ES.
    + cbn [bind]. pose proof (survival_subset _ _ _ _ _ _ ES) as Inc.
      assert (Hv' : numeric_vectors mx (successes failed next)).
      { intros y Hy. apply filter_In in Hy. apply HV, Inc. tauto. }
      destruct (IH (S g) next a' Hv') as (h & current & J & L & C & R).
      exists ((parents, pipeline g parents) :: h), current. cbn [journey length]. split.
      { split; [reflexivity|]. split; [reflexivity|]. exists next. split; [exact Inc|exact J]. }
      split; [lia|]. split; [constructor; [exact Hf|exact C]|]. cbv zeta in R |- *.
      rewrite <- Nat.add_succ_comm. cbn [plus] in R. destruct R as [R|[R|R]].
      * left. destruct R as (R1 & R2 & R3). split; [exact R1|]. split; [exact R2|]. destruct R3 as [R3|R3]; [left; lia|right; exact R3].
      * right. left. exact R.
      * right. right. destruct R as (R1 & R2 & R3). split; [exact R1|]. split; [lia|exact R3].
    + exfalso. revert ES. unfold nsga2_survival, rank_ordinal_sort. destruct (pipeline g parents ++ parents) as [|z l] eqn:EP.
      * exact (fun _ => HNE eq_refl).
      * cbn [bind]. unfold crowding_distance_calc. cbn [bind]. destruct (crowd_ranks _ _ _ _ _) as [out d]. cbn [bind]. discriminate.
Qed.
End Runs.

(** ** any ranking of the whole pool *)
Section AnyRanking.
Variable failed : nat -> bool.
Variable mx : list bool.
Variable rank_func : list mo -> list mo -> (nat -> nat) -> result (list mo * (nat -> nat)).
Variable pipeline : nat -> list mo -> list mo.
Variable stop : nat -> list mo -> bool.
Hypothesis whole : forall ps os b pool rank, rank_func ps os b = Ok (pool, rank) -> pool = os ++ ps.

Lemma any_survival parents offspring a next a' : robust_survival failed mx rank_func parents offspring a = Ok (next, a') ->
  failures failed (offspring ++ parents) = [] /\ incl next (offspring ++ parents).
Proof using whole.
  intros H. unfold robust_survival in H. destruct (rank_func parents offspring (at_rank a)) as [[pool rank]|e] eqn:R; [|discriminate].
  pose proof (whole _ _ _ _ _ R). subst pool. cbn [bind] in H. destruct (filter_split failed (offspring ++ parents)) as [(x & Hx & Fx)|C].
  - rewrite (failing_crowding failed mx rank _ (at_dist a) x Hx Fx) in H. discriminate.
  - split; [exact C|]. rewrite clean_crowding in H by exact C. unfold crowding_distance_calc in H.
    pose proof (ranks_subset mx rank (offspring ++ parents) (first_ranks rank (offspring ++ parents) []) (at_dist a)) as S.
    destruct (offspring ++ parents) as [|x0 pool0] eqn:E; [discriminate|]. rewrite <- E in *. destruct (crowd_ranks _ _ _ _ _) as [out d]. cbn [bind fst] in *.
    injection H as <- _. unfold truncation_selection. intros y Hy. apply S. exact (Verif.Proofs.Algorithm.topk_in out _ _ _ _ _ y Hy).
Qed.

Theorem any_run left : forall g parents a final a', robust_loop failed mx rank_func pipeline stop left g parents a = Ok (final, a') ->
  exists h, journey pipeline g parents h final /\ length h <= left /\ (length h = left \/ stop (g + length h) final = true) /\
    Forall (fun s => failures failed (pool_of s) = []) h.
Proof using whole.
  induction left as [|left IH]; intros g parents a final a' H; cbn [robust_loop] in H.
  - injection H as <- _. exists []. cbn [journey length]. repeat split; auto.
  - destruct (stop g parents) eqn:St.
    + injection H as <- _. exists []. cbn [journey length]. rewrite Nat.add_0_r. split; [reflexivity|]. split; [lia|]. split; [right; exact St|constructor].
    + destruct (robust_survival failed mx rank_func parents (pipeline g parents) a) as [[next a1]|e] eqn:E; cbn [bind] in H; [|discriminate].
      destruct (any_survival _ _ _ _ _ E) as [C I]. destruct (IH _ _ _ _ _ H) as (h & J & L & S & F). exists ((parents, pipeline g parents) :: h). cbn [journey length].
      split; [split; [reflexivity|split; [reflexivity|exists next; split; [exact I|exact J]]]|]. split; [lia|]. split; [|constructor; [exact C|exact F]].
      rewrite <- Nat.add_succ_comm. destruct S as [S|S]; [left; lia|right; exact S].
Qed.
End AnyRanking.

Lemma ordinal_whole failed mx ps os b pool rank : by_rank_ordinal failed mx ps os b = Ok (pool, rank) -> pool = os ++ ps.
Proof. unfold by_rank_ordinal, robust_rank_ordinal_sort. destruct (os ++ ps) as [|x l]; [discriminate|]. intros H. injection H as <- _. reflexivity. Qed.
Lemma fast_whole failed mx ps os b pool rank : by_fast_sort failed mx ps os b = Ok (pool, rank) -> pool = os ++ ps.
Proof.
  unfold by_fast_sort, fast_nondominated_sort. destruct os as [|x os]; [discriminate|]. destruct (fns_first _ _ _ _ _) as [st front].
  destruct (fns_loop _ _ _ _) as [st'|]; [|discriminate]. intros H. injection H as <- _. reflexivity.
Qed.

Theorem runs_are_clean failed mx rank_func pipeline stop left g parents a final a' :
  rank_func = by_rank_ordinal failed mx \/ rank_func = by_fast_sort failed mx ->
  robust_loop failed mx rank_func pipeline stop left g parents a = Ok (final, a') ->
  exists h, journey pipeline g parents h final /\ length h <= left /\ (length h = left \/ stop (g + length h) final = true) /\
    Forall (fun s => failures failed (pool_of s) = []) h.
Proof.
  intros [-> | ->]; apply any_run; intros ps os b pool rank; [apply ordinal_whole|apply fast_whole].
Qed.

Theorem generation_fails failed mx rank_func parents offspring a :
  rank_func = by_rank_ordinal failed mx \/ rank_func = by_fast_sort failed mx ->
  mx <> [] -> offspring <> [] -> NoDup (map o_id (offspring ++ parents)) ->
  (forall x, In x (successes failed (offspring ++ parents)) -> length (o_fit x) = length mx) ->
  failures failed (offspring ++ parents) <> [] ->
  robust_survival failed mx rank_func parents offspring a = Err TypeError.
Proof.
  intros R Hmx Hne Hid Hv Hf. destruct (filter_split failed (offspring ++ parents)) as [(x & Hx & Fx)|C]; [|contradiction].
  assert (G : exists rank, rank_func parents offspring (at_rank a) = Ok (offspring ++ parents, rank)).
  { destruct R as [-> | ->].
    - apply robust_sort_ok. destruct offspring; [congruence|discriminate].
    - unfold by_fast_sort. destruct (fast_sort_with_failures failed mx Hmx offspring (Some parents) (mk_fns (fun _ => []) (fun _ => 0%Z) (at_rank a)) (S (length (offspring ++ parents)))) as (st & E & _).
      + exact Hne.
      + exact Hid.
      + intros y Hy Fy. apply Hv. apply filter_In. rewrite Fy. auto.
      + apply Nat.lt_succ_diag_r.
      + rewrite E. eexists. reflexivity. }
  destruct G as [rank G]. exact (survival_fails failed mx rank_func parents offspring a rank x G Hx Fx).
Qed.

(** ** when nobody failed, the two sorts agree; otherwise they may not *)
Theorem sorts_with_failures failed mx population parents before before' fuel :
  let working := match parents with Some ps => population ++ ps | None => population end in
  mx <> [] -> population <> [] -> NoDup (map o_id working) -> numeric_vectors mx (successes failed working) -> length working < fuel ->
  exists st rank,
    fast_nondominated_sort (robust_gt failed mx) fuel population parents before = Some (Ok (working, st)) /\
    robust_rank_ordinal_sort failed mx population parents before' = Ok (working, rank) /\
    forall x, In x working -> rank (o_id x) =
      if failed (o_id x) then length (failures failed working) else length (failures failed working) + f_rank st (o_id x).
Proof.
  intros working Hmx Hne Hid Hv Hf.
  destruct (fast_sort_with_failures failed mx Hmx population parents before fuel Hne Hid) as (st & E & _ & F).
  { intros x Hx Fx. apply Hv. apply filter_In. rewrite Fx. auto. } { exact Hf. }
  assert (Hw : working <> []) by (unfold working; destruct parents; [destruct population; [congruence|discriminate]|exact Hne]).
  destruct (rank_ordinal_with_failures failed mx population parents before' Hmx Hw) as (rank & fronts & E' & F' & R1 & R2).
  { intros x y Hx Hy. apply (same_id working Hid x y Hx Hy). } { exact Hv. }
  exists st, rank. split; [exact E|]. split; [exact E'|]. intros x Hx. destruct (failed (o_id x)) eqn:Fx.
  - apply R1. apply filter_In. auto.
  - assert (Hs : In x (successes failed working)) by (apply filter_In; rewrite Fx; auto). rewrite (R2 x Hs). f_equal.
    exact (front_numbers_unique _ _ _ _ F' F x Hs).
Qed.

(** ** witnesses *)
Lemma numeric_pts l : (forall x, In x l -> exists i a b, x = pt i a b) -> numeric_vectors [false; false] l.
Proof. intros H x Hx. destruct (H x Hx) as (i & a & b & ->). split; [reflexivity|]. repeat constructor; discriminate. Qed.

Lemma identical_ranks_false : exists failed mx population st rank x,
  mx <> [] /\ NoDup (map o_id population) /\ numeric_vectors mx (successes failed population) /\ In x population /\
  fast_nondominated_sort (robust_gt failed mx) (S (length population)) population None (mk_fns (fun _ => []) (fun _ => 0%Z) (fun _ => 0)) = Some (Ok (population, st)) /\
  robust_rank_ordinal_sort failed mx population None (fun _ => 0) = Ok (population, rank) /\
  f_rank st (o_id x) = 1 /\ rank (o_id x) = 2.
Proof.
  assert (N : NoDup (map o_id [pt 1 3 3; broken])) by (repeat constructor; cbn; intros H; repeat destruct H as [H|H]; try discriminate; destruct H).
  assert (V : numeric_vectors [false; false] (successes nine [pt 1 3 3; broken])).
  { apply numeric_pts. intros x [<-|[]]. repeat eexists. }
  destruct (sorts_with_failures nine [false; false] [pt 1 3 3; broken] None (mk_fns (fun _ => []) (fun _ => 0%Z) (fun _ => 0)) (fun _ => 0) 3) as (st & rank & E & E' & R);
    [discriminate|discriminate|exact N|exact V|cbn; lia|].
  exists nine, [false; false], [pt 1 3 3; broken], st, rank, (pt 1 3 3). split; [discriminate|]. split; [exact N|]. split; [exact V|]. split; [left; reflexivity|].
  split; [exact E|]. split; [exact E'|].
  assert (F : f_rank st 1 = 1).
  { destruct (fast_sort_with_failures nine [false; false] ltac:(discriminate) [pt 1 3 3; broken] None (mk_fns (fun _ => []) (fun _ => 0%Z) (fun _ => 0)) 3) as (st' & E2 & _ & F);
      [discriminate|exact N| |cbn; lia|].
    - intros x [<-|[<-|[]]] H; [reflexivity|discriminate].
    - rewrite E in E2. injection E2 as <-. destruct (F (pt 1 3 3)) as (_ & _ & [G|(y & [<-|[]] & D & _)]); [left; reflexivity|exact G|].
      destruct (dominates_asym _ _ _ D D). }
  split; [exact F|]. rewrite (R (pt 1 3 3)) by (left; reflexivity). cbn in *. rewrite F. reflexivity.
Qed.

Lemma robustness_false : exists failed mx pipeline parents a,
  mx <> [] /\ numeric_vectors mx (successes failed parents) /\ (forall g ps, numeric_vectors mx (successes failed (pipeline g ps))) /\
  (forall g ps, length (failures failed (pipeline g ps)) <= 1) /\ failures failed parents = [] /\
  robust_loop failed mx (by_rank_ordinal failed mx) pipeline (fun _ _ => false) 2 0 parents a = Err TypeError /\
  robust_loop failed mx (by_fast_sort failed mx) pipeline (fun _ _ => false) 2 0 parents a = Err TypeError.
Proof.
  exists nine, [false; false], breaking_pipeline, steady_parents, blank. split; [discriminate|]. split.
  { apply numeric_pts. intros x Hx. repeat destruct Hx as [<-|Hx]; try (repeat eexists; reflexivity). destruct Hx. }
  split. { intros [|g] ps; apply numeric_pts; intros x Hx; repeat destruct Hx as [<-|Hx]; try (repeat eexists; reflexivity); destruct Hx. }
  split. { intros [|g] ps; cbn; lia. }
  split; [reflexivity|]. split; vm_compute; reflexivity.
Qed.
