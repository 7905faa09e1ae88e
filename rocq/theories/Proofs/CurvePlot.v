(** Lemmas for Props/CurvePlot. *)
From Coq Require Import Ascii String Sorted Permutation Lia.
From Verif Require Import Model.Base Model.PyList Model.RealProblems Model.CsvProbe Model.Analysis Model.CurvePlot Spec.Problems Spec.Metrics Spec.CsvProbe Spec.Analysis Spec.CurvePlot Proofs.AnalysisTables.
Local Open Scope list_scope.

(** ** groupings are unique *)
Lemma sorted_keys_eq (l m : list (list Z)) : StronglySorted key_lt l -> StronglySorted key_lt m -> (forall k, In k l <-> In k m) -> l = m.
Proof.
  revert m. induction l as [|x l IH]; intros m Sl Sm E.
  - destruct m as [|y m]; [reflexivity|]. destruct (proj2 (E y) (or_introl eq_refl)).
  - destruct m as [|y m]; [destruct (proj1 (E x) (or_introl eq_refl))|].
    inversion Sl as [|? ? Sl1 Sl2]; subst. inversion Sm as [|? ? Sm1 Sm2]; subst. rewrite Forall_forall in Sl2, Sm2.
    assert (x = y) as <-.
    { destruct (proj1 (E x) (or_introl eq_refl)) as [H|H]; [congruence|]. destruct (proj2 (E y) (or_introl eq_refl)) as [H'|H']; [congruence|].
      exfalso. exact (key_lt_irrefl x (key_lt_trans _ _ _ (Sl2 y H') (Sm2 x H))). }
    f_equal. apply IH; [assumption|assumption|]. intros k. split; intros H.
    + destruct (proj1 (E k) (or_intror H)) as [<-|K]; [destruct (key_lt_irrefl x (Sl2 x H))|exact K].
    + destruct (proj2 (E k) (or_intror H)) as [<-|K]; [destruct (key_lt_irrefl x (Sm2 x H))|exact K].
Qed.
Lemma grouped_unique {R} (cells cells' : R -> list (option Z)) rows rows' gs gs' :
  rows = rows' -> (forall r, In r rows -> cells r = cells' r) -> grouped cells rows gs -> grouped cells' rows' gs' -> gs = gs'.
Proof.
  intros <- Hc (S & K & F) (S' & K' & F'). assert (E : map fst gs = map fst gs').
  { apply sorted_keys_eq; [assumption|assumption|]. intros k. rewrite K, K'. unfold has_key.
    split; intros (r & H1 & H2); exists r; (split; [exact H1|]); rewrite <- H2; [symmetry|]; apply Hc, H1. }
  clear S S' K K'. revert gs' E F'. induction gs as [|[k g] gs IH]; intros [|[k' g'] gs'] E F'; try discriminate; [reflexivity|].
  injection E as <- E. f_equal.
  - f_equal. destruct (F k g (or_introl eq_refl)) as (b & Hb & ->). destruct (F' k g' (or_introl eq_refl)) as (b' & Hb' & ->).
    apply filter_ext_in. intros r Hr. specialize (Hb r Hr). specialize (Hb' r Hr). unfold has_key in *. rewrite (Hc r Hr) in Hb.
    destruct (b r), (b' r); try reflexivity; exfalso; intuition discriminate.
  - apply IH; [intros k0 g0 H; apply F; right; exact H|exact E|intros k0 g0 H; apply F'; right; exact H].
Qed.

Lemma groupby_is {R} (cells : R -> list (option Z)) rows gs : grouped cells rows gs -> groupby cells rows = gs.
Proof. intros H. eapply grouped_unique; [reflexivity| |apply groupby_grouped|exact H]. reflexivity. Qed.

Lemma filter_filter {A} (f g : A -> bool) l : filter f (filter g l) = filter (fun x => g x && f x) l.
Proof. induction l as [|x l IH]; [reflexivity|]. cbn. destruct (g x); cbn; [destruct (f x); cbn|]; rewrite IH; reflexivity. Qed.

(** ** grouping twice *)
Lemma sorted_concat {A} (R : A -> A -> Prop) ls : Forall (StronglySorted R) ls ->
  StronglySorted (fun l m => forall x y, In x l -> In y m -> R x y) ls -> StronglySorted R (concat ls).
Proof.
  induction ls as [|l ls IH]; intros F S; cbn [concat]; [constructor|]. apply Forall_cons_iff in F as (F1 & F2).
  inversion S as [|? ? S1 S2]; subst. specialize (IH F2 S1). rewrite Forall_forall in S2.
  induction F1 as [|x l Fl IHl Fx]; cbn [app]; [exact IH|]. constructor.
  - apply IHl. + constructor; [exact S1|]. rewrite Forall_forall. intros m Hm x' y Hx Hy. apply (S2 m Hm); [right; exact Hx|exact Hy].
    + intros m Hm x' y Hx Hy. apply (S2 m Hm); [right; exact Hx|exact Hy].
  - rewrite Forall_forall in *. intros y Hy. apply in_app_or in Hy as [Hy|Hy]; [apply Fx, Hy|].
    apply in_concat in Hy as (m & Hm & Hy). apply (S2 m Hm); [left; reflexivity|exact Hy].
Qed.
Lemma key_lt_app a : forall b c d, length a = length b -> key_lt a b -> key_lt (a ++ c) (b ++ d).
Proof.
  induction a as [|x a IH]; intros b c d L H; inversion H; subst; try discriminate; cbn; [apply key_lt_head; assumption|].
  apply key_lt_tail. apply IH; [cbn in L; lia|assumption].
Qed.
Lemma key_lt_prefix a b c : key_lt b c -> key_lt (a ++ b) (a ++ c).
Proof. intros H. induction a; cbn; [exact H|apply key_lt_tail; assumption]. Qed.

Lemma sorted_map {A B} (R : A -> A -> Prop) (R' : B -> B -> Prop) (f : A -> B) l :
  (forall x y, In x l -> In y l -> R x y -> R' (f x) (f y)) -> StronglySorted R l -> StronglySorted R' (map f l).
Proof.
  intros H S. induction S as [|x l S IH F]; cbn; constructor.
  - apply IH. intros y z Hy Hz. apply H; right; assumption.
  - rewrite Forall_forall in *. intros y Hy. apply in_map_iff in Hy as (z & <- & Hz). apply H; [left; reflexivity|right; exact Hz|apply F, Hz].
Qed.

Definition nested {R} (c1 c2 : R -> list (option Z)) (rows : list R) : list (list Z * list R) :=
  concat (map (fun g => map (fun g' => (fst g ++ fst g', snd g')) (groupby c2 (snd g))) (groupby c1 rows)).

Lemma app_some (a b : list (option Z)) k : a ++ b = map Some k -> exists k1 k2, k = k1 ++ k2 /\ a = map Some k1 /\ b = map Some k2.
Proof.
  revert k. induction a as [|x a IH]; intros k H; cbn in H; [exists [], k; auto|]. destruct k as [|y k]; [discriminate|]. injection H as -> H.
  destruct (IH k H) as (k1 & k2 & -> & -> & ->). exists (y :: k1), k2. auto.
Qed.
Lemma app_same (a b c d : list Z) : length a = length c -> a ++ b = c ++ d -> a = c /\ b = d.
Proof. revert c. induction a as [|x a IH]; intros [|y c] L H; try discriminate; cbn in *; [auto|]. injection H as -> H. destruct (IH c) as (-> & ->); [lia|exact H|auto]. Qed.

Lemma nested_grouped {R} (c1 c2 : R -> list (option Z)) rows n : (forall r, In r rows -> length (c1 r) = n) ->
  grouped (fun r => c1 r ++ c2 r) rows (nested c1 c2 rows).
Proof.
  intros W. destruct (groupby_grouped c1 rows) as (S1 & K1 & _).
  assert (L : forall k, In k (map fst (groupby c1 rows)) -> length k = n).
  { intros k H. apply K1 in H as (r & H1 & H2). rewrite <- (W r H1), H2, map_length. reflexivity. }
  split; [|split].
  - unfold nested. rewrite concat_map, map_map. apply sorted_concat.
    + rewrite Forall_forall. intros l H. apply in_map_iff in H as ([k g] & <- & H). rewrite map_map. cbn [fst snd].
      destruct (groupby_grouped c2 g) as (S2 & _ & _). revert S2. generalize (groupby c2 g). intros gs S2.
      rewrite <- (map_map fst (fun k' => k ++ k') gs). eapply sorted_map; [|exact S2]. intros x y _ _. apply key_lt_prefix.
    + revert S1 L. generalize (groupby c1 rows). intros gs S1 L.
      assert (G : StronglySorted (fun g g' => length (fst g) = length (fst g') /\ key_lt (fst g) (fst g')) gs).
      { clear -S1 L. induction gs as [|g gs IH]; [constructor|]. cbn in S1, L. inversion S1 as [|? ? A B]; subst. constructor.
        - apply IH; [exact A|]. intros k Hk. apply L. right. exact Hk.
        - rewrite Forall_forall in *. intros g' H. split; [|apply B, in_map, H]. rewrite (L (fst g)), (L (fst g')); [reflexivity|right; apply in_map, H|left; reflexivity]. }
      clear S1 L. eapply sorted_map; [|exact G]. intros [k g] [k' g'] _ _ (Hl & Hk) x y Hx Hy. cbn [fst snd] in *.
      rewrite map_map in Hx, Hy. apply in_map_iff in Hx as (? & <- & _). apply in_map_iff in Hy as (? & <- & _). cbn [fst].
      apply key_lt_app; assumption.
  - intros k. unfold nested. rewrite concat_map, map_map. split.
    + intros H. apply in_concat in H as (l & Hl & Hk). apply in_map_iff in Hl as ([k1 g] & <- & Hg). rewrite map_map in Hk. cbn [fst snd] in Hk.
      apply in_map_iff in Hk as ([k2 g'] & <- & Hg'). cbn [fst]. assert (X : In k2 (map fst (groupby c2 g))) by (apply (in_map fst) in Hg'; exact Hg').
      destruct (groupby_grouped c2 g) as (_ & K2 & _). apply K2 in X as (r & H1 & H2). exists r. apply (group_rows _ _ _ _ _ Hg) in H1 as (H1 & H3).
      split; [exact H1|]. unfold has_key in *. rewrite H2, H3, map_app. reflexivity.
    + intros (r & H1 & H2). apply app_some in H2 as (k1 & k2 & -> & E1 & E2). destruct (groupby_has c1 rows k1 r H1 E1) as (g & Hg).
      assert (Hr : In r g) by (apply (group_rows _ _ _ _ _ Hg); auto). destruct (groupby_has c2 g k2 r Hr E2) as (g' & Hg').
      apply in_concat. eexists. split; [apply in_map_iff; exists (k1, g); split; [reflexivity|exact Hg]|]. rewrite map_map. apply in_map_iff.
      exists (k2, g'). split; [reflexivity|exact Hg'].
  - intros k g' H. unfold nested in H. apply in_concat in H as (l & Hl & Hk). apply in_map_iff in Hl as ([k1 g] & <- & Hg). cbn [fst snd] in Hk.
    apply in_map_iff in Hk as ([k2 g2] & [= <- <-] & Hg'). destruct (groupby_grouped c1 rows) as (_ & _ & F1). destruct (F1 k1 g Hg) as (b1 & Hb1 & ->).
    destruct (groupby_grouped c2 (filter b1 rows)) as (_ & _ & F2). destruct (F2 k2 g2 Hg') as (b2 & Hb2 & ->). rewrite filter_filter.
    eexists. split; [|reflexivity]. intros r Hr. rewrite andb_true_iff. unfold has_key. rewrite map_app. split.
    + intros (A & B). assert (I : In r (filter b1 rows)) by (apply filter_In; auto). apply (Hb1 r Hr) in A. apply (Hb2 r I) in B. unfold has_key in *. congruence.
    + intros E. rewrite <- map_app in E. apply app_some in E as (q1 & q2 & E & A & B).
      assert (Hq : length q1 = length k1).
      { transitivity n; [rewrite <- (W r Hr), A, map_length; reflexivity|]. symmetry. apply L. apply (in_map fst) in Hg. exact Hg. }
      symmetry in E. apply app_same in E as (<- & <-); [|exact Hq]. apply (Hb1 r Hr) in A. split; [exact A|]. apply Hb2; [apply filter_In; auto|exact B].
Qed.

(** ** enumerate and colours *)
Lemma nth_error_combine_seq {A} (l : list A) : forall a i, nth_error (combine (seq a (length l)) l) i = option_map (pair (a + i)) (nth_error l i).
Proof.
  induction l as [|x l IH]; intros a [|i]; cbn [length seq combine nth_error option_map]; try reflexivity; [rewrite Nat.add_0_r; reflexivity|].
  rewrite IH. replace (S a + i) with (a + S i) by lia. reflexivity.
Qed.
Lemma enumerate_nth {A} (l : list A) i : nth_error (enumerate l) i = option_map (pair i) (nth_error l i).
Proof. apply (nth_error_combine_seq l 0 i). Qed.
Lemma enumerate_snd {A B} (f : A -> B) (l : list A) : map (fun ig => f (snd ig)) (enumerate l) = map f l.
Proof. unfold enumerate. generalize 0. induction l as [|x l IH]; intros a; cbn; [reflexivity|]. rewrite IH. reflexivity. Qed.

Definition legend_for {A} (gs : list (list Z * A)) : legend := map (fun ig => (tab10 (fst ig), fst (snd ig))) (enumerate gs).
Lemma legend_keys {A} (gs : list (list Z * A)) : map snd (legend_for gs) = map fst gs.
Proof. unfold legend_for. rewrite map_map. cbn. apply enumerate_snd. Qed.
Lemma legend_nth {A} (gs : list (list Z * A)) i : nth_error (legend_for gs) i = option_map (fun g => (tab10 i, fst g)) (nth_error gs i).
Proof. unfold legend_for. rewrite nth_error_map, enumerate_nth. destruct (nth_error gs i); reflexivity. Qed.
Lemma legend_spec {A} (gs : list (list Z * A)) (counts : row -> Prop) df : StronglySorted key_lt (map fst gs) ->
  (forall e, In e (map fst gs) <-> exists r, In r df /\ counts r /\ has_key r_exps r e) -> legend_of counts df (legend_for gs).
Proof.
  intros S K. unfold legend_of. rewrite legend_keys. split; [exact S|]. split; [exact K|]. intros i c e H. rewrite legend_nth in H.
  destruct (nth_error gs i); [|discriminate]. injection H as <- _. unfold tab10. lia.
Qed.

Lemma metric_index_spec c cols : match metric_index c cols with
  | Some j => nth_error cols j = Some c
  | None => ~ In c cols end.
Proof.
  induction cols as [|d cols IH]; cbn [metric_index]; [intros []|]. unfold text_eqb. destruct (list_eq_dec ascii_dec d c) as [->|N]; [reflexivity|].
  destruct (metric_index c cols) as [j|]; [exact IH|]. intros [H|H]; [contradiction|exact (IH H)].
Qed.

Lemma Forall2_concat_map {A B C} (P : B -> C -> Prop) (f : A -> list B) (g : A -> list C) l :
  (forall x, In x l -> Forall2 P (f x) (g x)) -> Forall2 P (concat (map f l)) (concat (map g l)).
Proof. induction l as [|x l IH]; intros H; cbn; [constructor|]. apply Forall2_app; [apply H; left; reflexivity|apply IH; intros; apply H; right; assumption]. Qed.

Definition lines_for (j : nat) (df : list row) : list line :=
  concat (map (fun ig => map (fun rg => mk_line (tab10 (fst ig)) (map (fun r => (r_time r, metric j r)) (snd rg)))
                (groupby (fun r => [r_run r]) (snd (snd ig)))) (enumerate (groupby r_exps df))).

Lemma lines_points j df : map l_points (lines_for j df) = map (fun g => shown j (snd g)) (nested r_exps (fun r => [r_run r]) df).
Proof.
  unfold lines_for, nested. rewrite !concat_map, !map_map. f_equal.
  rewrite <- (enumerate_snd (fun g => map (fun g0 : list Z * list row => shown j (snd g0)) (map (fun g' : list Z * list row => (fst g ++ fst g', snd g')) (groupby (fun r => [r_run r]) (snd g))))).
  apply map_ext. intros [i [k g]]. cbn [fst snd]. rewrite !map_map. reflexivity.
Qed.

Lemma plot_curves_spec metric_cols metric_col df : same_width df ->
  (plot_curves metric_cols metric_col df = Err AssertionError <-> ~ In metric_col metric_cols) /\
  (In metric_col metric_cols -> exists j lines lg gs, nth_error metric_cols j = Some metric_col /\
     plot_curves metric_cols metric_col df = Ok (lines, lg) /\ legend_of (fun _ => True) df lg /\
     grouped (fun r => r_exps r ++ [r_run r]) df gs /\
     Forall2 (fun g l => l_points l = shown j (snd g) /\ In (l_color l, removelast (fst g)) lg) gs lines).
Proof.
  intros (n & W). unfold plot_curves. pose proof (metric_index_spec metric_col metric_cols) as M.
  destruct (metric_index metric_col metric_cols) as [j|].
  - split; [split; [discriminate|intros H; exfalso; apply H; eapply nth_error_In, M]|]. intros _.
    exists j, (lines_for j df), (legend_for (groupby r_exps df)), (nested r_exps (fun r => [r_run r]) df).
    split; [exact M|]. split; [reflexivity|]. destruct (groupby_grouped r_exps df) as (S & K & _).
    split; [apply legend_spec; [exact S|]; intros e; rewrite K; split; [intros (r & A & B); eauto|intros (r & A & _ & B); eauto]|].
    split; [eapply nested_grouped, W|].
    unfold nested, lines_for. rewrite <- (enumerate_snd (fun g => map (fun g' : list Z * list row => (fst g ++ fst g', snd g')) (groupby (fun r => [r_run r]) (snd g)))).
    apply Forall2_concat_map. intros [i [k g]] H. cbn [fst snd]. apply In_nth_error in H as (i' & H). rewrite enumerate_nth in H.
    destruct (nth_error (groupby r_exps df) i') as [g0|] eqn:E; [|discriminate]. injection H as <- ->.
    assert (Hl : In (tab10 i', k) (legend_for (groupby r_exps df))).
    { apply nth_error_In with i'. rewrite legend_nth, E. reflexivity. }
    destruct (groupby_grouped (fun r => [r_run r]) g) as (_ & K2 & _).
    assert (Hk2 : forall k2 g2, In (k2, g2) (groupby (fun r => [r_run r]) g) -> exists z, k2 = [z]).
    { intros k2 g2 H2. apply (in_map fst) in H2. apply K2 in H2 as (r & _ & H2). unfold has_key in H2. cbn in H2. destruct k2 as [|z [|]]; try discriminate. eauto. }
    revert Hk2. generalize (groupby (fun r => [r_run r]) g). intros gs Hk2. induction gs as [|[k2 g2] gs IH]; constructor.
    + cbn [fst snd l_points l_color]. split; [reflexivity|]. destruct (Hk2 k2 g2 (or_introl eq_refl)) as (z & ->). rewrite removelast_last. exact Hl.
    + apply IH. intros. eapply Hk2. right. eassumption.
  - split; [tauto|]. intros H. contradiction.
Qed.

Lemma legend_colors lg counts df : legend_of counts df lg -> length lg <= 10 -> NoDup (map fst lg).
Proof.
  intros (_ & _ & C) L. assert (E : map fst lg = seq 0 (length lg)); [|rewrite E; apply seq_NoDup].
  assert (X : forall a (l : legend), (forall i c e, nth_error l i = Some (c, e) -> c = a + i) -> map fst l = seq a (length l)).
  { intros a l. revert a. induction l as [|[c e] l IH]; intros a H; [reflexivity|]. cbn. f_equal; [rewrite (H 0 c e eq_refl); lia|].
    apply IH. intros i c' e' Hi. rewrite (H (S i) c' e' Hi). lia. }
  apply X. intros i c e H. assert (i < length lg) by (apply nth_error_Some; congruence). destruct (C i c e H) as (H1 & _). cbn. apply H1. lia.
Qed.

(** ** averages *)
Lemma tl_key (cells : list (option Z)) t e : Some t :: cells = map Some (t :: e) <-> cells = map Some e.
Proof. cbn. split; [intros [= ->]; reflexivity|intros ->; reflexivity]. Qed.

Section Averages.
Variables (m : nat) (df : list row).
Let tbl := avg_curves m df.
Lemma tbl_keys : map fst tbl = map fst (groupby (fun r => r_time r :: r_exps r) df).
Proof. unfold tbl, avg_curves. rewrite map_map. reflexivity. Qed.
Lemma tbl_row r : In r tbl -> exists t e g, fst r = t :: e /\ In (t :: e, g) (groupby (fun r => r_time r :: r_exps r) df) /\
  forall j, j < m -> avg_stats j r = (agg_mean (map (metric j) g), agg_var (map (metric j) g)).
Proof.
  unfold tbl, avg_curves. intros H. apply in_map_iff in H as ([k g] & <- & H). cbn [fst snd].
  destruct (groupby_grouped (fun r => r_time r :: r_exps r) df) as (_ & K & _). assert (Hk := H). apply (in_map fst) in Hk. apply K in Hk as (x & _ & Hx).
  unfold has_key in Hx. cbn in Hx. destruct k as [|t e]; [discriminate|]. exists t, e, g. split; [reflexivity|]. split; [exact H|].
  intros j Hj. unfold avg_stats. cbn [snd]. erewrite nth_error_nth; [reflexivity|]. rewrite nth_error_map, nth_error_nth' with (d := 0) by (rewrite seq_length; exact Hj).
  rewrite seq_nth by exact Hj. reflexivity.
Qed.
Lemma tbl_has t e r : In r df -> r_time r = Some t -> has_key r_exps r e -> exists o, In o tbl /\ fst o = t :: e.
Proof.
  intros H1 H2 H3. assert (K : In (t :: e) (map fst tbl)).
  { rewrite tbl_keys. apply groupby_grouped. exists r. split; [exact H1|]. unfold has_key in *. rewrite H2, H3. reflexivity. }
  apply in_map_iff in K as (o & E & K). eauto.
Qed.
Lemma tbl_from o t e : In o tbl -> fst o = t :: e -> exists r, In r df /\ r_time r = Some t /\ has_key r_exps r e.
Proof.
  intros H E. apply (in_map fst) in H. rewrite tbl_keys, E in H. apply groupby_grouped in H as (r & H1 & H2). exists r. split; [exact H1|].
  unfold has_key in *. cbn in H2. injection H2 as -> ->. auto.
Qed.

Lemma avg_line_of j bars c k g : j < m -> In (k, g) (groupby (fun r => map Some (tl (fst r))) tbl) ->
  average_line j df k bars (mk_avg_line c (map (fun r => (avg_time r, fst (avg_stats j r))) g)
    (if bars then Some (map (fun r => snd (avg_stats j r)) g) else None)).
Proof.
  intros Hj Hg. pose proof (groupby_grouped (fun r : list Z * list (option Q * option Q) => map Some (tl (fst r))) tbl) as (_ & _ & F).
  destruct (F k g Hg) as (b & Hb & E).
  assert (Hin : forall r, In r g <-> In r tbl /\ tl (fst r) = k).
  { intros r. rewrite (group_rows _ _ _ _ r Hg). unfold has_key. split; intros (A & B); (split; [exact A|]); [|rewrite B; reflexivity].
    revert B. generalize (tl (fst r)) k. induction l as [|x l IH]; intros [|y q] B; try discriminate; [reflexivity|]. injection B as -> B. f_equal. apply IH, B. }
  assert (S : StronglySorted key_lt (map fst g)).
  { rewrite E. assert (S0 : StronglySorted key_lt (map fst tbl)) by (rewrite tbl_keys; apply groupby_grouped).
    clear -S0. induction tbl as [|r l IH]; [constructor|]. cbn in S0. inversion S0 as [|? ? S1 S2]; subst. cbn. destruct (b r); [|apply IH, S1].
    cbn. constructor; [apply IH, S1|]. rewrite Forall_forall in *. intros x Hx. apply S2. apply in_map_iff in Hx as (y & <- & Hy). apply filter_In in Hy as (Hy & _). apply in_map, Hy. }
  assert (T : forall r, In r g -> exists t, fst r = t :: k /\ avg_time r = Some t).
  { intros r Hr. apply Hin in Hr as (Hr & Ht). destruct (tbl_row r Hr) as (t & e & g0 & Er & _). exists t. rewrite Er in Ht. cbn in Ht. subst e.
    split; [exact Er|]. unfold avg_time. rewrite Er. reflexivity. }
  exists (map (fun r => hd 0%Z (fst r)) g), (map (avg_stats j) g). split; [|split; [|split; [|split]]].
  - clear -S T. induction g as [|r g IH]; [constructor|]. cbn in S |- *. inversion S as [|? ? S1 S2]; subst. constructor; [apply IH; [exact S1|intros; apply T; right; assumption]|].
    rewrite Forall_forall in *. intros t Ht. apply in_map_iff in Ht as (r' & <- & Hr'). destruct (T r (or_introl eq_refl)) as (t1 & E1 & _).
    destruct (T r' (or_intror Hr')) as (t2 & E2 & _). specialize (S2 (fst r') (in_map fst _ _ Hr')). rewrite E1, E2 in *. cbn. inversion S2; subst; [assumption|].
    exfalso. eapply key_lt_irrefl. eassumption.
  - intros t. split.
    + intros H. apply in_map_iff in H as (r & <- & Hr). destruct (T r Hr) as (t & Et & _). rewrite Et. cbn [hd]. apply Hin in Hr as (Hr & _). eapply tbl_from; eassumption.
    + intros (r & H1 & H2 & H3). destruct (tbl_has t k r H1 H2 H3) as (o & Ho & Eo). apply in_map_iff. exists o. rewrite Eo. split; [reflexivity|]. apply Hin. rewrite Eo. auto.
  - clear S E F Hb. induction g as [|r g IH]; cbn [map]; constructor.
    + destruct (T r (or_introl eq_refl)) as (t & Et & _). rewrite Et. cbn [hd]. destruct (proj1 (Hin r) (or_introl eq_refl)) as (Hr & _).
      destruct (tbl_row r Hr) as (t' & e & g0 & Er & Hg0 & Hs). rewrite Et in Er. injection Er as <- <-. exists g0. split.
      * destruct (groupby_grouped (fun r => r_time r :: r_exps r) df) as (_ & _ & F). destruct (F _ _ Hg0) as (b' & Hb' & ->). exists b'. split; [|reflexivity].
        intros x Hx. rewrite (Hb' x Hx). unfold has_key. cbn. split; [intros [= -> ->]; auto|intros (-> & ->); reflexivity].
      * rewrite (Hs j Hj). apply agg_spec.
    + clear IH. assert (T' : forall r, In r g -> In r tbl /\ tl (fst r) = k /\ exists t, fst r = t :: k).
      { intros x Hx. destruct (proj1 (Hin x) (or_intror Hx)) as (A & B). split; [exact A|]. split; [exact B|]. destruct (T x (or_intror Hx)) as (t & Et & _). eauto. }
      clear -T' Hj. induction g as [|x g IH]; cbn [map]; constructor; [|apply IH; intros; apply T'; right; assumption].
      destruct (T' x (or_introl eq_refl)) as (Hr & _ & t & Et). rewrite Et. cbn [hd].
      destruct (tbl_row x Hr) as (t' & e & g0 & Er & Hg0 & Hs). rewrite Et in Er. injection Er as <- <-. exists g0. split.
      * destruct (groupby_grouped (fun r => r_time r :: r_exps r) df) as (_ & _ & F). destruct (F _ _ Hg0) as (b' & Hb' & ->). exists b'. split; [|reflexivity].
        intros y Hy. rewrite (Hb' y Hy). unfold has_key. cbn. split; [intros [= -> ->]; auto|intros (-> & ->); reflexivity].
      * rewrite (Hs j Hj). apply agg_spec.
  - cbn [al_points]. rewrite !map_map. clear -T. induction g as [|r g IH]; [reflexivity|]. cbn. destruct (T r (or_introl eq_refl)) as (t & -> & ->). cbn. f_equal. apply IH. intros. apply T. right. assumption.
  - cbn [al_errors]. rewrite !map_map. reflexivity.
Qed.
End Averages.

Lemma same_some (a b : list Z) : map Some a = map Some b -> a = b.
Proof. revert b. induction a as [|x a IH]; intros [|y b] B; try discriminate; [reflexivity|]. injection B as -> B. f_equal. apply IH, B. Qed.

Lemma avg_groups_keys m df e : In e (map fst (groupby (fun r => map Some (tl (fst r))) (avg_curves m df))) <->
  exists r, In r df /\ r_time r <> None /\ has_key r_exps r e.
Proof.
  destruct (groupby_grouped (fun r : list Z * list (option Q * option Q) => map Some (tl (fst r))) (avg_curves m df)) as (_ & K & _). rewrite K. split.
  - intros (o & H1 & H2). destruct (tbl_row _ _ o H1) as (t & e' & g & E & _). unfold has_key in H2. rewrite E in H2. cbn [tl] in H2. apply same_some in H2 as ->.
    destruct (tbl_from m df o t e H1 E) as (r & A & B & C). exists r. split; [exact A|]. split; [congruence|exact C].
  - intros (r & H1 & H2 & H3). destruct (r_time r) as [t|] eqn:E; [|congruence]. destruct (tbl_has m df t e r H1 E H3) as (o & A & B). exists o. split; [exact A|].
    unfold has_key. rewrite B. reflexivity.
Qed.

Lemma plot_avg_curves_spec metric_cols metric_col bars df :
  (plot_avg_curves metric_cols metric_col bars df = Err AssertionError <-> ~ In metric_col metric_cols) /\
  (In metric_col metric_cols -> exists j lines lg, nth_error metric_cols j = Some metric_col /\
     plot_avg_curves metric_cols metric_col bars df = Ok (lines, lg) /\ legend_of (fun r => r_time r <> None) df lg /\
     Forall2 (fun ce l => al_color l = fst ce /\ average_line j df (snd ce) bars l) lg lines).
Proof.
  unfold plot_avg_curves. pose proof (metric_index_spec metric_col metric_cols) as M. destruct (metric_index metric_col metric_cols) as [j|].
  - split; [split; [discriminate|intros H; exfalso; apply H; eapply nth_error_In, M]|]. intros _. exists j. eexists. eexists. split; [exact M|].
    assert (Hj : j < length metric_cols) by (apply nth_error_Some; congruence). split; [reflexivity|].
    set (gs := groupby (fun r => map Some (tl (fst r))) (avg_curves (length metric_cols) df)). split.
    + apply (legend_spec gs); [apply groupby_grouped|]. intros e. apply avg_groups_keys.
    + assert (G : forall k g, In (k, g) gs -> forall c, average_line j df k bars (mk_avg_line c (map (fun r => (avg_time r, fst (avg_stats j r))) g)
        (if bars then Some (map (fun r => snd (avg_stats j r)) g) else None))) by (intros k g H c; eapply avg_line_of; eassumption).
      clearbody gs. clear -G. unfold enumerate. generalize 0. induction gs as [|[k g] gs IH]; intros a; cbn; constructor.
      * cbn. split; [reflexivity|]. apply G. left. reflexivity.
      * apply IH. intros. apply G. right. assumption.
  - split; [tauto|]. intros H. contradiction.
Qed.

(** ** boxes *)
Lemma Forall2_filter {A B} (P : A -> B -> Prop) (f : A -> bool) (g : B -> bool) l m :
  (forall x y, P x y -> f x = g y) -> Forall2 P l m -> Forall2 P (filter f l) (filter g m).
Proof. intros H F. induction F as [|x y l m Hxy F IH]; cbn; [constructor|]. rewrite (H x y Hxy). destruct (g y); [constructor; assumption|exact IH]. Qed.
Lemma Forall2_in_r {A B} (P : A -> B -> Prop) l m y : Forall2 P l m -> In y m -> exists x, In x l /\ P x y.
Proof. intros F. induction F as [|a b l m H F IH]; [intros []|]; intros [<-|H']; [exists a; cbn; auto|]. destruct (IH H') as (x & A1 & A2). exists x. cbn. auto. Qed.
Lemma Forall2_in_l {A B} (P : A -> B -> Prop) l m x : Forall2 P l m -> In x l -> exists y, In y m /\ P x y.
Proof. intros F. induction F as [|a b l m H F IH]; [intros []|]; intros [<-|H']; [exists b; cbn; auto|]. destruct (IH H') as (y & A1 & A2). exists y. cbn. auto. Qed.

(** the groups of one experiment are the groups of its rows *)
Lemma groups_of_experiment df e (b : row -> bool) : (forall r, In r df -> (b r = true <-> has_key r_exps r e)) ->
  map (fun g => ([hd 0%Z (fst g)], snd g)) (filter (fun g => key_eqb (tl (fst g)) e) (groupby (fun r => r_run r :: r_exps r) df)) =
  groupby (fun r => [r_run r]) (filter b df).
Proof.
  intros Hb. symmetry. apply groupby_is. destruct (groupby_grouped (fun r => r_run r :: r_exps r) df) as (S & K & F).
  assert (T : forall k g, In (k, g) (groupby (fun r => r_run r :: r_exps r) df) -> exists z q, k = z :: q).
  { intros k g H. apply (in_map fst) in H. apply K in H as (r & _ & H). unfold has_key in H. destruct k; [discriminate|eauto]. }
  split; [|split].
  - rewrite map_map. cbn [fst]. clear F K. induction (groupby (fun r => r_run r :: r_exps r) df) as [|[k g] gs IH]; [constructor|].
    cbn in S. inversion S as [|? ? S1 S2]; subst. cbn [filter fst]. specialize (IH S1 (fun k g H => T k g (or_intror H))).
    destruct (key_eqb (tl k) e) eqn:E; [|exact IH]. cbn [map fst]. constructor; [exact IH|]. rewrite Forall_forall in *. intros x Hx.
    apply in_map_iff in Hx as ([k' g'] & <- & Hx). apply filter_In in Hx as (Hx & E'). cbn [fst] in *. specialize (S2 k' (in_map fst _ _ Hx)).
    destruct (T k g (or_introl eq_refl)) as (z & q & ->). destruct (T k' g' (or_intror Hx)) as (z' & q' & ->). cbn [tl hd] in *.
    apply key_eqb_spec in E, E'. subst. inversion S2; subst; [constructor; assumption|]. exfalso. eapply key_lt_irrefl. eassumption.
  - intros k. rewrite map_map. cbn [fst]. split.
    + intros H. apply in_map_iff in H as ([k0 g0] & <- & H). apply filter_In in H as (H & E). cbn [fst] in *. assert (H' := H). apply (in_map fst) in H'. apply K in H' as (r & H1 & H2).
      destruct (T k0 g0 H) as (z & q & ->). cbn [tl hd] in *. apply key_eqb_spec in E. subst q. unfold has_key in H2. cbn in H2. injection H2 as E1 E2. exists r.
      split; [apply filter_In; split; [exact H1|apply (Hb r H1); exact E2]|]. unfold has_key. rewrite E1. reflexivity.
    + intros (r & H1 & H2). apply filter_In in H1 as (H1 & H3). apply (Hb r H1) in H3. unfold has_key in H2, H3. destruct k as [|z [|]]; try discriminate. injection H2 as H2.
      destruct (groupby_has (fun r => r_run r :: r_exps r) df (z :: e) r H1) as (g & Hg); [unfold has_key; rewrite H2, H3; reflexivity|].
      apply in_map_iff. exists (z :: e, g). split; [reflexivity|]. apply filter_In. split; [exact Hg|]. apply key_eqb_spec. reflexivity.
  - intros k g H. apply in_map_iff in H as ([k0 g0] & [= <- <-] & H). apply filter_In in H as (H & E). cbn [fst snd] in *. destruct (T k0 g0 H) as (z & q & ->). cbn [tl hd] in *.
    apply key_eqb_spec in E. subst q. destruct (F _ _ H) as (b' & Hb' & ->). exists b'. split.
    + intros r Hr. apply filter_In in Hr as (Hr & B). rewrite (Hb' r Hr). apply (Hb r Hr) in B. unfold has_key in *. cbn. rewrite B. split; [intros [= ->]; reflexivity|intros [= ->]; reflexivity].
    + rewrite filter_filter. apply filter_ext_in. intros r Hr. destruct (b' r) eqn:E'; [|rewrite andb_false_r; reflexivity].
      apply (Hb' r Hr) in E'. unfold has_key in E'. cbn in E'. injection E' as _ E'. assert (B : b r = true) by (apply (Hb r Hr); exact E'). rewrite B. reflexivity.
Qed.

Lemma boxes_spec measure j df boxes : plot_scalars_bar measure j df = Ok boxes ->
  StronglySorted key_lt (map fst boxes) /\
  (forall e, In e (map fst boxes) <-> exists r, In r df /\ r_run r <> None /\ has_key r_exps r e) /\
  (forall e vs, In (e, vs) boxes -> box_of measure j df e vs).
Proof.
  unfold plot_scalars_bar. destruct (scalar_spec measure j df) as (gs0 & G0 & H). cbv zeta in H.
  assert (E0 : groupby (fun r => r_run r :: r_exps r) df = gs0) by (apply groupby_is, G0). subst gs0.
  destruct (scalar_metrics_per_run measure j df) as [tbl|e]; [|discriminate]. cbn [bind]. intros [= <-].
  rewrite map_map. cbn [fst]. change (map (fun x : list Z * list (list Z * option Q) => fst x)) with (map (@fst (list Z) (list (list Z * option Q)))).
  destruct (groupby_grouped (fun s : list Z * option Q => map Some (tl (fst s))) tbl) as (S & K & F). split; [exact S|]. split.
  - intros e. rewrite K. destruct G0 as (_ & K0 & _). split.
    + intros (s & H1 & H2). destruct (Forall2_in_r _ _ _ _ H H1) as ([k g] & H3 & E & _). cbn [fst] in E. apply (in_map fst) in H3. apply K0 in H3 as (r & R1 & R2). cbn [fst] in R2.
      exists r. split; [exact R1|]. unfold has_key in *. destruct k as [|z q]; [discriminate|]. cbn in R2. injection R2 as R2 R3. split; [congruence|].
      rewrite E in H2. cbn [tl] in H2. apply same_some in H2. subst q. exact R3.
    + intros (r & R1 & R2 & R3). destruct (r_run r) as [z|] eqn:Ez; [|congruence].
      destruct (groupby_has (fun r => r_run r :: r_exps r) df (z :: e) r R1) as (g & Hg); [unfold has_key in *; rewrite Ez, R3; reflexivity|].
      destruct (Forall2_in_l _ _ _ _ H Hg) as (s & Hs & E & _). exists s. split; [exact Hs|]. unfold has_key. rewrite E. reflexivity.
  - intros e vs Hv. apply in_map_iff in Hv as ([k g] & [= -> <-] & Hg). destruct (F _ _ Hg) as (b & Hb & ->).
    set (be := fun r => match whole_key (r_exps r) with Some k' => key_eqb k' e | None => false end).
    assert (Hbe : forall r, In r df -> (be r = true <-> has_key r_exps r e)).
    { intros r _. unfold be, has_key. rewrite <- whole_key_spec. destruct (whole_key (r_exps r)) as [k'|]; [rewrite key_eqb_spec; split; [intros ->; reflexivity|intros [= ->]; reflexivity]|split; discriminate]. }
    exists (filter be df), (groupby (fun r => [r_run r]) (filter be df)), (map snd (filter b tbl)).
    split; [exists be; split; [exact Hbe|reflexivity]|]. split; [apply groupby_grouped|]. split; [|apply present_known].
    rewrite <- (groups_of_experiment df e be Hbe).
    assert (H2 : Forall2 (fun g s => fst s = fst g /\ measure (map (fun r => (r_time r, metric j r)) (snd g)) = Ok (snd s))
      (filter (fun g => key_eqb (tl (fst g)) e) (groupby (fun r => r_run r :: r_exps r) df)) (filter (fun s => key_eqb (tl (fst s)) e) tbl)).
    { apply Forall2_filter; [intros x y (E & _); rewrite E; reflexivity|exact H]. }
    replace (filter b tbl) with (filter (fun s => key_eqb (tl (fst s)) e) tbl).
    2:{ apply filter_ext_in. intros s Hs. specialize (Hb s Hs). unfold has_key in Hb.
        destruct (b s); [apply key_eqb_spec, same_some, Hb; reflexivity|]. destruct (key_eqb (tl (fst s)) e) eqn:X; [|reflexivity].
        apply key_eqb_spec in X. rewrite X in Hb. discriminate (proj2 Hb eq_refl). }
    clear -H2. induction H2 as [|x y l m (_ & Hxy) F IH]; cbn [map]; constructor; [exact Hxy|exact IH].
Qed.

(** ** leaving out rows *)
Definition nonempty {K A} (g : K * list A) : bool := match snd g with [] => false | _ => true end.
Lemma groupby_filter {R} (cells : R -> list (option Z)) (b : R -> bool) rows :
  groupby cells (filter b rows) = filter nonempty (map (fun g => (fst g, filter b (snd g))) (groupby cells rows)).
Proof.
  apply groupby_is. destruct (groupby_grouped cells rows) as (S & K & F). split; [|split].
  - clear K F. induction (groupby cells rows) as [|[k g] gs IH]; [constructor|]. cbn in S. inversion S as [|? ? S1 S2]; subst. cbn [map filter fst snd].
    unfold nonempty at 1. cbn [snd]. destruct (filter b g); [apply IH, S1|]. cbn [map fst]. constructor; [apply IH, S1|]. rewrite Forall_forall in *.
    intros x Hx. apply in_map_iff in Hx as ([k' g'] & <- & Hx). apply filter_In in Hx as (Hx & _). apply in_map_iff in Hx as ([k2 g2] & [= <- <-] & Hx). apply S2. apply (in_map fst) in Hx. exact Hx.
  - intros k. split.
    + intros H. apply in_map_iff in H as ([k' g'] & <- & Hx). apply filter_In in Hx as (Hx & N). apply in_map_iff in Hx as ([k2 g2] & [= <- <-] & Hx).
      unfold nonempty in N. cbn [snd fst] in *. destruct (filter b g2) as [|r l] eqn:E; [discriminate|]. assert (Hr : In r (filter b g2)) by (rewrite E; left; reflexivity).
      apply filter_In in Hr as (Hr & Br). apply (group_rows _ _ _ _ _ Hx) in Hr as (R1 & R2). exists r. split; [apply filter_In; auto|exact R2].
    + intros (r & H1 & H2). apply filter_In in H1 as (H1 & B). destruct (groupby_has cells rows k r H1 H2) as (g & Hg). apply in_map_iff. exists (k, filter b g). split; [reflexivity|].
      apply filter_In. split; [apply in_map_iff; exists (k, g); auto|]. unfold nonempty. cbn [snd]. assert (I : In r (filter b g)) by (apply filter_In; split; [apply (group_rows _ _ _ _ _ Hg); auto|exact B]).
      destruct (filter b g); [destruct I|reflexivity].
  - intros k g H. apply filter_In in H as (H & _). apply in_map_iff in H as ([k2 g2] & [= <- <-] & H). destruct (F _ _ H) as (b2 & Hb2 & E). cbn [snd] in *. subst g2. exists b2. split.
    + intros r Hr. apply filter_In in Hr as (Hr & _). apply (Hb2 r Hr).
    + rewrite !filter_filter. apply filter_ext. intros r. apply andb_comm.
Qed.

Lemma on_step_spec m t : m <> 0%Z -> (on_step m t = true <-> exists q, t = Some (q * m)%Z).
Proof.
  intros Hm. destruct t as [z|]; cbn; [|split; [discriminate|intros (q & H); discriminate]].
  rewrite (proj2 (Z.eqb_neq m 0) Hm). cbn. rewrite Z.eqb_eq, Z.mod_divide by exact Hm. split; [intros (q & ->); eauto|intros (q & [= ->]); exists q; reflexivity].
Qed.
Lemma on_step_one m t : m <> 0%Z -> on_step 1 t && on_step m t = on_step m t.
Proof. intros Hm. destruct t as [z|]; [|reflexivity]. cbn. rewrite Z.mod_1_r. reflexivity. Qed.

Lemma thin_filter m (l : list sample) : m <> 0%Z -> thinned m l (filter (fun s => on_step m (fst s)) l).
Proof. intros Hm. exists (fun s => on_step m (fst s)). split; [|reflexivity]. intros s. apply on_step_spec, Hm. Qed.
Lemma filter_map_comm {A B} (f : A -> B) (p : B -> bool) l : filter p (map f l) = map f (filter (fun x => p (f x)) l).
Proof. induction l as [|x l IH]; [reflexivity|]. cbn. destruct (p (f x)); cbn; rewrite IH; reflexivity. Qed.
Lemma thinned_groups {R} m (f : R -> sample) (b : R -> bool) (gs : list (list Z * list R)) : m <> 0%Z ->
  (forall r, b r = on_step m (fst (f r))) ->
  thinned_lines m (map (fun g => map f (snd g)) gs) (map (fun g => map f (snd g)) (filter nonempty (map (fun g => (fst g, filter b (snd g))) gs))).
Proof.
  intros Hm H. induction gs as [|[k g] gs IH]; cbn [map filter fst snd]; [constructor|]. unfold nonempty at 1. cbn [snd].
  assert (X : thinned m (map f g) (map f (filter b g))).
  { replace (map f (filter b g)) with (filter (fun s => on_step m (fst s)) (map f g)); [apply thin_filter, Hm|].
    rewrite filter_map_comm. f_equal. apply filter_ext. intros r. symmetry. apply H. }
  destruct (filter b g) as [|r l] eqn:E.
  - apply tl_gone; [exact X|exact IH].
  - cbn [map snd]. apply tl_kept; [exact X|discriminate|exact IH].
Qed.

Lemma avg_filter M df (bt : option Z -> bool) :
  avg_curves M (filter (fun r => bt (r_time r)) df) = filter (fun o => bt (avg_time o)) (avg_curves M df).
Proof.
  unfold avg_curves. rewrite filter_map_comm. unfold avg_time. cbn [fst]. f_equal. rewrite groupby_filter.
  assert (T : forall k g, In (k, g) (groupby (fun r => r_time r :: r_exps r) df) -> g <> [] /\ forall r, In r g -> r_time r = hd_error k).
  { intros k g H. split; [eapply group_nonempty, H|]. intros r Hr. apply (group_rows _ _ _ _ _ H) in Hr as (_ & Hr). unfold has_key in Hr. destruct k as [|t k]; [discriminate|]. injection Hr as -> _. reflexivity. }
  induction (groupby (fun r => r_time r :: r_exps r) df) as [|[k g] gs IH]; [reflexivity|]. cbn [map filter fst snd].
  assert (X : filter (fun r => bt (r_time r)) g = if bt (hd_error k) then g else []).
  { destruct (T k g (or_introl eq_refl)) as (_ & Hg). clear -Hg. induction g as [|r g IH]; [destruct (bt _); reflexivity|]. cbn [filter].
    rewrite (Hg r (or_introl eq_refl)), IH by (intros; apply Hg; right; assumption). destruct (bt (hd_error k)); reflexivity. }
  unfold nonempty at 1. cbn [snd]. rewrite X. rewrite IH by (intros k' g' H; apply T; right; exact H).
  destruct (bt (hd_error k)); [|reflexivity]. destruct (T k g (or_introl eq_refl)) as (N & _). destruct g; [congruence|reflexivity].
Qed.

(** ** the command all *)
Lemma has_text c cols : existsb (text_eqb c) cols = true <-> In c cols.
Proof.
  rewrite existsb_exists. unfold text_eqb. split.
  - intros (x & H & E). destruct (list_eq_dec ascii_dec c x) as [->|]; [exact H|discriminate].
  - intros H. exists c. split; [exact H|]. destruct (list_eq_dec ascii_dec c c); congruence.
Qed.
Lemma has_no_text c cols : existsb (text_eqb c) cols = false <-> ~ In c cols.
Proof. rewrite <- has_text. destruct (existsb (text_eqb c) cols); intuition congruence. Qed.
Lemma metric_index_in c cols : In c cols -> exists j, metric_index c cols = Some j /\ nth_error cols j = Some c.
Proof. intros H. pose proof (metric_index_spec c cols) as M. destruct (metric_index c cols) as [j|]; [eauto|contradiction]. Qed.

Lemma incl_dec_text (a b : list text) : {incl a b} + {~ incl a b}.
Proof.
  destruct (forallb (fun c => existsb (text_eqb c) b) a) eqn:E; [left|right].
  - intros c Hc. rewrite forallb_forall in E. apply has_text, E, Hc.
  - intros H. assert (X : forallb (fun c => existsb (text_eqb c) b) a = true); [|congruence]. apply forallb_forall. intros c Hc. apply has_text, H, Hc.
Qed.
Lemma needed_incl tc cols : incl (needed tc) cols <->
  In tc cols /\ In (lit "job") cols /\ incl default_metric_cols cols /\ incl experiment_cols cols.
Proof.
  unfold needed, default_metric_cols, experiment_cols, incl. cbn [In]. split.
  - intros H. split; [apply H; auto|]. split; [apply H; auto|]. split; intros c Hc; apply H; tauto.
  - intros (A & B & C & D) c [<-|[<-|[<-|H]]]; [exact A|exact B|apply D; auto|apply C, H].
Qed.
Lemma analyzer_spec tc f :
  (incl (needed tc) (f_columns f) -> analyzer tc f = Ok (map (project tc default_metric_cols experiment_cols default_run_col) (f_rows f))) /\
  (~ incl (needed tc) (f_columns f) -> analyzer tc f = Err AssertionError).
Proof.
  unfold analyzer. destruct (init_spec (f_columns f) tc default_metric_cols experiment_cols default_run_col) as (C & I).
  rewrite needed_incl. split.
  - intros (A & B & D & E). rewrite (proj2 I); [reflexivity|]. split; [discriminate|]. split; [discriminate|]. auto.
  - intros N. destruct C as [C|C]; [|rewrite C; reflexivity]. exfalso. apply N. apply I in C. tauto.
Qed.
Lemma project_width tc ms rc rows : same_width (map (project tc ms experiment_cols rc) rows).
Proof. exists 1. intros r H. apply in_map_iff in H as (x & <- & _). reflexivity. Qed.

Definition stepped (m : Z) (tc : text) (f : frame) : list row :=
  filter (fun r => on_step m (r_time r)) (map (project tc default_metric_cols experiment_cols default_run_col) (f_rows f)).

Lemma all_command_ok srt mc err m tc f : sorts_by_time srt -> incl (needed tc) (f_columns f) -> In mc default_metric_cols ->
  exists j p1 p2 p3, nth_error default_metric_cols j = Some mc /\ all_command srt mc err m tc f = Ok (p1, p2, p3) /\
    plot_curves default_metric_cols mc (stepped m tc f) = Ok p1 /\ plot_avg_curves default_metric_cols mc err (stepped m tc f) = Ok p2 /\
    plot_scalars_bar (auc srt) j (stepped m tc f) = Ok p3.
Proof.
  intros Hs Hn Hm. unfold all_command. assert (Ht : existsb (text_eqb tc) (f_columns f) = true) by (apply has_text, Hn; left; reflexivity). rewrite Ht. cbv zeta.
  destruct (analyzer_spec tc (mk_frame (f_columns f) (filter (fun r => on_step m (as_key r tc)) (f_rows f)))) as (A & _). cbn [f_columns f_rows] in A.
  rewrite (A Hn). cbn [bind]. destruct (metric_index_in mc default_metric_cols Hm) as (j & Ej & Nj).
  assert (E : map (project tc default_metric_cols experiment_cols default_run_col) (filter (fun r => on_step m (as_key r tc)) (f_rows f)) = stepped m tc f).
  { unfold stepped. rewrite filter_map_comm. reflexivity. }
  rewrite E. destruct (auc_tables srt j (stepped m tc f) Hs) as (tbl & Et). exists j.
  unfold plot_curves, plot_avg_curves, plot_scalars_bar. rewrite Ej, Et. cbn [bind]. do 3 eexists.
  split; [exact Nj|]. split; [reflexivity|]. split; [reflexivity|]. split; reflexivity.
Qed.

Lemma all_command_fails srt mc err m tc f : sorts_by_time srt ->
  (all_command srt mc err m tc f = Err KeyError <-> ~ In tc (f_columns f)) /\
  (all_command srt mc err m tc f = Err AssertionError <-> In tc (f_columns f) /\ ~ (incl (needed tc) (f_columns f) /\ In mc default_metric_cols)) /\
  ((exists o, all_command srt mc err m tc f = Ok o) <-> incl (needed tc) (f_columns f) /\ In mc default_metric_cols).
Proof.
  intros Hs. destruct (existsb (text_eqb tc) (f_columns f)) eqn:Ht.
  2:{ assert (Ht' := Ht). apply has_no_text in Ht'. unfold all_command. rewrite Ht. split; [tauto|]. split; [split; [discriminate|tauto]|].
      split; [intros (o & X); discriminate|]. intros (X & _). exfalso. apply Ht', X. left. reflexivity. }
  assert (Ht' := Ht). apply has_text in Ht'.
  assert (C : (incl (needed tc) (f_columns f) /\ In mc default_metric_cols) \/ ~ (incl (needed tc) (f_columns f) /\ In mc default_metric_cols)).
  { destruct (incl_dec_text (needed tc) (f_columns f)); [|right; tauto]. destruct (in_dec (list_eq_dec ascii_dec) mc default_metric_cols); tauto. }
  destruct C as [(C1 & C2)|C].
  - destruct (all_command_ok srt mc err m tc f Hs C1 C2) as (j & p1 & p2 & p3 & _ & E & _). rewrite E.
    split; [split; [discriminate|contradiction]|]. split; [split; [discriminate|tauto]|]. split; [auto|eauto].
  - assert (E : all_command srt mc err m tc f = Err AssertionError).
    { unfold all_command. rewrite Ht. cbv zeta. destruct (analyzer_spec tc (mk_frame (f_columns f) (filter (fun r => on_step m (as_key r tc)) (f_rows f)))) as (A & B). cbn [f_columns] in A, B.
      destruct (incl_dec_text (needed tc) (f_columns f)) as [H|H]; [|rewrite (B H); reflexivity]. rewrite (A H). cbn [bind].
      unfold plot_curves. pose proof (metric_index_spec mc default_metric_cols) as M. destruct (metric_index mc default_metric_cols); [|reflexivity].
      exfalso. apply C. split; [exact H|eapply nth_error_In, M]. }
    rewrite E. split; [split; [discriminate|contradiction]|]. split; [tauto|]. split; [intros (o & X); discriminate|contradiction].
Qed.

Lemma legend_unique counts counts' df lg lg' : legend_of counts df lg -> legend_of counts' df lg' ->
  (forall r, In r df -> (counts r <-> counts' r)) -> lg = lg'.
Proof.
  intros (S0 & K & C) (S' & K' & C') H. assert (E : map snd lg = map snd lg').
  { apply sorted_keys_eq; [assumption|assumption|]. intros e. rewrite K, K'. split; intros (r & A & B & D); exists r; (split; [exact A|]); (split; [apply (H r A); exact B|exact D]). }
  assert (G : forall n (l l' : legend), map snd l = map snd l' ->
    (forall i c e, nth_error l i = Some (c, e) -> c = Nat.min (n + i) 9) -> (forall i c e, nth_error l' i = Some (c, e) -> c = Nat.min (n + i) 9) -> l = l').
  { intros n l. revert n. induction l as [|[c e] l IH]; intros n [|[c' e'] l'] X A B; try discriminate; [reflexivity|]. injection X as <- X. f_equal.
    - rewrite (A 0 c e eq_refl), (B 0 c' e eq_refl). reflexivity.
    - apply (IH (S n)); [exact X| |]; intros i c0 e0 Hi; [rewrite (A (S i) c0 e0 Hi)|rewrite (B (S i) c0 e0 Hi)]; f_equal; lia. }
  apply (G 0); [exact E| |]; intros i c e Hi; [destruct (C i c e Hi) as (X & Y)|destruct (C' i c e Hi) as (X & Y)]; cbn; destruct (Nat.lt_ge_cases i 10); [rewrite X by assumption|rewrite Y by assumption|rewrite X by assumption|rewrite Y by assumption]; lia.
Qed.

Lemma all_command_legends srt mc err m tc f p1 p2 p3 : sorts_by_time srt ->
  all_command srt mc err m tc f = Ok (p1, p2, p3) -> snd p1 = snd p2.
Proof.
  intros Hs H. destruct (proj1 (proj2 (proj2 (all_command_fails srt mc err m tc f Hs))) (ex_intro _ _ H)) as (Hn & Hm).
  destruct (all_command_ok srt mc err m tc f Hs Hn Hm) as (j & q1 & q2 & q3 & _ & E & P1 & P2 & _). rewrite E in H. injection H as -> -> ->.
  assert (W : same_width (stepped m tc f)).
  { exists 1. intros r Hr. unfold stepped in Hr. apply filter_In in Hr as (Hr & _). apply in_map_iff in Hr as (x & <- & _). reflexivity. }
  destruct (plot_curves_spec default_metric_cols mc (stepped m tc f) W) as (_ & A). destruct (A Hm) as (j1 & l1 & g1 & gs & _ & A1 & A2 & _).
  destruct (plot_avg_curves_spec default_metric_cols mc err (stepped m tc f)) as (_ & B). destruct (B Hm) as (j2 & l2 & g2 & _ & B1 & B2 & _).
  rewrite P1 in A1. injection A1 as ->. rewrite P2 in B1. injection B1 as ->. cbn [snd]. eapply legend_unique; [exact A2|exact B2|].
  intros r Hr. split; [|auto]. intros _ X. unfold stepped in Hr. apply filter_In in Hr as (_ & Hr). rewrite X in Hr. discriminate.
Qed.

Lemma all_command_thinned srt mc err m tc f p1 p2 p3 : sorts_by_time srt -> m <> 0%Z ->
  all_command srt mc err 1 tc f = Ok (p1, p2, p3) ->
  exists q1 q2 q3, all_command srt mc err m tc f = Ok (q1, q2, q3) /\
    thinned_lines m (map l_points (fst p1)) (map l_points (fst q1)) /\
    thinned_lines m (map al_points (fst p2)) (map al_points (fst q2)).
Proof.
  intros Hs Hm0 H. destruct (proj1 (proj2 (proj2 (all_command_fails srt mc err 1 tc f Hs))) (ex_intro _ _ H)) as (Hn & Hm).
  destruct (all_command_ok srt mc err 1 tc f Hs Hn Hm) as (j & r1 & r2 & r3 & Nj & E & P1 & P2 & _). rewrite E in H. injection H as -> -> ->.
  destruct (all_command_ok srt mc err m tc f Hs Hn Hm) as (j' & q1 & q2 & q3 & Nj' & E' & Q1 & Q2 & _). exists q1, q2, q3. split; [exact E'|].
  assert (D : stepped m tc f = filter (fun r => on_step m (r_time r)) (stepped 1 tc f)).
  { unfold stepped. rewrite filter_filter. apply filter_ext. intros r. symmetry. apply on_step_one, Hm0. }
  assert (W : same_width (stepped 1 tc f)).
  { exists 1. intros r Hr. unfold stepped in Hr. apply filter_In in Hr as (Hr & _). apply in_map_iff in Hr as (x & <- & _). reflexivity. }
  assert (W' : same_width (stepped m tc f)).
  { exists 1. intros r Hr. unfold stepped in Hr. apply filter_In in Hr as (Hr & _). apply in_map_iff in Hr as (x & <- & _). reflexivity. }
  unfold plot_curves in P1, Q1. unfold plot_avg_curves in P2, Q2. destruct (metric_index mc default_metric_cols) as [i|]; [|discriminate].
  split.
  - injection P1 as <-. injection Q1 as <-. cbn [fst]. change (thinned_lines m (map l_points (lines_for i (stepped 1 tc f))) (map l_points (lines_for i (stepped m tc f)))).
    rewrite !lines_points. destruct W as (n & W), W' as (n' & W').
    rewrite <- (groupby_is _ _ _ (nested_grouped r_exps (fun r => [r_run r]) (stepped 1 tc f) n W)), <- (groupby_is _ _ _ (nested_grouped r_exps (fun r => [r_run r]) (stepped m tc f) n' W')).
    rewrite D, groupby_filter. unfold shown. apply (thinned_groups m (fun r => (r_time r, metric i r))); [exact Hm0|reflexivity].
  - injection P2 as <-. injection Q2 as <-. cbn [fst]. rewrite !map_map. cbn [al_points].
    rewrite !(enumerate_snd (fun g => map (fun r => (avg_time r, fst (avg_stats i r))) (snd g))). rewrite D, avg_filter, groupby_filter.
    apply (thinned_groups m (fun r => (avg_time r, fst (avg_stats i r)))); [exact Hm0|reflexivity].
Qed.

(** ** the command analyze *)
Lemma add_columns_in c : forall more cols, In c (add_columns cols more) <-> In c cols \/ In c more.
Proof.
  induction more as [|d more IH]; intros cols; cbn [add_columns]; [cbn; tauto|]. destruct (existsb (text_eqb d) cols) eqn:E.
  - rewrite IH. apply has_text in E. cbn. split; [tauto|]. intros [H|[<-|H]]; auto.
  - rewrite IH, in_app_iff. cbn. tauto.
Qed.
Lemma union_in c : forall ls acc, In c (fold_left add_columns ls acc) <-> In c acc \/ exists l, In l ls /\ In c l.
Proof.
  induction ls as [|l ls IH]; intros acc; cbn [fold_left]; [split; [auto|intros [H|(l & [] & _)]; exact H]|]. rewrite IH, add_columns_in. split.
  - intros [[H|H]|(x & H1 & H2)]; [auto|right; exists l; cbn; auto|right; exists x; cbn; auto].
  - intros [H|(x & [<-|H1] & H2)]; [auto|auto|right; eauto].
Qed.

Lemma restrict_entry {A} (g : text -> option A) f c : entry f c (g c) (if existsb (text_eqb c) (f_columns f) then g c else None).
Proof. split; intros H; [apply has_text in H|apply has_no_text in H]; rewrite H; reflexivity. Qed.

Lemma analyze_spec srt sqrt files : sorts_by_time srt ->
  (analyze srt sqrt files = Err ValueError <-> files = []) /\
  (files <> [] -> ~ (forall c, In c (needed (lit "step")) -> exists f, In f files /\ In c (f_columns f)) ->
     analyze srt sqrt files = Err AssertionError) /\
  (files <> [] -> (forall c, In c (needed (lit "step")) -> exists f, In f files /\ In c (f_columns f)) ->
     exists df combined avg per_run avgs, analyze srt sqrt files = Ok (combined, avg, per_run, avgs) /\
       Forall2 (fun fr o => reads (fst fr) (snd fr) o) (concat (map (fun f => map (fun r => (f, r)) (f_rows f)) files)) df /\
       analyzer (lit "step") combined = Ok df /\
       avg = avg_frame (lit "step") default_metric_cols experiment_cols (avg_curves 5 df) sqrt /\
       scalar_metrics_per_run (auc srt) 0 df = Ok per_run /\ avg_scalar_metrics (auc srt) 0 df = Ok avgs).
Proof.
  intros Hs. destruct files as [|f0 fs].
  - split; [split; reflexivity|]. split; [contradiction|contradiction].
  - set (files := f0 :: fs). assert (Hne : files <> []) by discriminate.
    assert (N : forall cols, incl (needed (lit "step")) (lit "Unnamed: 0" :: cols) <-> incl (needed (lit "step")) cols).
    { intros cols. split; intros H c Hc; [|right; apply H, Hc]. destruct (H c Hc) as [E|E]; [|exact E]. exfalso. rewrite <- E in Hc. vm_compute in Hc.
      repeat (destruct Hc as [Hc|Hc]; [discriminate|]). contradiction. }
    assert (U : forall c, In c (fold_left add_columns (map f_columns files) []) <-> exists f, In f files /\ In c (f_columns f)).
    { intros c. rewrite union_in. split.
      - intros [[]|(l & H1 & H2)]. apply in_map_iff in H1 as (f & <- & H1). eauto.
      - intros (f & H1 & H2). right. exists (f_columns f). split; [apply in_map, H1|exact H2]. }
    set (comb := mk_frame (lit "Unnamed: 0" :: fold_left add_columns (map f_columns files) []) (concat (map (fun f => map (restrict f) (f_rows f)) files))).
    change (analyze srt sqrt files) with (bind (analyzer (lit "step") comb) (fun df => bind (scalar_metrics_per_run (auc srt) 0 df) (fun per_run => bind (avg_scalar_metrics (auc srt) 0 df) (fun avg =>
         Ok (comb, avg_frame (lit "step") default_metric_cols experiment_cols (avg_curves (length default_metric_cols) df) sqrt, per_run, avg))))).
    destruct (analyzer_spec default_time_col comb) as (A & B). cbn [f_columns f_rows comb] in A, B. unfold default_time_col in *.
    assert (D : incl (needed (lit "step")) (lit "Unnamed: 0" :: fold_left add_columns (map f_columns files) []) <->
      (forall c, In c (needed (lit "step")) -> exists f, In f files /\ In c (f_columns f))).
    { rewrite N. unfold incl. split; intros H c Hc; apply U, H, Hc. }
    assert (Hok : incl (needed (lit "step")) (lit "Unnamed: 0" :: fold_left add_columns (map f_columns files) []) ->
       exists df combined avg per_run avgs,
       bind (analyzer (lit "step") comb) (fun df => bind (scalar_metrics_per_run (auc srt) 0 df) (fun per_run => bind (avg_scalar_metrics (auc srt) 0 df) (fun avg =>
         Ok (comb, avg_frame (lit "step") default_metric_cols experiment_cols (avg_curves (length default_metric_cols) df) sqrt, per_run, avg)))) = Ok (combined, avg, per_run, avgs) /\
       Forall2 (fun fr o => reads (fst fr) (snd fr) o) (concat (map (fun f => map (fun r => (f, r)) (f_rows f)) files)) df /\
       analyzer (lit "step") combined = Ok df /\
       avg = avg_frame (lit "step") default_metric_cols experiment_cols (avg_curves 5 df) sqrt /\
       scalar_metrics_per_run (auc srt) 0 df = Ok per_run /\ avg_scalar_metrics (auc srt) 0 df = Ok avgs).
    { intros H. specialize (A H). rewrite A. cbn [bind].
      set (df := map (project (lit "step") default_metric_cols experiment_cols default_run_col) (concat (map (fun f => map (restrict f) (f_rows f)) files))) in *.
      destruct (auc_tables srt 0 df Hs) as (tbl & Et). destruct (avg_scalar_spec (auc srt) 0 df tbl Et) as (gs & out & _ & Eo & _). rewrite Et. cbn [bind]. rewrite Eo. cbn [bind].
      exists df. do 4 eexists. split; [reflexivity|]. split; [|split; [exact A|split; [reflexivity|split; [exact Et|exact Eo]]]].
      unfold df. clearbody files. clear. induction files as [|f fs IH]; cbn [map concat]; [constructor|]. rewrite map_app. apply Forall2_app; [|exact IH].
      induction (f_rows f) as [|r rs IHr]; cbn [map]; constructor; [|exact IHr]. cbn [fst snd]. unfold reads, project, restrict. cbn [as_key as_num r_time r_run r_exps r_metrics].
      split; [apply restrict_entry|]. split; [apply restrict_entry|]. split; [eexists; split; [reflexivity|apply restrict_entry]|].
      unfold default_metric_cols. cbn [map]. repeat (constructor; [apply restrict_entry|]). constructor. }
    split; [|split].
    + split; [|discriminate]. intros E. exfalso.
      destruct (incl_dec_text (needed (lit "step")) (lit "Unnamed: 0" :: fold_left add_columns (map f_columns files) [])) as [H|H].
      * destruct (Hok H) as (df & c & a & p & v & X & _). pose proof (eq_trans (eq_sym X) E) as Y. discriminate Y.
      * rewrite (B H) in E. discriminate.
    + intros _ H. rewrite B; [reflexivity|]. rewrite D. exact H.
    + intros _ H. apply Hok. rewrite D. exact H.
Qed.

Lemma avg_file_unplottable srt sqrt files combined avg per_run avgs : analyze srt sqrt files = Ok (combined, avg, per_run, avgs) ->
  forall metric_col error time_col, avg_curves_command metric_col error time_col avg = Err AssertionError.
Proof.
  intros H mc er tc. unfold analyze in H. destruct (cat_frames files); [|discriminate]. cbn [bind] in H. destruct (analyzer _ _) as [df|]; [|discriminate]. cbn [bind] in H.
  destruct (scalar_metrics_per_run _ _ _); [|discriminate]. cbn [bind] in H. destruct (avg_scalar_metrics _ _ _); [|discriminate]. cbn [bind] in H. injection H as _ <- _ _.
  unfold avg_curves_command. match goal with |- bind (analyzer tc ?f) _ = _ => destruct (analyzer_spec tc f) as (_ & B) end. rewrite B; [reflexivity|].
  intros H. specialize (H (lit "job")). assert (X : In (lit "job") (needed tc)) by (right; left; reflexivity). specialize (H X). clear X. cbn [avg_frame f_columns] in H. vm_compute in H.
  repeat (destruct H as [H|H]; [discriminate|]). contradiction.
Qed.
Lemma combined_file_plottable srt sqrt files combined avg per_run avgs metric_col : analyze srt sqrt files = Ok (combined, avg, per_run, avgs) ->
  In metric_col default_metric_cols -> exists p, curves_command metric_col (lit "step") combined = Ok p.
Proof.
  intros H Hm. unfold analyze in H. destruct (cat_frames files); [|discriminate]. cbn [bind] in H. change default_time_col with (lit "step") in H. destruct (analyzer _ _) as [df|] eqn:E; [|discriminate]. cbn [bind] in H.
  destruct (scalar_metrics_per_run _ _ _); [|discriminate]. cbn [bind] in H. destruct (avg_scalar_metrics _ _ _); [|discriminate]. cbn [bind] in H. injection H as Hc _ _ _.
  assert (E2 : analyzer (lit "step") combined = Ok df) by (rewrite <- Hc; exact E). unfold curves_command. rewrite E2. cbn [bind]. unfold plot_curves. destruct (metric_index_in _ _ Hm) as (j & -> & _). eauto.
Qed.

Lemma avg_file_rows df sqrt : (forall r, In r df -> length (r_exps r) = 1) ->
  Forall2 (fun o r => exists t e, fst o = [t; e] /\ as_key r (lit "step") = Some t /\ as_key r (lit "experiment") = Some e /\
    forall j m mu s, nth_error default_metric_cols j = Some m -> nth_error (snd o) j = Some (mu, s) ->
      as_num r (m ++ lit "_mean") = mu /\ as_num r (m ++ lit "_std") = option_map sqrt s)
  (avg_curves 5 df) (f_rows (avg_frame (lit "step") default_metric_cols experiment_cols (avg_curves 5 df) sqrt)).
Proof.
  intros W. assert (T : forall o, In o (avg_curves 5 df) -> (exists t e, fst o = [t; e]) /\ length (snd o) = 5).
  { intros o Ho. split.
    - destruct (tbl_row 5 df o Ho) as (t & e & g & E & _). destruct (tbl_from 5 df o t e Ho E) as (r & R1 & _ & R2). specialize (W r R1).
      unfold has_key in R2. rewrite R2, map_length in W. destruct e as [|e [|]]; try discriminate. eauto.
    - unfold avg_curves in Ho. apply in_map_iff in Ho as (g & <- & _). cbn [snd]. rewrite map_length. apply seq_length. }
  unfold avg_frame. cbn [f_rows]. induction (avg_curves 5 df) as [|o l IH]; cbn [map]; constructor; [|apply IH; intros; apply T; right; assumption].
  destruct (T o (or_introl eq_refl)) as ((t & e & E) & L). clear -E L. destruct o as [k st]. cbn [fst snd] in *. subst k. exists t, e. split; [reflexivity|].
  split; [reflexivity|]. split; [reflexivity|]. destruct st as [|s0 [|s1 [|s2 [|s3 [|s4 [|]]]]]]; try discriminate.
  intros j m mu s Hm Hs. do 5 (destruct j as [|j]; [cbn in Hm, Hs; injection Hm as <-; injection Hs as ->; split; reflexivity|]). destruct j; discriminate.
Qed.

(** ** the commands for one picture *)
Lemma seen_rows tc rows : Forall2 (seen tc) rows (map (project tc default_metric_cols experiment_cols default_run_col) rows).
Proof. induction rows; cbn [map]; constructor; [repeat split|assumption]. Qed.
Lemma commands_spec metric_col error time_col f : 
  (incl (needed time_col) (f_columns f) -> In metric_col default_metric_cols ->
     exists df j, Forall2 (seen time_col) (f_rows f) df /\
       nth_error [lit "bsf"; lit "mean_fitness"; lit "std_fitness"; lit "min_fitness"; lit "max_fitness"] j = Some metric_col /\
       (exists lines lg gs, curves_command metric_col time_col f = Ok (lines, lg) /\ legend_of (fun _ => True) df lg /\
          grouped (fun r => r_exps r ++ [r_run r]) df gs /\
          Forall2 (fun g l => l_points l = shown j (snd g) /\ In (l_color l, removelast (fst g)) lg) gs lines) /\
       (exists lines lg, avg_curves_command metric_col error time_col f = Ok (lines, lg) /\ legend_of (fun r => r_time r <> None) df lg /\
          Forall2 (fun ce l => al_color l = fst ce /\ average_line j df (snd ce) error l) lg lines)) /\
  (~ (incl (needed time_col) (f_columns f) /\ In metric_col default_metric_cols) ->
     curves_command metric_col time_col f = Err AssertionError /\ avg_curves_command metric_col error time_col f = Err AssertionError).
Proof.
  unfold curves_command, avg_curves_command. split.
  - intros Hn Hm. rewrite (proj1 (analyzer_spec time_col f) Hn). cbn [bind]. set (df := map _ (f_rows f)).
    destruct (plot_curves_spec default_metric_cols metric_col df (project_width _ _ _ _)) as (_ & A). destruct (A Hm) as (j & l1 & g1 & gs & N & A1 & A2 & A3 & A4).
    destruct (plot_avg_curves_spec default_metric_cols metric_col error df) as (_ & B). destruct (B Hm) as (j' & l2 & g2 & N' & B1 & B2 & B3).
    assert (j' = j).
    { assert (ND : NoDup default_metric_cols) by (repeat constructor; cbn [In]; intuition discriminate).
      rewrite NoDup_nth_error in ND. apply ND; [apply nth_error_Some; congruence|congruence]. }
    subst j'. exists df, j. split; [apply seen_rows|]. split; [exact N|]. split; [exists l1, g1, gs; auto|exists l2, g2; auto].
  - intros N. destruct (incl_dec_text (needed time_col) (f_columns f)) as [Hn|Hn].
    + rewrite (proj1 (analyzer_spec time_col f) Hn). cbn [bind]. assert (Hm : ~ In metric_col default_metric_cols) by tauto.
      split; [apply plot_curves_spec; [apply project_width|exact Hm]|apply plot_avg_curves_spec; exact Hm].
    + rewrite (proj2 (analyzer_spec time_col f) Hn). split; reflexivity.
Qed.
