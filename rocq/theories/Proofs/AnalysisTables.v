(** Proofs about CurveAnalyzer's tables. *)
From Coq Require Import Lia Lqa Permutation Sorted Ascii String.
From Verif Require Import Model.Base Model.PyList Model.Metrics Model.RealProblems Model.CsvProbe Model.Analysis
  Spec.Problems Spec.Metrics Spec.RealProblems Spec.CsvProbe Spec.Analysis Proofs.PyList Proofs.Metrics Proofs.Sums Proofs.RankOrdinal Proofs.Analysis.
Local Open Scope list_scope.

(** ** keys *)
Lemma key_ltb_spec : forall a b, key_ltb a b = true <-> key_lt a b.
Proof.
  induction a as [|x a IH]; intros [|y b]; cbn [key_ltb].
  - split; [discriminate|intros H; inversion H].
  - split; [constructor|reflexivity].
  - split; [discriminate|intros H; inversion H].
  - rewrite orb_true_iff, andb_true_iff, Z.ltb_lt, Z.eqb_eq, IH. split.
    + intros [H|[-> H]]; constructor; assumption.
    + intros H. inversion H; subst; auto.
Qed.
Lemma key_eqb_spec : forall a b, key_eqb a b = true <-> a = b.
Proof.
  induction a as [|x a IH]; intros [|y b]; cbn [key_eqb]; try (split; [discriminate|congruence]); [tauto|].
  rewrite andb_true_iff, Z.eqb_eq, IH. split; [intros [-> ->]; reflexivity|intros [= -> ->]; auto].
Qed.
Lemma key_lt_irrefl a : ~ key_lt a a.
Proof. induction a as [|x a IH]; intros H; inversion H; subst; [lia|auto]. Qed.
Lemma key_lt_trans a : forall b c, key_lt a b -> key_lt b c -> key_lt a c.
Proof.
  induction a as [|x a IH]; intros b c H1 H2; inversion H1; subst; inversion H2; subst.
  - constructor.
  - constructor.
  - apply key_lt_head. lia.
  - apply key_lt_head. lia.
  - apply key_lt_head. lia.
  - apply key_lt_tail. eapply IH; eassumption.
Qed.
Lemma key_total a : forall b, key_lt a b \/ a = b \/ key_lt b a.
Proof.
  induction a as [|x a IH]; intros [|y b]; [auto|left; constructor|right; right; constructor|].
  destruct (Z.lt_trichotomy x y) as [H|[->|H]]; [left; constructor; assumption| |right; right; constructor; assumption].
  destruct (IH b) as [H|[->|H]]; [left; constructor; assumption|auto|right; right; constructor; assumption].
Qed.

Lemma add_key_in k x : forall ks, In x (add_key k ks) <-> x = k \/ In x ks.
Proof.
  induction ks as [|h r IH]; cbn [add_key]; [cbn; intuition congruence|].
  destruct (key_ltb k h) eqn:E1; [cbn; intuition congruence|]. destruct (key_ltb h k) eqn:E2.
  - cbn [In]. rewrite IH. intuition congruence.
  - assert (k = h) as ->; [|cbn; intuition congruence].
    destruct (key_total k h) as [H|[H|H]]; [|exact H|]; apply key_ltb_spec in H; congruence.
Qed.
Lemma add_key_sorted k : forall ks, StronglySorted key_lt ks -> StronglySorted key_lt (add_key k ks).
Proof.
  induction ks as [|h r IH]; intros S; cbn [add_key]; [constructor; [constructor|constructor]|]. inversion S as [|? ? S1 S2]; subst.
  destruct (key_ltb k h) eqn:E1.
  - apply key_ltb_spec in E1. constructor; [exact S|]. constructor; [exact E1|]. rewrite Forall_forall in *. intros x Hx. eapply key_lt_trans; [exact E1|apply S2, Hx].
  - destruct (key_ltb h k) eqn:E2; [|exact S]. apply key_ltb_spec in E2. constructor; [apply IH, S1|]. rewrite Forall_forall in *.
    intros x Hx. apply add_key_in in Hx as [->|Hx]; [exact E2|apply S2, Hx].
Qed.
Lemma sorted_keys_NoDup ks : StronglySorted key_lt ks -> NoDup ks.
Proof. induction 1 as [|k ks S IH F]; constructor; [|exact IH]. intros H. rewrite Forall_forall in F. exact (key_lt_irrefl k (F k H)). Qed.

Lemma whole_key_spec : forall cells k, whole_key cells = Some k <-> cells = map Some k.
Proof.
  induction cells as [|[c|] cells IH]; intros k; cbn [whole_key].
  - destruct k; split; try discriminate; reflexivity.
  - destruct (whole_key cells) as [k'|] eqn:E.
    + destruct k as [|x k]; [split; discriminate|]. cbn [map]. split.
      * intros [= -> ->]. f_equal. apply IH. reflexivity.
      * intros [= -> H]. apply IH in H. injection H as ->. reflexivity.
    + split; [discriminate|]. destruct k as [|x k]; [discriminate|]. cbn [map]. intros [= -> H]. apply IH in H. discriminate.
  - split; [discriminate|]. destruct k; discriminate.
Qed.
Lemma present_known {A} (l : list (option A)) : present l = known l.
Proof. induction l as [|[v|] l IH]; [reflexivity| |]; unfold present in *; cbn; rewrite IH; reflexivity. Qed.
Lemma known_in {A} (l : list (option A)) v : In v (known l) <-> In (Some v) l.
Proof. induction l as [|[w|] l IH]; cbn; [tauto| |]; rewrite IH; intuition congruence. Qed.
Lemma known_some {A} (l : list A) : known (map Some l) = l.
Proof. induction l; cbn; congruence. Qed.

Section Group.
Context {R : Type}.
Variable cells : R -> list (option Z).
Lemma groupby_keys rows : map fst (groupby cells rows) = fold_right add_key [] (present (map (fun r => whole_key (cells r)) rows)).
Proof. unfold groupby. rewrite map_map. cbn. apply map_id. Qed.

Lemma groupby_grouped rows : grouped cells rows (groupby cells rows).
Proof.
  split; [|split].
  - rewrite groupby_keys. generalize (present (map (fun r => whole_key (cells r)) rows)). intros ks.
    induction ks as [|k ks IH]; cbn [fold_right]; [constructor|apply add_key_sorted, IH].
  - intros k. rewrite groupby_keys. assert (K : forall ks, In k (fold_right add_key [] ks) <-> In k ks).
    { induction ks as [|x ks IH]; cbn [fold_right]; [tauto|]. rewrite add_key_in, IH. cbn. intuition congruence. }
    rewrite K, present_known, known_in, in_map_iff. split; intros (r & H1 & H2); exists r.
    + split; [exact H2|]. apply whole_key_spec. exact H1.
    + split; [apply whole_key_spec; exact H2|exact H1].
  - intros k g Hg. unfold groupby in Hg. apply in_map_iff in Hg as (k' & [= -> <-] & _). eexists. split; [|reflexivity].
    intros r _. cbn. unfold has_key. rewrite <- whole_key_spec. destruct (whole_key (cells r)) as [k'|].
    + rewrite key_eqb_spec. split; [intros ->; reflexivity|intros [= ->]; reflexivity].
    + split; discriminate.
Qed.

Lemma groupby_has rows k r : In r rows -> has_key cells r k -> exists g, In (k, g) (groupby cells rows).
Proof.
  intros H1 H2. destruct (groupby_grouped rows) as (_ & K & _). assert (Hk : In k (map fst (groupby cells rows))) by (apply K; eauto).
  apply in_map_iff in Hk as ([k' g] & <- & Hk). exists g. exact Hk.
Qed.
Lemma group_rows rows k g r : In (k, g) (groupby cells rows) -> (In r g <-> In r rows /\ has_key cells r k).
Proof.
  intros H. destruct (groupby_grouped rows) as (_ & _ & K). destruct (K k g H) as (b & Hb & ->). rewrite filter_In.
  split; intros (H1 & H2); (split; [exact H1|]); apply (Hb r H1); exact H2.
Qed.
Lemma group_nonempty rows k g : In (k, g) (groupby cells rows) -> g <> [].
Proof.
  intros H ->. destruct (groupby_grouped rows) as (_ & K & _). assert (Hk : In k (map fst (groupby cells rows))) by (apply (in_map fst) in H; exact H).
  apply K in Hk as (r & H1 & H2). destruct (proj2 (group_rows rows k [] r H) (conj H1 H2)).
Qed.
Lemma groupby_drop rows r l1 l2 : rows = l1 ++ r :: l2 -> (forall k, ~ has_key cells r k) -> groupby cells rows = groupby cells (l1 ++ l2).
Proof.
  intros -> H. assert (Hw : whole_key (cells r) = None).
  { destruct (whole_key (cells r)) as [k|] eqn:E; [|reflexivity]. apply whole_key_spec in E. destruct (H k E). }
  unfold groupby. rewrite !map_app, !present_known. cbn [map]. rewrite Hw.
  assert (K : forall a b : list (option (list Z)), known (a ++ None :: b) = known (a ++ b)) by (intros a b; induction a as [|[x|] a IH]; cbn; congruence).
  rewrite K. apply map_ext. intros k. f_equal. rewrite !filter_app. cbn [filter]. rewrite Hw. reflexivity.
Qed.
End Group.

(** ** mean and deviation *)
Lemma agg_spec vs : mean_and_var vs (agg_mean vs, agg_var vs).
Proof.
  unfold mean_and_var, agg_mean, agg_var. rewrite present_known. cbv zeta. cbn [fst snd]. split; [intros ->; reflexivity|].
  intros Hne. exists (q_mean (known vs)). split; [destruct (known vs); [congruence|reflexivity]|]. split; [|split].
  - pose proof (mean_sum (known vs) Hne) as H. unfold qn in H. rewrite <- H. ring.
  - destruct (known vs) as [|a [|b l]]; [congruence|reflexivity|discriminate].
  - intros Hl. exists (q_sum (map (fun v => ((v - q_mean (known vs)) * (v - q_mean (known vs)))%Q) (known vs)) / inject_Z (Z.of_nat (length (known vs)) - 1))%Q.
    split; [destruct (known vs) as [|a [|b l]]; [congruence|cbn in Hl; lia|reflexivity]|].
    rewrite q_sum_Qsum. set (l := known vs) in *. assert (Hn : ~ (inject_Z (Z.of_nat (length l) - 1) == 0)%Q).
    { change 0%Q with (inject_Z 0). rewrite inject_Z_injective. lia. }
    replace (Z.of_nat (length l)) with ((Z.of_nat (length l) - 1) + 1)%Z at 2 by lia. rewrite inject_Z_plus. field. exact Hn.
Qed.

Lemma avg_curves_spec m df : exists gs, grouped (fun r => r_time r :: r_exps r) df gs /\
  Forall2 (fun g o => fst o = fst g /\ length (snd o) = m /\
     forall j mv, nth_error (snd o) j = Some mv -> mean_and_var (map (metric j) (snd g)) mv) gs (avg_curves m df).
Proof.
  exists (groupby (fun r => r_time r :: r_exps r) df). split; [apply groupby_grouped|]. unfold avg_curves.
  induction (groupby (fun r => r_time r :: r_exps r) df) as [|g gs IH]; cbn [map]; constructor; [|exact IH].
  cbn [fst snd]. split; [reflexivity|]. rewrite map_length, seq_length. split; [reflexivity|]. intros j mv H.
  assert (Hj : j < m). { (pose proof (nth_error_Some (map (fun j => (agg_mean (map (metric j) (snd g)), agg_var (map (metric j) (snd g)))) (seq 0 m)) j) as K; rewrite H, map_length, seq_length in K; apply K; discriminate). }
  rewrite nth_error_map in H. rewrite nth_error_nth' with (d := 0) in H by (rewrite seq_length; exact Hj). rewrite seq_nth in H by exact Hj.
  cbn in H. injection H as <-. apply agg_spec.
Qed.

Lemma map_result_cases {A B} (f : A -> result B) l : match map_result f l with
  | Ok ys => Forall2 (fun x y => f x = Ok y) l ys
  | Err e => exists x, In x l /\ f x = Err e end.
Proof.
  induction l as [|x l IH]; cbn [map_result]; [constructor|]. destruct (f x) as [y|e] eqn:E; cbn [bind]; [|exists x; split; [left; reflexivity|exact E]].
  destruct (map_result f l) as [ys|e]; cbn [bind]; [constructor; assumption|]. destruct IH as (z & H1 & H2). exists z. split; [right; exact H1|exact H2].
Qed.

Lemma scalar_spec measure j df : exists gs, grouped (fun r => r_run r :: r_exps r) df gs /\
  let of g := measure (map (fun r => (r_time r, metric j r)) (snd g)) in
  match scalar_metrics_per_run measure j df with
  | Ok tbl => Forall2 (fun g s => fst s = fst g /\ of g = Ok (snd s)) gs tbl
  | Err e => exists g, In g gs /\ of g = Err e
  end.
Proof.
  exists (groupby (fun r => r_run r :: r_exps r) df). split; [apply groupby_grouped|]. cbv zeta. unfold scalar_metrics_per_run.
  match goal with |- context [map_result ?f ?l] => pose proof (map_result_cases f l) as H; destruct (map_result f l) as [tbl|e] end.
  - induction H as [|g s gs tbl H H' IH]; constructor; [|exact IH]. destruct (measure _) as [v|e] eqn:E; cbn in H; [|discriminate].
    injection H as <-. split; reflexivity.
  - destruct H as (g & H1 & H2). exists g. split; [exact H1|]. destruct (measure _) as [v|e'] eqn:E; cbn in H2; [discriminate|congruence].
Qed.

Lemma avg_scalar_spec measure j df tbl : scalar_metrics_per_run measure j df = Ok tbl ->
  exists gs out, grouped (fun s => map Some (tl (fst s))) tbl gs /\ avg_scalar_metrics measure j df = Ok out /\
    Forall2 (fun g o => fst o = fst g /\ mean_and_var (map snd (snd g)) (snd o)) gs out.
Proof.
  intros E. unfold avg_scalar_metrics. rewrite E. cbn [bind]. eexists. eexists. split; [apply groupby_grouped|]. split; [reflexivity|].
  induction (groupby (fun s : list Z * option Q => map Some (tl (fst s))) tbl) as [|g gs IH]; cbn [map]; constructor; [|exact IH].
  cbn [fst snd]. split; [reflexivity|apply agg_spec].
Qed.

Lemma auc_tables srt j df : sorts_by_time srt -> exists tbl, scalar_metrics_per_run (auc srt) j df = Ok tbl.
Proof.
  intros H. unfold scalar_metrics_per_run.
  match goal with |- context [map_result ?f ?l] => pose proof (map_result_cases f l) as K; destruct (map_result f l) as [tbl|e] end; [eauto|].
  exfalso. destruct K as ([k g] & H1 & H2). apply group_nonempty in H1. cbn [snd fst] in H2.
  rewrite auc_eq in H2; [discriminate|]. destruct (H (map (fun r => (r_time r, metric j r)) g)) as (P & _). intros E. rewrite E in P.
  apply Permutation_sym, Permutation_nil in P. apply map_eq_nil in P. contradiction.
Qed.

(** ** averaging over runs and over time *)
Lemma keys_perm {R} (b : R -> bool) (key : R -> Z) (rows : list R) (ids : list Z) : NoDup ids ->
  (forall r, In r rows -> b r = true -> In (key r) ids) ->
  (forall i, In i ids -> exists l1 r l2, rows = l1 ++ r :: l2 /\ b r = true /\ key r = i /\ forall r', In r' (l1 ++ l2) -> b r' = true -> key r' <> i) ->
  Permutation (map key (filter b rows)) ids.
Proof.
  intros N H1 H2. apply (Permutation_count_occ Z.eq_dec). intros i. destruct (in_dec Z.eq_dec i ids) as [Hi|Hi].
  - rewrite (proj1 (NoDup_count_occ' Z.eq_dec ids) N i Hi). destruct (H2 i Hi) as (l1 & r & l2 & -> & B & K & H).
    rewrite filter_app. cbn [filter]. rewrite B, map_app, count_occ_app. cbn [map]. rewrite count_occ_cons_eq by exact K.
    rewrite !(proj1 (count_occ_not_In Z.eq_dec _ _)); [reflexivity| |]; intros Hin; apply in_map_iff in Hin as (r' & E & Hin); apply filter_In in Hin as (Hin & B');
      apply (H r'); auto; apply in_or_app; auto.
  - rewrite (proj1 (count_occ_not_In Z.eq_dec ids i) Hi). apply count_occ_not_In. intros Hin. apply in_map_iff in Hin as (r & <- & Hin).
    apply filter_In in Hin as (Hin & B). apply Hi, H1; assumption.
Qed.

Definition zof (o : option Z) : Z := match o with Some z => z | None => 0%Z end.

Lemma Qsum_perm l l' : Permutation l l' -> (Qsum l == Qsum l')%Q.
Proof.
  induction 1 as [|x l l' P IH|x y l|l1 l2 l3 P1 IH1 P2 IH2]; [reflexivity| | |]; cbn [Qsum fold_right]; change (fold_right Qplus 0%Q) with Qsum.
  - rewrite IH. reflexivity.
  - ring.
  - rewrite IH1. exact IH2.
Qed.

Section Commute.
Variables (df : list row) (e : list Z) (j : nat) (runs grid : list Z) (v : Z -> Z -> Q).
Hypothesis D : complete_design df e j runs grid v.

Lemma time_group t g : In t grid -> In (t :: e, g) (groupby (fun r => r_time r :: r_exps r) df) ->
  exists is, Permutation is runs /\ map (metric j) g = map (fun i => Some (v i t)) is.
Proof.
  destruct D as (N1 & N2 & Hr & Hg & D1 & D2). intros Ht Hin. exists (map (fun r => zof (r_run r)) g).
  destruct (groupby_grouped (fun r => r_time r :: r_exps r) df) as (_ & _ & K). destruct (K _ _ Hin) as (b & Hb & ->). clear K. split.
  - apply keys_perm; [exact N1| |].
    + intros r Hr1 Br. apply (Hb r Hr1) in Br. unfold has_key in Br. cbn in Br. injection Br as B1 B2.
      destruct (D1 r Hr1 B2) as (i & t' & I1 & I2 & I3 & _). rewrite I3. exact I1.
    + intros i Hi. destruct (D2 i t Hi Ht) as (l1 & r & l2 & E & R1 & R2 & R3 & R4). exists l1, r, l2. split; [exact E|].
      assert (Hrin : In r df) by (rewrite E; apply in_or_app; right; left; reflexivity).
      split; [apply (Hb r Hrin); unfold has_key; cbn; rewrite R2, R3; reflexivity|]. split; [rewrite R1; reflexivity|].
      intros r' Hr' Br'. assert (Hr'in : In r' df) by (rewrite E; apply in_app_or in Hr'; apply in_or_app; destruct Hr'; [left|right; right]; assumption).
      apply (Hb r' Hr'in) in Br'. unfold has_key in Br'. cbn in Br'. injection Br' as B1 B2.
      destruct (D1 r' Hr'in B2) as (i' & t' & I1 & I2 & I3 & I4 & _). rewrite I3. cbn. intros ->. apply (R4 r' Hr'). auto.
  - rewrite map_map. apply map_ext_in. intros r Hr1. apply filter_In in Hr1 as (Hr1 & Br). apply (Hb r Hr1) in Br. unfold has_key in Br. cbn in Br. injection Br as B1 B2.
    destruct (D1 r Hr1 B2) as (i & t' & I1 & I2 & I3 & I4 & I5). rewrite I5, I3. cbn. congruence.
Qed.

Lemma run_group i g : In i runs -> In (i :: e, g) (groupby (fun r => r_run r :: r_exps r) df) ->
  exists ts, Permutation grid ts /\ map (fun r => (r_time r, metric j r)) g = complete (map (fun t => (t, v i t)) ts).
Proof.
  destruct D as (N1 & N2 & Hr & Hg & D1 & D2). intros Hi Hin. exists (map (fun r => zof (r_time r)) g).
  destruct (groupby_grouped (fun r => r_run r :: r_exps r) df) as (_ & _ & K). destruct (K _ _ Hin) as (b & Hb & ->). clear K. split.
  - apply Permutation_sym, keys_perm; [exact N2| |].
    + intros r Hr1 Br. apply (Hb r Hr1) in Br. unfold has_key in Br. cbn in Br. injection Br as B1 B2.
      destruct (D1 r Hr1 B2) as (i' & t & I1 & I2 & I3 & I4 & _). rewrite I4. exact I2.
    + intros t Ht. destruct (D2 i t Hi Ht) as (l1 & r & l2 & E & R1 & R2 & R3 & R4). exists l1, r, l2. split; [exact E|].
      assert (Hrin : In r df) by (rewrite E; apply in_or_app; right; left; reflexivity).
      split; [apply (Hb r Hrin); unfold has_key; cbn; rewrite R1, R3; reflexivity|]. split; [rewrite R2; reflexivity|].
      intros r' Hr' Br'. assert (Hr'in : In r' df) by (rewrite E; apply in_app_or in Hr'; apply in_or_app; destruct Hr'; [left|right; right]; assumption).
      apply (Hb r' Hr'in) in Br'. unfold has_key in Br'. cbn in Br'. injection Br' as B1 B2.
      destruct (D1 r' Hr'in B2) as (i' & t' & I1 & I2 & I3 & I4 & _). rewrite I4. cbn. intros ->. apply (R4 r' Hr'). auto.
  - unfold complete. rewrite !map_map. apply map_ext_in. intros r Hr1. apply filter_In in Hr1 as (Hr1 & Br). apply (Hb r Hr1) in Br. unfold has_key in Br. cbn in Br. injection Br as B1 B2.
    destruct (D1 r Hr1 B2) as (i' & t' & I1 & I2 & I3 & I4 & I5). rewrite I5, I4. cbn. congruence.
Qed.

Lemma run_key i es : In (i :: es) (map fst (groupby (fun r => r_run r :: r_exps r) df)) -> es = e -> In i runs.
Proof.
  intros H ->. apply (groupby_grouped (fun r => r_run r :: r_exps r) df) in H as (r & H1 & H2). unfold has_key in H2. cbn in H2. injection H2 as B1 B2.
  destruct D as (_ & _ & _ & _ & D1 & _). destruct (D1 r H1 B2) as (i' & t & I1 & _ & I3 & _). congruence.
Qed.
Lemma run_key_there i : In i runs -> exists g, In (i :: e, g) (groupby (fun r => r_run r :: r_exps r) df).
Proof.
  intros Hi. destruct D as (_ & _ & _ & Hg & _ & D2). destruct grid as [|t ?]; [congruence|].
  destruct (D2 i t Hi (or_introl eq_refl)) as (l1 & r & l2 & E & R1 & R2 & R3 & _). apply (groupby_has _ df _ r).
  - rewrite E. apply in_or_app. right. left. reflexivity.
  - unfold has_key. cbn. rewrite R1, R3. reflexivity.
Qed.
Lemma time_key_there t : In t grid -> exists g, In (t :: e, g) (groupby (fun r => r_time r :: r_exps r) df).
Proof.
  intros Ht. destruct D as (_ & _ & Hr & _ & _ & D2). destruct runs as [|i ?]; [congruence|].
  destruct (D2 i t (or_introl eq_refl) Ht) as (l1 & r & l2 & E & R1 & R2 & R3 & _). apply (groupby_has _ df _ r).
  - rewrite E. apply in_or_app. right. left. reflexivity.
  - unfold has_key. cbn. rewrite R2, R3. reflexivity.
Qed.

Lemma commute srt m : sorts_by_time srt -> j < m ->
  exists mean out a var b,
    (forall t, In t grid -> exists ms vr, In (t :: e, ms) (avg_curves m df) /\ nth_error ms j = Some (Some (mean t), vr)) /\
    avg_scalar_metrics (auc srt) j df = Ok out /\ In (e, (Some a, var)) out /\
    auc srt (complete (map (fun t => (t, mean t)) grid)) = Ok (Some b) /\ (a == b)%Q.
Proof.
  intros Hs Hj. pose proof D as (N1 & N2 & Hr & Hg & _).
  destruct (auc_of_function srt grid N2 Hg Hs) as (t0 & r0 & P0 & S0 & G).
  destruct (auc_tables srt j df Hs) as (tbl & Et).
  (* the runs' entries *)
  assert (T : Forall2 (fun g s => fst s = fst g /\ auc srt (map (fun r => (r_time r, metric j r)) (snd g)) = Ok (snd s)) (groupby (fun r => r_run r :: r_exps r) df) tbl).
  { unfold scalar_metrics_per_run in Et. match type of Et with map_result ?f ?l = _ => pose proof (map_result_cases f l) as H; rewrite Et in H end. clear -H.
    induction H as [|g s gs tbl H H' IH]; constructor; [|exact IH]. destruct (auc srt _) as [w|]; cbn in H; [|discriminate]. injection H as <-. auto. }
  assert (Tk : map fst tbl = map fst (groupby (fun r => r_run r :: r_exps r) df)) by (clear -T; induction T as [|? ? ? ? [H _] _ IH]; [reflexivity|cbn; congruence]).
  assert (Tv : forall i w, In (i :: e, w) tbl -> In i runs /\ exists a, w = Some a /\ (a == step t0 (map (fun t => (t, v i t)) r0))%Q).
  { intros i w Hin. assert (Hi : In i runs). { apply (run_key i e); [|reflexivity]. rewrite <- Tk. apply (in_map fst) in Hin. exact Hin. }
    split; [exact Hi|]. assert (K : exists g, In g (groupby (fun r => r_run r :: r_exps r) df) /\ fst g = i :: e /\ auc srt (map (fun r => (r_time r, metric j r)) (snd g)) = Ok w).
    { clear -T Hin. induction T as [|g s gs tbl [H1 H2] _ IH]; [destruct Hin|]. destruct Hin as [->|Hin]; [exists g; split; [left; reflexivity|]; cbn in *; auto|].
      destruct (IH Hin) as (g' & K1 & K2). exists g'. split; [right; exact K1|exact K2]. }
    destruct K as ([k g] & K1 & K2 & K3). cbn [fst snd] in *. subst k. destruct (run_group i g Hi K1) as (ts & Pt & Et'). rewrite Et' in K3.
    destruct (G (v i) ts Pt) as (a & Ea & A). rewrite Ea in K3. injection K3 as <-. exists a. auto. }
  assert (Tne : forall s, In s tbl -> exists i es, fst s = i :: es).
  { intros s Hin. apply (in_map fst) in Hin. rewrite Tk in Hin. apply (groupby_grouped (fun r => r_run r :: r_exps r) df) in Hin as (r & _ & H2).
    unfold has_key in H2. destruct (fst s) as [|i es]; [discriminate|eauto]. }
  assert (Tn : NoDup (map fst tbl)) by (rewrite Tk; apply sorted_keys_NoDup, groupby_grouped).
  (* the group of the experiment *)
  assert (Hex : exists i, In i runs) by (clear -Hr; destruct runs as [|i ?]; [congruence|exists i; left; reflexivity]).
  destruct (groupby_has (fun s : list Z * option Q => map Some (tl (fst s))) tbl e) with (r := nth 0 (filter (fun s => key_eqb (tl (fst s)) e) tbl) ([], None)) as (g & Hgin).
  { destruct Hex as (i & Hi). destruct (run_key_there i Hi) as (g & Hg1).
    assert (Hin : In (i :: e) (map fst tbl)) by (rewrite Tk; apply (in_map fst) in Hg1; exact Hg1). apply in_map_iff in Hin as (s & E & Hin).
    assert (Hf : In s (filter (fun s => key_eqb (tl (fst s)) e) tbl)) by (apply filter_In; split; [exact Hin|]; rewrite E; apply key_eqb_spec; reflexivity).
    apply (proj1 (filter_In (fun s => key_eqb (tl (fst s)) e) _ tbl)). apply nth_In. destruct (filter _ tbl); [destruct Hf|cbn; lia]. }
  { destruct Hex as (i & Hi). destruct (run_key_there i Hi) as (g & Hg1).
    assert (Hin : In (i :: e) (map fst tbl)) by (rewrite Tk; apply (in_map fst) in Hg1; exact Hg1). apply in_map_iff in Hin as (s & E & Hin).
    assert (Hf : In s (filter (fun s => key_eqb (tl (fst s)) e) tbl)) by (apply filter_In; split; [exact Hin|]; rewrite E; apply key_eqb_spec; reflexivity).
    unfold has_key. f_equal. apply key_eqb_spec. apply (proj1 (filter_In (fun s => key_eqb (tl (fst s)) e) _ tbl)). apply nth_In. destruct (filter _ tbl); [destruct Hf|cbn; lia]. }
  assert (Gk : Permutation (map (fun s => hd 0%Z (fst s)) g) runs).
  { destruct (groupby_grouped (fun s : list Z * option Q => map Some (tl (fst s))) tbl) as (_ & _ & K). destruct (K _ _ Hgin) as (b & Hb & ->). clear K.
    assert (Hb' : forall s, In s tbl -> (b s = true <-> tl (fst s) = e)).
    { intros s Hin. rewrite (Hb s Hin). unfold has_key. split; [|intros ->; reflexivity]. intros H. rewrite <- (known_some (tl (fst s))), H, known_some. reflexivity. }
    apply keys_perm; [exact N1| |].
    - intros s Hin Bs. apply (Hb' s Hin) in Bs. destruct s as [k w]. destruct (Tne _ Hin) as (i & es & E). cbn in *. subst k. cbn in *. subst es. apply (Tv i w Hin).
    - intros i Hi. destruct (run_key_there i Hi) as (g' & Hg'). assert (Hin : In (i :: e) (map fst tbl)) by (rewrite Tk; apply (in_map fst) in Hg'; exact Hg').
      apply in_map_iff in Hin as (s & E & Hin). apply in_split in Hin as (l1 & l2 & El). exists l1, s, l2. split; [exact El|].
      assert (Hs' : In s tbl) by (rewrite El; apply in_or_app; right; left; reflexivity).
      split; [apply (Hb' s Hs'); rewrite E; reflexivity|]. split; [rewrite E; reflexivity|]. intros s' Hs'' Bs' Hh.
      assert (Hin' : In s' tbl) by (rewrite El; apply in_app_or in Hs''; apply in_or_app; destruct Hs''; [left|right; right]; assumption).
      apply (Hb' s' Hin') in Bs'. destruct (Tne s' Hin') as (i' & es & E'). rewrite E' in *. cbn in *. subst i' es.
      rewrite El, map_app in Tn. cbn in Tn. apply NoDup_remove_2 in Tn. apply Tn. rewrite <- map_app. rewrite E, <- E'. apply in_map, Hs''. }
  assert (Gv : Forall (fun s => exists a, snd s = Some a /\ (a == step t0 (map (fun t => (t, v (hd 0%Z (fst s)) t)) r0))%Q) g).
  { apply Forall_forall. intros s Hin. apply (group_rows _ tbl e g s Hgin) in Hin as (Hin & Hk). destruct s as [k w]. destruct (Tne _ Hin) as (i & es & E). cbn in *. subst k.
    unfold has_key in Hk. cbn in *. assert (es = e) as -> by (rewrite <- (known_some es), Hk, known_some; reflexivity). apply (Tv i w Hin). }
  set (mean := fun t => q_mean (map (fun i => v i t) runs)).
  (* a pointwise mean of the curves, with the representatives the table has *)
  assert (M : forall t, In t grid -> exists ms mu vr, In (t :: e, ms) (avg_curves m df) /\ nth_error ms j = Some (Some mu, vr) /\ (mu == mean t)%Q).
  { intros t Ht. destruct (time_key_there t Ht) as (gt & Hgt). destruct (time_group t gt Ht Hgt) as (is & Pi & Ei).
    eexists. eexists. eexists. split; [unfold avg_curves; apply in_map_iff; exists (t :: e, gt); split; [reflexivity|exact Hgt]|].
    cbn [snd]. rewrite nth_error_map, nth_error_nth' with (d := 0) by (rewrite seq_length; exact Hj). rewrite seq_nth by exact Hj. cbn [option_map Nat.add].
    rewrite Ei. unfold agg_mean. rewrite present_known, <- (map_map (fun i => v i t) Some), known_some.
    assert (Hne : map (fun i => v i t) is <> []). { intros K. apply map_eq_nil in K. subst is. apply Permutation_nil in Pi. congruence. }
    destruct (map (fun i => v i t) is) eqn:E'; [congruence|]. rewrite <- E'. split; [reflexivity|].
    unfold mean, q_mean. rewrite !q_sum_Qsum, !map_length, (Permutation_length Pi), (Qsum_perm _ _ (Permutation_map (fun i => v i t) Pi)). reflexivity. }
  assert (M' : exists mean', (forall t, In t grid -> (mean' t == mean t)%Q) /\ forall t, In t grid -> exists ms vr, In (t :: e, ms) (avg_curves m df) /\ nth_error ms j = Some (Some (mean' t), vr)).
  { exists (fun t => match find (fun o => key_eqb (fst o) (t :: e)) (avg_curves m df) with Some o => match nth_error (snd o) j with Some (Some mu, _) => mu | _ => 0%Q end | None => 0%Q end).
    assert (U : forall k o o', In (k, o) (avg_curves m df) -> In (k, o') (avg_curves m df) -> o = o').
    { assert (Na : NoDup (map fst (avg_curves m df))). { unfold avg_curves. rewrite map_map. cbn. apply sorted_keys_NoDup, groupby_grouped. }
      clear -Na. intros k o o'. induction (avg_curves m df) as [|x l IH]; [intros []|]. cbn in Na. inversion Na; subst. intros [->|H] [H'|H']; [congruence| | |apply IH; assumption].
      - exfalso. apply H1. apply (in_map fst) in H'. exact H'.
      - subst x. exfalso. apply H1. apply (in_map fst) in H. exact H. }
    assert (F : forall t ms, In (t :: e, ms) (avg_curves m df) -> find (fun o => key_eqb (fst o) (t :: e)) (avg_curves m df) = Some (t :: e, ms)).
    { intros t ms Hin. destruct (find _ _) as [[k o]|] eqn:E.
      - apply find_some in E as (E1 & E2). cbn in E2. apply key_eqb_spec in E2. subst k. rewrite (U _ _ _ Hin E1). reflexivity.
      - apply (find_none _ _ E) in Hin. cbn [fst] in Hin. rewrite (proj2 (key_eqb_spec _ _) eq_refl) in Hin. discriminate. }
    split; intros t Ht; destruct (M t Ht) as (ms & mu & vr & H1 & H2 & H3); rewrite (F _ _ H1); cbn [snd]; rewrite H2; [exact H3|].
    exists ms, vr. auto. }
  destruct M' as (mean' & Hm & M'). destruct (G mean' grid (Permutation_refl _)) as (b & Eb & B).
  assert (Gne : known (map snd g) <> []).
  { assert (Hgne : g <> []) by (eapply group_nonempty, Hgin). destruct g as [|s g0]; [congruence|]. apply Forall_cons_iff in Gv as [(a & Ea & _) _]. cbn [map]. rewrite Ea. discriminate. }
  exists mean'. unfold avg_scalar_metrics. rewrite Et. cbn [bind]. eexists. exists (q_mean (known (map snd g))). eexists. exists b.
  split; [exact M'|]. split; [reflexivity|]. split; [apply in_map_iff; exists (e, g); split; [|exact Hgin]; cbn [fst snd]; unfold agg_mean; rewrite present_known; destruct (known (map snd g)) eqn:Ek; [congruence|reflexivity]|].
  split; [exact Eb|]. rewrite B. rewrite (step_ext mean' mean).
  2:{ intros t Ht. apply Hm. eapply Permutation_in; [apply Permutation_sym, P0|right; exact Ht]. }
  assert (Sg : (Qsum (known (map snd g)) == Qsum (map (fun i => step t0 (map (fun t => (t, v i t)) r0)) runs))%Q /\ length (known (map snd g)) = length runs).
  { rewrite <- (Qsum_perm _ _ (Permutation_map (fun i => step t0 (map (fun t => (t, v i t)) r0)) Gk)), <- (Permutation_length Gk), !map_length, map_map. clear -Gv.
    induction g as [|s g IH]; [split; reflexivity|]. apply Forall_cons_iff in Gv as [(a & Ea & A) Gv]. destruct (IH Gv) as (I1 & I2). cbn [map]. rewrite Ea. cbn [known Qsum fold_right length].
    change (fold_right Qplus 0%Q) with Qsum. rewrite I1, A, I2. split; reflexivity. }
  destruct Sg as (Sg & Lg). unfold q_mean at 1. rewrite q_sum_Qsum, Sg, Lg.
  unfold mean, q_mean. set (n := inject_Z (Z.of_nat (length runs))).
  transitivity (step t0 (map (fun t => (t, (1 / n) * Qsum (map (fun i => v i t) runs) + 0)%Q) r0)).
  - rewrite (step_linear (fun t => Qsum (map (fun i => v i t) runs)) (1 / n) 0 r0 t0), step_Qsum. unfold Qdiv. ring.
  - apply (step_ext (fun t => 1 / n * Qsum (map (fun i => v i t) runs) + 0)%Q). intros t _. rewrite q_sum_Qsum, map_length. fold n. unfold Qdiv. ring.
Qed.
End Commute.

(** ** the largest value *)
Lemma fold_max r : forall v, let m := fold_left (fun m x => if Qlt_le_dec m x then x else m) r v in
  In m (v :: r) /\ (v <= m)%Q /\ forall x, In x r -> (x <= m)%Q.
Proof.
  induction r as [|y r IH]; intros v; cbn [fold_left].
  - split; [left; reflexivity|]. split; [apply Qle_refl|intros x []].
  - destruct (IH (if Qlt_le_dec v y then y else v)) as (A & B & C). split; [|split].
    + destruct A as [A | A]; [|right; right; exact A]. destruct (Qlt_le_dec v y) in A at 1; rewrite <- A; [right; left|left]; reflexivity.
    + eapply Qle_trans; [|exact B]. destruct (Qlt_le_dec v y); lra.
    + intros x [<- | Hx]; [|apply C, Hx]. eapply Qle_trans; [|exact B]. destruct (Qlt_le_dec v y); lra.
Qed.
Lemma max_value_spec df : exists o, max_value df = Ok o /\
  (o = None <-> forall s, In s df -> snd s = None) /\
  (forall v, o = Some v -> (exists s, In s df /\ snd s = Some v) /\ forall s w, In s df -> snd s = Some w -> (w <= v)%Q).
Proof.
  unfold max_value. rewrite present_known. eexists. split; [reflexivity|].
  assert (K : forall w, In w (known (map snd df)) <-> exists s, In s df /\ snd s = Some w).
  { intros w. rewrite known_in, in_map_iff. split; intros (s & A & B); exists s; split; auto. }
  destruct (known (map snd df)) as [|v r] eqn:E.
  - split; [|discriminate]. split; [|reflexivity]. intros _ s Hs. destruct (snd s) as [w|] eqn:W; [|reflexivity]. exfalso. apply (proj2 (K w)). exists s. auto.
  - split; [split; [discriminate|]|].
    + intros H. destruct (proj1 (K v) (or_introl eq_refl)) as (s & A & B). rewrite (H s A) in B. discriminate.
    + intros w [= W]. destruct (fold_max r v) as (A & B & C). rewrite W in A, B, C. split; [apply K, A|].
      intros s x Hs Hx. assert (I : In x (v :: r)) by (apply K; exists s; auto). destruct I as [<- | I]; [exact B|apply C, I].
Qed.

(** ** the two example sorts *)
Lemma earlier_sorts l : StronglySorted not_later (sort_asc earlier l).
Proof.
  assert (H : StronglySorted (fun x y => earlier y x = false) (sort_asc earlier l)).
  { apply (sort_asc_sorted earlier (fun _ => True)); [| |apply Forall_forall; intros; exact Logic.I].
    - intros [[x|] ?] [[y|] ?] [[z|] ?] _ _ _; cbn; rewrite ?Z.ltb_ge; try discriminate; try reflexivity; lia.
    - intros [[x|] ?] [[y|] ?] _ _; cbn; rewrite ?Z.ltb_lt, ?Z.ltb_ge; try discriminate; try reflexivity; lia. }
  induction H as [|x l' H IH F]; constructor; [exact IH|]. rewrite Forall_forall in *. intros y Hy. specialize (F y Hy).
  destruct x as [[x|] ?], y as [[y|] ?]; cbn in *; try discriminate; try exact Logic.I. apply Z.ltb_ge, F.
Qed.
Lemma ex_sort_ok : sorts_by_time ex_sort.
Proof. intros df. split; [apply sort_asc_perm|apply earlier_sorts]. Qed.
Lemma ex_sort_back_ok : sorts_by_time ex_sort_back.
Proof. intros df. split; [|apply earlier_sorts]. unfold ex_sort_back. eapply Permutation_trans; [apply Permutation_rev|apply sort_asc_perm]. Qed.

(** ** construction *)
Lemma has_In c (columns : list text) : existsb (fun c' => if list_eq_dec ascii_dec c c' then true else false) columns = true <-> In c columns.
Proof.
  rewrite existsb_exists. split.
  - intros (c' & I & E). destruct (list_eq_dec ascii_dec c c') as [->|]; [exact I|discriminate].
  - intros I. exists c. split; [exact I|]. destruct (list_eq_dec ascii_dec c c); [reflexivity|contradiction].
Qed.
Lemma all_have l (columns : list text) : forallb (fun c => existsb (fun c' => if list_eq_dec ascii_dec c c' then true else false) columns) l = true <-> incl l columns.
Proof. rewrite forallb_forall. unfold incl. split; intros H c Hc; apply has_In, H, Hc. Qed.
Lemma init_spec columns time_col metric_cols experiment_cols run_col :
  (analyzer_init columns time_col metric_cols experiment_cols run_col = Ok tt \/
   analyzer_init columns time_col metric_cols experiment_cols run_col = Err AssertionError) /\
  (analyzer_init columns time_col metric_cols experiment_cols run_col = Ok tt <->
   metric_cols <> [] /\ experiment_cols <> [] /\ In time_col columns /\ In run_col columns /\
   incl metric_cols columns /\ incl experiment_cols columns).
Proof.
  unfold analyzer_init. split.
  - repeat match goal with |- context [if ?b then _ else _] => destruct b; [auto|] end. auto.
  - rewrite <- !has_In, <- !all_have.
    destruct metric_cols as [|m ms]; [split; [discriminate|tauto]|]. destruct experiment_cols as [|e es]; [split; [discriminate|tauto]|].
    cbn [length Nat.eqb].
    generalize (forallb (fun c => existsb (fun c' => if list_eq_dec ascii_dec c c' then true else false) columns) (m :: ms)).
    generalize (forallb (fun c => existsb (fun c' => if list_eq_dec ascii_dec c c' then true else false) columns) (e :: es)).
    generalize (existsb (fun c' => if list_eq_dec ascii_dec time_col c' then true else false) columns).
    generalize (existsb (fun c' => if list_eq_dec ascii_dec run_col c' then true else false) columns).
    intros [|] [|] [|] [|]; cbn [negb]; split; try discriminate; try (intros (_ & _ & H1 & H2 & H3 & H4); discriminate); intros _; repeat split; discriminate.
Qed.
Lemma probe_file_spec conf experiment_cols :
  analyzer_init (columns conf) default_time_col default_metric_cols experiment_cols default_run_col = Ok tt <->
  experiment_cols <> [] /\ incl experiment_cols (columns conf) /\
  (sc_job conf <> None \/ In (lit "job") (map fst (sc_notes conf)) \/ In (lit "job") (map fst (sc_extras conf))).
Proof.
  rewrite (proj2 (init_spec _ _ _ _ _)).
  assert (M : forall c, In c [lit "step"; lit "bsf"; lit "mean_fitness"; lit "std_fitness"; lit "min_fitness"; lit "max_fitness"] -> In c (columns conf)).
  { intros c Hc. unfold columns. apply in_or_app. right. apply in_or_app. right. apply in_or_app. left. exact Hc. }
  assert (J : In default_run_col (columns conf) <-> (sc_job conf <> None \/ In (lit "job") (map fst (sc_notes conf)) \/ In (lit "job") (map fst (sc_extras conf)))).
  { unfold columns. rewrite !in_app_iff. split.
    - intros [H | [H | [H | H]]]; [left; destruct (sc_job conf); [discriminate|contradiction]|auto| |auto].
      exfalso. vm_compute in H. repeat (destruct H as [H|H]; [discriminate|]). contradiction.
    - intros [H | [H | H]]; [left; destruct (sc_job conf); [left; reflexivity|contradiction]|auto|auto]. }
  split.
  - intros (_ & A & _ & B & _ & C). split; [exact A|]. split; [exact C|apply J, B].
  - intros (A & B & C). split; [discriminate|]. split; [exact A|]. split; [apply M; left; reflexivity|]. split; [apply J, C|]. split; [|exact B].
    intros c Hc. apply M. right. exact Hc.
Qed.

(** ** concatenated files *)
Lemma groupby_in {R} (cells : R -> list (option Z)) rows k g : In (k, g) (groupby cells rows) <->
  (exists r, In r rows /\ has_key cells r k) /\ g = filter (fun r => match whole_key (cells r) with Some k' => key_eqb k' k | None => false end) rows.
Proof.
  destruct (groupby_grouped cells rows) as (_ & K & _). rewrite <- K. unfold groupby. split.
  - intros H. apply in_map_iff in H. destruct H as (k' & [= -> <-] & Hk). split; [|reflexivity]. rewrite map_map. apply in_map_iff. exists k. auto.
  - intros (H & ->). rewrite map_map in H. apply in_map_iff in H. destruct H as (k' & E & Hk). cbn in E. subst k'. apply in_map_iff. exists k. auto.
Qed.
Lemma filter_none {A} (f : A -> bool) l : (forall x, In x l -> f x = false) -> filter f l = [].
Proof.
  induction l as [|x l IH]; intros H; [reflexivity|]. cbn [filter]. rewrite (H x (or_introl eq_refl)). apply IH. intros y Hy. apply H. right. exact Hy.
Qed.
Lemma groupby_app {R} (cells : R -> list (option Z)) l1 l2 :
  (forall r1 r2 k, In r1 l1 -> In r2 l2 -> has_key cells r1 k -> has_key cells r2 k -> False) ->
  forall x, In x (groupby cells (l1 ++ l2)) <-> In x (groupby cells l1) \/ In x (groupby cells l2).
Proof.
  intros D [k g]. rewrite !groupby_in, filter_app.
  set (b := fun r => match whole_key (cells r) with Some k' => key_eqb k' k | None => false end).
  assert (B : forall r, b r = true -> has_key cells r k).
  { intros r. unfold b. destruct (whole_key (cells r)) as [k'|] eqn:W; [|discriminate]. intros H. apply key_eqb_spec in H. subst. apply whole_key_spec, W. }
  assert (F : forall l, (forall r, In r l -> ~ has_key cells r k) -> filter b l = []).
  { intros l H. apply filter_none. intros r Hr. destruct (b r) eqn:E; [|reflexivity]. exfalso. exact (H r Hr (B r E)). }
  split.
  - intros ((r & Hr & Kr) & ->). apply in_app_or in Hr. destruct Hr as [Hr | Hr].
    + left. split; [exists r; auto|]. rewrite (F l2) by (intros r2 H2 K2; exact (D r r2 k Hr H2 Kr K2)). apply app_nil_r.
    + right. split; [exists r; auto|]. rewrite (F l1) by (intros r1 H1 K1; exact (D r1 r k H1 Hr K1 Kr)). reflexivity.
  - intros [((r & Hr & Kr) & ->) | ((r & Hr & Kr) & ->)]; (split; [exists r; split; [apply in_or_app; auto|exact Kr]|]).
    + rewrite (F l2) by (intros r2 H2 K2; exact (D r r2 k Hr H2 Kr K2)). symmetry. apply app_nil_r.
    + rewrite (F l1) by (intros r1 H1 K1; exact (D r1 r k H1 Hr K1 Kr)). reflexivity.
Qed.
Lemma map_result_in {A B} (f : A -> result B) l ys : map_result f l = Ok ys -> forall y, In y ys <-> exists x, In x l /\ f x = Ok y.
Proof.
  intros E. pose proof (map_result_cases f l) as C. rewrite E in C. clear E. induction C as [|x y l ys H C IH]; intros z.
  - split; [intros []|intros (x & [] & _)].
  - cbn [In]. rewrite IH. split.
    + intros [<- | (x' & I & E)]; [exists x; auto|exists x'; auto].
    + intros (x' & [<- | I] & E); [left; congruence|right; exists x'; auto].
Qed.
Lemma files_spec measure j f1 f2 t1 t2 t12 :
  (forall r1 r2 i e, In r1 f1 -> In r2 f2 -> r_run r1 = Some i -> r_exps r1 = map Some e -> r_run r2 = Some i -> r_exps r2 = map Some e -> False) ->
  scalar_metrics_per_run measure j f1 = Ok t1 -> scalar_metrics_per_run measure j f2 = Ok t2 ->
  bind (cat_csv_files [f1; f2]) (scalar_metrics_per_run measure j) = Ok t12 ->
  forall s, In s t12 <-> In s t1 \/ In s t2.
Proof.
  intros D E1 E2 E12 s. cbn [cat_csv_files concat bind] in E12. rewrite app_nil_r in E12. unfold scalar_metrics_per_run in *.
  rewrite (map_result_in _ _ _ E1), (map_result_in _ _ _ E2), (map_result_in _ _ _ E12).
  assert (G := groupby_app (fun r => r_run r :: r_exps r) f1 f2). split.
  - intros (g & I & E). apply G in I; [destruct I as [I | I]; [left|right]; exists g; auto|].
    clear - D. intros r1 r2 k H1 H2 K1 K2. unfold has_key in *. destruct k as [|i e]; [discriminate|]. injection K1 as A1 B1. injection K2 as A2 B2. exact (D r1 r2 i e H1 H2 A1 B1 A2 B2).
  - intros [(g & I & E) | (g & I & E)]; exists g; (split; [apply G|exact E]); auto;
      (clear - D; intros r1 r2 k H1 H2 K1 K2; unfold has_key in *; destruct k as [|i e]; [discriminate|]; injection K1 as A1 B1; injection K2 as A2 B2; exact (D r1 r2 i e H1 H2 A1 B1 A2 B2)).
Qed.

(** a row without experiment counts nowhere *)
Lemma tables_drop measure m j l1 r l2 : (exists e, In e (r_exps r) /\ e = None) ->
  avg_curves m (l1 ++ r :: l2) = avg_curves m (l1 ++ l2) /\
  scalar_metrics_per_run measure j (l1 ++ r :: l2) = scalar_metrics_per_run measure j (l1 ++ l2) /\
  avg_scalar_metrics measure j (l1 ++ r :: l2) = avg_scalar_metrics measure j (l1 ++ l2).
Proof.
  intros (o & I & ->). assert (N : forall k, r_exps r <> map Some k) by (intros k E; rewrite E in I; apply in_map_iff in I; destruct I as (x & [=] & _)).
  assert (S : scalar_metrics_per_run measure j (l1 ++ r :: l2) = scalar_metrics_per_run measure j (l1 ++ l2)).
  { unfold scalar_metrics_per_run. rewrite (groupby_drop _ _ r l1 l2 eq_refl); [reflexivity|]. intros [|i k] H; [discriminate|]. injection H as _ H. exact (N k H). }
  split; [|split; [exact S|unfold avg_scalar_metrics; rewrite S; reflexivity]].
  unfold avg_curves. rewrite (groupby_drop _ _ r l1 l2 eq_refl); [reflexivity|]. intros [|i k] H; [discriminate|]. injection H as _ H. exact (N k H).
Qed.
