(** Properties C77 and C78: the measures of a curve and the tables of averages *)
From Coq Require Import Lia Lqa Permutation Sorted Ascii String.
From Verif Require Import Model.Base Model.PyList Model.RealProblems Model.Scalar Model.Probe Model.CsvProbe Model.Analysis
  Spec.Problems Spec.Metrics Spec.RealProblems Spec.CsvProbe Spec.Analysis Proofs.Analysis Proofs.AnalysisTables.
Local Open Scope list_scope.

(** ** C77: auc and max_value *)

(** auc adds, for every unit of time between the first and the last row, the value recorded next. *)
Theorem C77_auc_area : forall srt c first n f, sorts_by_time srt -> NoDup (map fst c) -> spans c first (first + Z.of_nat n) ->
  (forall i, i < n -> credited c (first + 1 + Z.of_nat i) (f i)) ->
  exists a, auc srt (complete c) = Ok (Some a) /\ (a == sumn n f)%Q.
Proof. exact auc_area. Qed.
Print Assumptions C77_auc_area.

(** there is such a value for every unit *)
Theorem C77_credits_exist : forall c first lst x, spans c first lst -> (x <= lst)%Z -> exists v, credited c x v.
Proof. exact credits_exist. Qed.
Print Assumptions C77_credits_exist.

(** the order of the rows, and the sort used, do not matter *)
Theorem C77_auc_order : forall srt srt' c c',
  sorts_by_time srt -> sorts_by_time srt' -> NoDup (map fst c) -> c <> [] -> Permutation c c' ->
  exists a a', auc srt (complete c) = Ok (Some a) /\ auc srt' (complete c') = Ok (Some a') /\ (a == a')%Q.
Proof. exact auc_order. Qed.
Print Assumptions C77_auc_order.

Theorem C77_auc_bounds : forall srt c lo hi first lst, sorts_by_time srt -> NoDup (map fst c) -> spans c first lst ->
  (forall t v, In (t, v) c -> t <> first -> (lo <= v <= hi)%Q) ->
  exists a, auc srt (complete c) = Ok (Some a) /\ (lo * inject_Z (lst - first) <= a <= hi * inject_Z (lst - first))%Q.
Proof. exact auc_bounds. Qed.
Print Assumptions C77_auc_bounds.

Theorem C77_auc_monotone : forall srt grid f g, sorts_by_time srt -> NoDup grid -> grid <> [] -> (forall t, In t grid -> (f t <= g t)%Q) ->
  exists a b, auc srt (complete (map (fun t => (t, f t)) grid)) = Ok (Some a) /\
    auc srt (complete (map (fun t => (t, g t)) grid)) = Ok (Some b) /\ (a <= b)%Q.
Proof. exact auc_monotone. Qed.
Print Assumptions C77_auc_monotone.

Theorem C77_auc_linear : forall srt grid f k b first lst, sorts_by_time srt -> NoDup grid -> spans (map (fun t => (t, f t)) grid) first lst ->
  exists x y, auc srt (complete (map (fun t => (t, f t)) grid)) = Ok (Some x) /\
    auc srt (complete (map (fun t => (t, k * f t + b)%Q) grid)) = Ok (Some y) /\ (y == k * x + b * inject_Z (lst - first))%Q.
Proof. exact auc_linear. Qed.
Print Assumptions C77_auc_linear.

(** the value of the first row has weight zero *)
Theorem C77_first_value_ignored : forall srt grid f g first lst,
  sorts_by_time srt -> NoDup grid -> spans (map (fun t => (t, f t)) grid) first lst ->
  (forall t, In t grid -> t <> first -> (f t == g t)%Q) ->
  exists a b, auc srt (complete (map (fun t => (t, f t)) grid)) = Ok (Some a) /\
    auc srt (complete (map (fun t => (t, g t)) grid)) = Ok (Some b) /\ (a == b)%Q.
Proof. exact auc_first_ignored. Qed.
Print Assumptions C77_first_value_ignored.

(** no rows: an exception; a missing time or value: the result is missing *)
Theorem C77_missing : forall srt df, sorts_by_time srt ->
  (df = [] -> auc srt df = Err ValueError) /\
  ((exists s, In s df /\ (fst s = None \/ snd s = None)) -> auc srt df = Ok None).
Proof. exact auc_missing. Qed.
Print Assumptions C77_missing.

(** Raising all values need not make the area larger: a curve with one row has area
    zero whatever it recorded. *)
Theorem C77_strictly_monotone_refuted : exists srt c c', sorts_by_time srt /\
  map fst c = map fst c' /\ Forall2 (fun p q => (snd p < snd q)%Q) c c' /\
  exists a, auc srt (complete c) = Ok (Some a) /\ auc srt (complete c') = Ok (Some a).
Proof.
  exists ex_sort, [(3%Z, 1%Q)], [(3%Z, 8%Q)]. split; [exact ex_sort_ok|]. split; [reflexivity|].
  split; [constructor; [reflexivity|constructor]|]. eexists. split; reflexivity.
Qed.
Print Assumptions C77_strictly_monotone_refuted.

(** With two rows at the same time the area depends on how the sort orders them. *)
Theorem C77_tied_times_refuted : exists srt srt' c a a', sorts_by_time srt /\ sorts_by_time srt' /\
  auc srt (complete c) = Ok (Some a) /\ auc srt' (complete c) = Ok (Some a') /\ ~ (a == a')%Q.
Proof.
  exists ex_sort, ex_sort_back, ex_tied. eexists. eexists. split; [exact ex_sort_ok|]. split; [exact ex_sort_back_ok|].
  split; [reflexivity|]. split; [reflexivity|]. vm_compute. discriminate.
Qed.
Print Assumptions C77_tied_times_refuted.

(** max_value is the largest value there is, missing only if there is none *)
Theorem C77_max_value : forall df, exists o, max_value df = Ok o /\
  (o = None <-> forall s, In s df -> snd s = None) /\
  (forall v, o = Some v -> (exists s, In s df /\ snd s = Some v) /\ forall s w, In s df -> snd s = Some w -> (w <= v)%Q).
Proof. exact max_value_spec. Qed.
Print Assumptions C77_max_value.

Example C77_example :
  let c := [(5%Z, 10%Q); (0%Z, 4%Q); (2%Z, 5%Q)] in
  sorts_by_time ex_sort /\ NoDup (map fst c) /\ spans c 0 (0 + Z.of_nat 5) /\
  credited c 1 5 /\ credited c 2 5 /\ credited c 3 10 /\ credited c 5 10 /\
  (exists a, auc ex_sort (complete c) = Ok (Some a) /\ (a == 40)%Q) /\
  auc ex_sort [(Some 0%Z, Some 4%Q); (Some 2%Z, None)] = Ok None /\ auc ex_sort [] = Err ValueError /\
  max_value [(Some 0%Z, Some 4%Q); (Some 2%Z, None); (None, Some 6%Q)] = Ok (Some 6%Q) /\ max_value [(Some 2%Z, None)] = Ok None.
Proof.
  cbv zeta. split; [exact ex_sort_ok|].
  split; [repeat constructor; intros H; vm_compute in H; repeat (destruct H as [H|H]; [discriminate|]); contradiction|].
  split; [split; [right; left; reflexivity|split; [left; reflexivity|cbn; intros t [<-|[<-|[<-|[]]]]; lia]]|].
  assert (C : forall x t v, In (t, v) [(5%Z, 10%Q); (0%Z, 4%Q); (2%Z, 5%Q)] -> (x <= t)%Z ->
     (forall t' v', In (t', v') [(5%Z, 10%Q); (0%Z, 4%Q); (2%Z, 5%Q)] -> (x <= t')%Z -> (t <= t')%Z) -> credited [(5%Z, 10%Q); (0%Z, 4%Q); (2%Z, 5%Q)] x v)
    by (intros x t v A B D; exists t; auto).
  split; [apply (C _ 2%Z); [cbn; auto|lia|cbn; intros t' v' [[= <- <-]|[[= <- <-]|[[= <- <-]|[]]]]; lia]|].
  split; [apply (C _ 2%Z); [cbn; auto|lia|cbn; intros t' v' [[= <- <-]|[[= <- <-]|[[= <- <-]|[]]]]; lia]|].
  split; [apply (C _ 5%Z); [cbn; auto|lia|cbn; intros t' v' [[= <- <-]|[[= <- <-]|[[= <- <-]|[]]]]; lia]|].
  split; [apply (C _ 5%Z); [cbn; auto|lia|cbn; intros t' v' [[= <- <-]|[[= <- <-]|[[= <- <-]|[]]]]; lia]|].
  split; [eexists; split; [reflexivity|vm_compute; reflexivity]|]. repeat split; reflexivity.
Qed.

(** ** C78: CurveAnalyzer *)

(** The analyzer accepts a frame exactly if metric and experiment columns are named and all named columns are there. *)
Theorem C78_init : forall columns time_col metric_cols experiment_cols run_col,
  (analyzer_init columns time_col metric_cols experiment_cols run_col = Ok tt \/
   analyzer_init columns time_col metric_cols experiment_cols run_col = Err AssertionError) /\
  (analyzer_init columns time_col metric_cols experiment_cols run_col = Ok tt <->
   metric_cols <> [] /\ experiment_cols <> [] /\ In time_col columns /\ In run_col columns /\
   incl metric_cols columns /\ incl experiment_cols columns).
Proof. exact init_spec. Qed.
Print Assumptions C78_init.

(** A table written by FitnessStatsCSVProbe, with the default names for the rest, is accepted exactly if it has the named
    experiment columns and a job. *)
Theorem C78_probe_file : forall conf experiment_cols,
  analyzer_init (columns conf) default_time_col default_metric_cols experiment_cols default_run_col = Ok tt <->
  experiment_cols <> [] /\ incl experiment_cols (columns conf) /\
  (sc_job conf <> None \/ In (lit "job") (map fst (sc_notes conf)) \/ In (lit "job") (map fst (sc_extras conf))).
Proof. exact probe_file_spec. Qed.
Print Assumptions C78_probe_file.

(** The default for the experiment columns is refused whatever the frame. *)
Theorem C78_defaults_refuted : exists experiment_cols, experiment_cols = default_experiment_cols /\
  forall columns time_col metric_cols run_col,
  analyzer_init columns time_col metric_cols experiment_cols run_col = Err AssertionError.
Proof.
  exists default_experiment_cols. split; [reflexivity|]. intros cs t ms r.
  destruct (init_spec cs t ms default_experiment_cols r) as ([H | H] & I); [|exact H].
  apply I in H. destruct H as (_ & H & _). exfalso. apply H. reflexivity.
Qed.
Print Assumptions C78_defaults_refuted.

(** avg_curves: one row for each time and experiment, with mean and sample deviation over the rows there *)
Theorem C78_avg_curves : forall m df, exists gs, grouped (fun r => r_time r :: r_exps r) df gs /\
  Forall2 (fun g o => fst o = fst g /\ length (snd o) = m /\
     forall j mv, nth_error (snd o) j = Some mv -> mean_and_var (map (metric j) (snd g)) mv) gs (avg_curves m df).
Proof. exact avg_curves_spec. Qed.
Print Assumptions C78_avg_curves.

(** scalar_metrics_per_run: one row for each run and experiment, with the measure of its curve; it fails only if the
    measure does *)
Theorem C78_scalar_metrics_per_run : forall measure j df, exists gs, grouped (fun r => r_run r :: r_exps r) df gs /\
  let of g := measure (map (fun r => (r_time r, metric j r)) (snd g)) in
  match scalar_metrics_per_run measure j df with
  | Ok tbl => Forall2 (fun g s => fst s = fst g /\ of g = Ok (snd s)) gs tbl
  | Err e => exists g, In g gs /\ of g = Err e
  end.
Proof. exact scalar_spec. Qed.
Print Assumptions C78_scalar_metrics_per_run.

(** avg_scalar_metrics: one row for each experiment, with mean and sample deviation over its runs *)
Theorem C78_avg_scalar_metrics : forall measure j df tbl, scalar_metrics_per_run measure j df = Ok tbl ->
  exists gs out, grouped (fun s => map Some (tl (fst s))) tbl gs /\ avg_scalar_metrics measure j df = Ok out /\
    Forall2 (fun g o => fst o = fst g /\ mean_and_var (map snd (snd g)) (snd o)) gs out.
Proof. exact avg_scalar_spec. Qed.
Print Assumptions C78_avg_scalar_metrics.

(** groups are never empty, so auc never fails here *)
Theorem C78_auc_never_fails : forall srt j df, sorts_by_time srt -> exists tbl, scalar_metrics_per_run (auc srt) j df = Ok tbl.
Proof. exact auc_tables. Qed.
Print Assumptions C78_auc_never_fails.

(** If all runs of an experiment were recorded at the same times, the mean area is the area under the mean curve. *)
Theorem C78_averages_commute : forall df e j runs grid v, complete_design df e j runs grid v ->
  forall srt m, sorts_by_time srt -> j < m ->
  exists mean out a var b,
    (forall t, In t grid -> exists ms vr, In (t :: e, ms) (avg_curves m df) /\ nth_error ms j = Some (Some (mean t), vr)) /\
    avg_scalar_metrics (auc srt) j df = Ok out /\ In (e, (Some a, var)) out /\
    auc srt (complete (map (fun t => (t, mean t)) grid)) = Ok (Some b) /\ (a == b)%Q.
Proof. exact commute. Qed.
Print Assumptions C78_averages_commute.

(** Files that share no run of an experiment do not disturb each other. *)
Theorem C78_separate_files : forall measure j f1 f2 t1 t2 t12,
  (forall r1 r2 i e, In r1 f1 -> In r2 f2 -> r_run r1 = Some i -> r_exps r1 = map Some e ->
     r_run r2 = Some i -> r_exps r2 = map Some e -> False) ->
  scalar_metrics_per_run measure j f1 = Ok t1 -> scalar_metrics_per_run measure j f2 = Ok t2 ->
  bind (cat_csv_files [f1; f2]) (scalar_metrics_per_run measure j) = Ok t12 ->
  forall s, In s t12 <-> In s t1 \/ In s t2.
Proof. exact files_spec. Qed.
Print Assumptions C78_separate_files.

(** Two files with the same job number are taken for one run. *)
Theorem C78_same_job_refuted : exists srt f1 f2 s1 s2 s, sorts_by_time srt /\
  scalar_metrics_per_run (auc srt) 0 f1 = Ok [s1] /\ scalar_metrics_per_run (auc srt) 0 f2 = Ok [s2] /\
  bind (cat_csv_files [f1; f2]) (scalar_metrics_per_run (auc srt) 0) = Ok [s] /\ snd s <> snd s1 /\ snd s <> snd s2.
Proof.
  exists ex_sort, (ex_file 2 1), (ex_file 4 6). eexists. eexists. eexists. split; [exact ex_sort_ok|].
  split; [reflexivity|]. split; [reflexivity|]. split; [reflexivity|]. split; vm_compute; discriminate.
Qed.
Print Assumptions C78_same_job_refuted.

(** A row without a value in an experiment column changes no table. *)
Theorem C78_missing_experiment : forall measure m j l1 r l2, (exists e, In e (r_exps r) /\ e = None) ->
  avg_curves m (l1 ++ r :: l2) = avg_curves m (l1 ++ l2) /\
  scalar_metrics_per_run measure j (l1 ++ r :: l2) = scalar_metrics_per_run measure j (l1 ++ l2) /\
  avg_scalar_metrics measure j (l1 ++ r :: l2) = avg_scalar_metrics measure j (l1 ++ l2).
Proof. exact tables_drop. Qed.
Print Assumptions C78_missing_experiment.

(** So not every recorded row is counted. *)
Theorem C78_every_row_counts_refuted : exists m df r, In r df /\ metric 0 r <> None /\ r_time r <> None /\ r_run r <> None /\
  forall k g, In (k, g) (groupby (fun r => r_time r :: r_exps r) df) -> ~ In r g /\ In k (map fst (avg_curves m df)).
Proof.
  exists 1, ex_df, (mk_row (Some 3%Z) (Some 1%Z) [None] [Some 100%Q]). split; [cbn; auto 10|]. split; [discriminate|]. split; [discriminate|]. split; [discriminate|].
  intros k g H. split.
  - intros I. apply (group_rows _ _ _ _ _ H) in I. destruct I as (_ & I). unfold has_key in I. cbn in I. destruct k as [|a [|b k]]; discriminate.
  - unfold avg_curves. rewrite map_map. cbn [fst]. apply in_map_iff. exists (k, g). auto.
Qed.
Print Assumptions C78_every_row_counts_refuted.

Example C78_example_design : complete_design ex_df [7%Z] 0 [1%Z; 2%Z] [0%Z; 2%Z; 5%Z] ex_v.
Proof.
  split; [repeat constructor; cbn; intuition discriminate|]. split; [repeat constructor; cbn; intuition discriminate|].
  split; [discriminate|]. split; [discriminate|]. split.
  - unfold ex_df. intros r H E. cbn [In] in H.
    destruct H as [<-|[<-|[<-|[<-|[<-|[<-|[<-|[<-|[]]]]]]]]]; try discriminate; cbn; eexists; eexists; repeat split; cbn; auto 6.
  - assert (X : forall n r i t, nth_error ex_df n = Some r -> r_run r = Some i -> r_time r = Some t -> r_exps r = map Some [7%Z] ->
      forallb (fun r' => negb (match r_run r', r_time r', r_exps r' with Some i', Some t', [Some 7%Z] => (i' =? i)%Z && (t' =? t)%Z | _, _, _ => false end))
        (firstn n ex_df ++ skipn (S n) ex_df) = true ->
      exists l1 r l2, ex_df = l1 ++ r :: l2 /\ r_run r = Some i /\ r_time r = Some t /\ r_exps r = map Some [7%Z] /\
        forall r', In r' (l1 ++ l2) -> ~ (r_run r' = Some i /\ r_time r' = Some t /\ r_exps r' = map Some [7%Z])).
    { intros n r i t N A B C F. exists (firstn n ex_df), r, (skipn (S n) ex_df).
      split; [|split; [exact A|split; [exact B|split; [exact C|]]]].
      - clear - N. revert N. generalize ex_df. induction n as [|n IH]; intros [|x l]; cbn; try discriminate; [intros [= ->]; reflexivity|]. intros N. f_equal. apply IH, N.
      - intros r' Hr (A' & B' & C'). rewrite forallb_forall in F. specialize (F r' Hr). rewrite A', B', C' in F. cbn in F. rewrite !Z.eqb_refl in F. discriminate. }
    intros i t [<-|[<-|[]]] [<-|[<-|[<-|[]]]];
      [eapply (X 0) | eapply (X 4) | eapply (X 1) | eapply (X 2) | eapply (X 3) | eapply (X 5)]; reflexivity.
Qed.
Example C78_example :
  (exists s, avg_curves 1 ex_df = s /\ map fst s = [[0%Z; 7%Z]; [0%Z; 8%Z]; [2%Z; 7%Z]; [5%Z; 7%Z]]) /\
  (exists t, scalar_metrics_per_run (auc ex_sort) 0 ex_df = Ok t /\ map fst t = [[1%Z; 7%Z]; [1%Z; 8%Z]; [2%Z; 7%Z]]) /\
  (exists o a s, avg_scalar_metrics (auc ex_sort) 0 ex_df = Ok o /\ nth_error o 0 = Some ([7%Z], (Some a, Some s)) /\ (a == 32)%Q /\ (s == 128)%Q).
Proof.
  split; [eexists; split; reflexivity|]. split; [eexists; split; reflexivity|].
  eexists. eexists. eexists. split; [reflexivity|]. split; [reflexivity|]. split; vm_compute; reflexivity.
Qed.
Example C78_example_init :
  analyzer_init [lit "job"; lit "step"; lit "bsf"; lit "x"] (lit "step") [lit "bsf"] [lit "x"] (lit "job") = Ok tt /\
  analyzer_init [lit "job"; lit "step"; lit "x"] (lit "step") [lit "bsf"] [lit "x"] (lit "job") = Err AssertionError.
Proof. split; reflexivity. Qed.
