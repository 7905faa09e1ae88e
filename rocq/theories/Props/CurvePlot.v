(** C85: the pictures of performance curves and the commands of leap_ec/contrib/analysis.py. *)
From Coq Require Import Ascii String Sorted Lia.
From Verif Require Import Model.Base Model.PyList Model.RealProblems Model.CsvProbe Model.Analysis Model.CurvePlot Spec.Problems Spec.Metrics Spec.CsvProbe Spec.Analysis Spec.CurvePlot Proofs.AnalysisTables Proofs.CurvePlot.
Local Open Scope list_scope.

(** plot_curves: one line for each run of each experiment, through exactly the rows of that run as they stand, in the colour the
    legend gives the experiment *)
Theorem C85_curves : forall metric_cols metric_col df, same_width df ->
  (plot_curves metric_cols metric_col df = Err AssertionError <-> ~ In metric_col metric_cols) /\
  (In metric_col metric_cols -> exists j lines lg gs, nth_error metric_cols j = Some metric_col /\
     plot_curves metric_cols metric_col df = Ok (lines, lg) /\ legend_of (fun _ => True) df lg /\
     grouped (fun r => r_exps r ++ [r_run r]) df gs /\
     Forall2 (fun g l => l_points l = shown j (snd g) /\ In (l_color l, removelast (fst g)) lg) gs lines).
Proof. exact plot_curves_spec. Qed.
Print Assumptions C85_curves.
Example C85_curves_ex : same_width ex_df /\ exists lines, plot_curves [lit "bsf"] (lit "bsf") ex_df = Ok (lines, [(0, [7%Z]); (1, [8%Z])]) /\
  map l_color lines = [0; 0; 1] /\ map (fun l => length (l_points l)) lines = [3; 3; 1].
Proof.
  split; [exists 1; intros r H; cbn in H; repeat (destruct H as [<-|H]; [reflexivity|]); destruct H|].
  eexists. split; [vm_compute; reflexivity|]. split; reflexivity.
Qed.

(** up to ten experiments have different colours *)
Theorem C85_colors : forall lg counts df, legend_of counts df lg -> length lg <= 10 -> NoDup (map fst lg).
Proof. exact legend_colors. Qed.
Print Assumptions C85_colors.
Example C85_colors_ex : exists lines lg, plot_curves [lit "bsf"] (lit "bsf") (ex_many 10) = Ok (lines, lg) /\ length lg <= 10 /\ legend_of (fun _ => True) (ex_many 10) lg.
Proof.
  destruct (plot_curves_spec [lit "bsf"] (lit "bsf") (ex_many 10)) as (_ & H).
  { exists 1. intros r H. unfold ex_many in H. apply in_map_iff in H as (i & <- & _). reflexivity. }
  destruct (H (or_introl eq_refl)) as (j & lines & lg & gs & _ & E & L & _). exists lines, lg. split; [exact E|]. split; [|exact L].
  vm_compute in E. injection E as _ <-. cbn. lia.
Qed.

(** more than ten do not *)
Theorem C85_colors_refuted : exists df lines lg, same_width df /\ plot_curves [lit "bsf"] (lit "bsf") df = Ok (lines, lg) /\
  exists c e e', In (c, e) lg /\ In (c, e') lg /\ e <> e'.
Proof.
  exists (ex_many 11). eexists. eexists. split.
  { exists 1. intros r H. unfold ex_many in H. apply in_map_iff in H as (i & <- & _). reflexivity. }
  split; [vm_compute; reflexivity|]. exists 9, [9%Z], [10%Z]. cbn. split; [tauto|]. split; [tauto|discriminate].
Qed.
Print Assumptions C85_colors_refuted.

(** plot_avg_curves: one line for each experiment with a time, through the means of its runs at each time recorded, from early
    to late, with the deviations as error bars if asked for *)
Theorem C85_avg_curves : forall metric_cols metric_col bars df,
  (plot_avg_curves metric_cols metric_col bars df = Err AssertionError <-> ~ In metric_col metric_cols) /\
  (In metric_col metric_cols -> exists j lines lg, nth_error metric_cols j = Some metric_col /\
     plot_avg_curves metric_cols metric_col bars df = Ok (lines, lg) /\ legend_of (fun r => r_time r <> None) df lg /\
     Forall2 (fun ce l => al_color l = fst ce /\ average_line j df (snd ce) bars l) lg lines).
Proof. exact plot_avg_curves_spec. Qed.
Print Assumptions C85_avg_curves.
Example C85_avg_curves_ex : exists l1 l2, plot_avg_curves [lit "bsf"] (lit "bsf") true ex_df = Ok ([l1; l2], [(0, [7%Z]); (1, [8%Z])]) /\
  map (fun s => (fst s, option_map Qred (snd s))) (al_points l1) = [(Some 0%Z, Some 3%Q); (Some 2%Z, Some 4%Q); (Some 5%Z, Some 8%Q)] /\
  al_points l2 = [(Some 0%Z, None)].
Proof. eexists. eexists. split; [vm_compute; reflexivity|]. split; vm_compute; reflexivity. Qed.

(** the commands curves and avg-curves draw these pictures of the rows of the file, the second one with error bars if asked
    for; a file or metric they cannot draw is an AssertionError *)
Theorem C85_commands : forall metric_col error time_col f,
  (incl (needed time_col) (f_columns f) -> In metric_col default_metric_cols ->
     exists df j, Forall2 (seen time_col) (f_rows f) df /\
       nth_error [lit "bsf"; lit "mean_fitness"; lit "std_fitness"; lit "min_fitness"; lit "max_fitness"] j = Some metric_col /\
       (exists lines lg gs, curves_command metric_col time_col f = Ok (lines, lg) /\ legend_of (fun _ => True) df lg /\
          grouped (fun r => r_exps r ++ [r_run r]) df gs /\
          Forall2 (fun g l => l_points l = shown j (snd g) /\ In (l_color l, removelast (fst g)) lg) gs lines) /\
       (exists lines lg, avg_curves_command metric_col error time_col f = Ok (lines, lg) /\ legend_of (fun r => r_time r <> None) df lg /\
          Forall2 (fun ce l => al_color l = fst ce /\ average_line j df (snd ce) error l) lg lines)) /\
  (~ (incl (needed time_col) (f_columns f) /\ In metric_col default_metric_cols) ->
     curves_command metric_col time_col f = Err AssertionError /\ avg_curves_command metric_col error time_col f = Err AssertionError).
Proof. exact commands_spec. Qed.
Print Assumptions C85_commands.
Example C85_commands_ex : incl (needed (lit "step")) (f_columns ex_frame) /\ In (lit "bsf") default_metric_cols /\
  (exists lines lg, curves_command (lit "bsf") (lit "step") ex_frame = Ok (lines, lg) /\ length lines = 3) /\
  (exists l1 l2 lg, avg_curves_command (lit "bsf") true (lit "step") ex_frame = Ok ([l1; l2], lg) /\ al_errors l1 <> None) /\
  curves_command (lit "bsf") (lit "step") ex_bare_frame = Err AssertionError.
Proof.
  split; [apply incl_refl|]. split; [left; reflexivity|]. split; [do 2 eexists; split; [vm_compute; reflexivity|reflexivity]|].
  split; [do 3 eexists; split; [vm_compute; reflexivity|discriminate]|vm_compute; reflexivity].
Qed.

(** plot_scalars_bar: one box for each experiment with a run, from the measures of its runs *)
Theorem C85_boxes : forall measure j df boxes, plot_scalars_bar measure j df = Ok boxes ->
  StronglySorted key_lt (map fst boxes) /\
  (forall e, In e (map fst boxes) <-> exists r, In r df /\ r_run r <> None /\ has_key r_exps r e) /\
  (forall e vs, In (e, vs) boxes -> box_of measure j df e vs).
Proof. exact boxes_spec. Qed.
Print Assumptions C85_boxes.
Example C85_boxes_ex : exists boxes, plot_scalars_bar (auc ex_sort) 0 ex_df = Ok boxes /\
  map (fun b => (fst b, map Qred (snd b))) boxes = [([7%Z], [40%Q; 24%Q]); ([8%Z], [])].
Proof. eexists. split; vm_compute; reflexivity. Qed.

(** An experiment can have different colours in the picture of the curves and in that of the averages. *)
Theorem C85_same_colors_refuted : exists df lines lg lines' lg' c c' e, same_width df /\
  plot_curves [lit "bsf"] (lit "bsf") df = Ok (lines, lg) /\ plot_avg_curves [lit "bsf"] (lit "bsf") true df = Ok (lines', lg') /\
  In (c, e) lg /\ In (c', e) lg' /\ c <> c'.
Proof.
  exists ex_untimed. eexists. eexists. eexists. eexists. exists 1, 0, [2%Z]. split.
  { exists 1. intros r H. cbn in H. repeat (destruct H as [<-|H]; [reflexivity|]). destruct H. }
  split; [vm_compute; reflexivity|]. split; [vm_compute; reflexivity|]. cbn. split; [tauto|]. split; [tauto|discriminate].
Qed.
Print Assumptions C85_same_colors_refuted.

(** The command all leaves out rows without a time, and then the two legends agree. *)
Theorem C85_all_legends : forall srt metric_col error modulo time_col f p1 p2 p3, sorts_by_time srt ->
  all_command srt metric_col error modulo time_col f = Ok (p1, p2, p3) -> snd p1 = snd p2.
Proof. exact all_command_legends. Qed.
Print Assumptions C85_all_legends.

(** when it succeeds, and how it fails *)
Theorem C85_all_succeeds : forall srt metric_col error modulo time_col f, sorts_by_time srt ->
  (all_command srt metric_col error modulo time_col f = Err KeyError <-> ~ In time_col (f_columns f)) /\
  (all_command srt metric_col error modulo time_col f = Err AssertionError <->
     In time_col (f_columns f) /\ ~ (incl (needed time_col) (f_columns f) /\ In metric_col default_metric_cols)) /\
  ((exists o, all_command srt metric_col error modulo time_col f = Ok o) <->
     incl (needed time_col) (f_columns f) /\ In metric_col default_metric_cols).
Proof. exact all_command_fails. Qed.
Print Assumptions C85_all_succeeds.

(** Its option modulo takes the points at other times out of all lines, of curves and of averages, and changes nothing else about
    them. *)
Theorem C85_all_modulo : forall srt metric_col error modulo time_col f p1 p2 p3, sorts_by_time srt -> modulo <> 0%Z ->
  all_command srt metric_col error 1 time_col f = Ok (p1, p2, p3) ->
  exists q1 q2 q3, all_command srt metric_col error modulo time_col f = Ok (q1, q2, q3) /\
    thinned_lines modulo (map l_points (fst p1)) (map l_points (fst q1)) /\
    thinned_lines modulo (map al_points (fst p2)) (map al_points (fst q2)).
Proof. exact all_command_thinned. Qed.
Print Assumptions C85_all_modulo.
Example C85_all_ex : sorts_by_time ex_sort /\
  (exists p1 p2 p3, all_command ex_sort (lit "bsf") true 1 (lit "step") ex_frame = Ok (p1, p2, p3) /\
     map (fun l => length (l_points l)) (fst p1) = [3; 2; 1] /\ map (fun l => length (al_points l)) (fst p2) = [3; 1]) /\
  (exists p1 p2 p3, all_command ex_sort (lit "bsf") true 2 (lit "step") ex_frame = Ok (p1, p2, p3) /\
     map (fun l => length (l_points l)) (fst p1) = [2; 2] /\ map (fun l => length (al_points l)) (fst p2) = [2]) /\
  all_command ex_sort (lit "bsf") true 2 (lit "step") ex_bare_frame = Err AssertionError.
Proof.
  split; [exact ex_sort_ok|]. split; [eexists; eexists; eexists; split; [vm_compute; reflexivity|split; reflexivity]|].
  split; [eexists; eexists; eexists; split; [vm_compute; reflexivity|split; reflexivity]|vm_compute; reflexivity].
Qed.

(** The boxes do change with it: they are drawn from the thinned curves. *)
Theorem C85_modulo_boxes_refuted : exists f p1 p2 b q1 q2 b' e v v', all_command ex_sort (lit "bsf") true 1 (lit "step") f = Ok (p1, p2, b) /\
  all_command ex_sort (lit "bsf") true 2 (lit "step") f = Ok (q1, q2, b') /\
  In (e, v) b /\ In (e, v') b' /\ map Qred v <> map Qred v'.
Proof.
  exists ex_frame. do 6 eexists. exists [7%Z]. eexists. eexists. split; [vm_compute; reflexivity|]. split; [vm_compute; reflexivity|].
  split; [left; reflexivity|]. split; [left; reflexivity|]. vm_compute. discriminate.
Qed.
Print Assumptions C85_modulo_boxes_refuted.

(** analyze: without files a ValueError; if one of the columns is in no file, an AssertionError; otherwise the tables are those
    of all rows of all files in order, where what a file lacks is missing *)
Theorem C85_analyze : forall srt sqrt files, sorts_by_time srt ->
  (analyze srt sqrt files = Err ValueError <-> files = []) /\
  (files <> [] -> ~ (forall c, In c (needed (lit "step")) -> exists f, In f files /\ In c (f_columns f)) ->
     analyze srt sqrt files = Err AssertionError) /\
  (files <> [] -> (forall c, In c (needed (lit "step")) -> exists f, In f files /\ In c (f_columns f)) ->
     exists df combined avg per_run avgs, analyze srt sqrt files = Ok (combined, avg, per_run, avgs) /\
       Forall2 (fun fr o => reads (fst fr) (snd fr) o) (concat (map (fun f => map (fun r => (f, r)) (f_rows f)) files)) df /\
       analyzer (lit "step") combined = Ok df /\
       avg = avg_frame (lit "step") default_metric_cols experiment_cols (avg_curves 5 df) sqrt /\
       scalar_metrics_per_run (auc srt) 0 df = Ok per_run /\ avg_scalar_metrics (auc srt) 0 df = Ok avgs).
Proof. exact analyze_spec. Qed.
Print Assumptions C85_analyze.

(** what the file of averages holds *)
Theorem C85_avg_file_rows : forall df (sqrt : Q -> Q), (forall r, In r df -> length (r_exps r) = 1) ->
  Forall2 (fun (o : list Z * list (option Q * option Q)) r => exists t e, fst o = [t; e] /\ as_key r (lit "step") = Some t /\ as_key r (lit "experiment") = Some e /\
    forall j m mu s, nth_error default_metric_cols j = Some m -> nth_error (snd o) j = Some (mu, s) ->
      as_num r (m ++ lit "_mean") = mu /\ as_num r (m ++ lit "_std") = option_map sqrt s)
  (avg_curves 5 df) (f_rows (avg_frame (lit "step") default_metric_cols experiment_cols (avg_curves 5 df) sqrt)).
Proof. exact avg_file_rows. Qed.
Print Assumptions C85_avg_file_rows.
Example C85_avg_file_rows_ex : (forall r, In r ex_df -> length (r_exps r) = 1) /\ length (avg_curves 5 ex_df) = 4.
Proof. split; [intros r H; cbn in H; repeat (destruct H as [<-|H]; [reflexivity|]); destruct H|vm_compute; reflexivity]. Qed.

(** The combined file can be plotted. *)
Theorem C85_combined_file : forall srt sqrt files combined avg per_run avgs metric_col,
  analyze srt sqrt files = Ok (combined, avg, per_run, avgs) ->
  In metric_col default_metric_cols -> exists p, curves_command metric_col (lit "step") combined = Ok p.
Proof. exact combined_file_plottable. Qed.
Print Assumptions C85_combined_file.

(** The file of averages cannot, although there is a command for it. *)
Theorem C85_avg_file : forall srt sqrt files combined avg per_run avgs,
  analyze srt sqrt files = Ok (combined, avg, per_run, avgs) ->
  forall metric_col error time_col, avg_curves_command metric_col error time_col avg = Err AssertionError.
Proof. exact avg_file_unplottable. Qed.
Print Assumptions C85_avg_file.
Theorem C85_avg_file_refuted : exists files combined avg per_run avgs,
  analyze ex_sort (fun q => q) files = Ok (combined, avg, per_run, avgs) /\ f_rows avg <> [] /\
  forall metric_col error, avg_curves_command metric_col error (lit "step") avg = Err AssertionError.
Proof.
  destruct (proj2 (proj2 (analyze_spec ex_sort (fun q => q) [ex_frame; ex_bare_frame] ex_sort_ok))) as (df & combined & avg & per_run & avgs & E & _).
  - discriminate.
  - intros c Hc. exists ex_frame. split; [left; reflexivity|exact Hc].
  - exists [ex_frame; ex_bare_frame], combined, avg, per_run, avgs. split; [exact E|]. split.
    + pose proof (f_equal (fun r => match r with Ok (_, a, _, _) => length (f_rows a) | Err _ => 0 end) E) as L. cbv beta iota in L.
      intros X. rewrite X in L. vm_compute in L. discriminate.
    + intros m er. exact (avg_file_unplottable _ _ _ _ _ _ _ E m er (lit "step")).
Qed.
Print Assumptions C85_avg_file_refuted.
Example C85_analyze_ex : exists c a p v, analyze ex_sort (fun q => q) [ex_frame; ex_bare_frame] = Ok (c, a, p, v) /\
  length (f_rows c) = 7 /\ map fst p = [[1%Z; 7%Z]; [1%Z; 8%Z]; [2%Z; 7%Z]].
Proof.
  destruct (analyze ex_sort (fun q => q) [ex_frame; ex_bare_frame]) as [[[[c a] p] v]|] eqn:E.
  - exists c, a, p, v. split; [reflexivity|].
    pose proof (f_equal (fun r => match r with Ok (c, _, p, _) => (length (f_rows c), map fst p) | Err _ => (0, []) end) E) as L. vm_compute in L.
    injection L as L1 L2. split; [symmetry; exact L1|symmetry; exact L2].
  - exfalso. pose proof (f_equal (fun r => match r with Ok _ => true | Err _ => false end) E) as L. vm_compute in L. discriminate.
Qed.

(** plot_avg_scalars cannot be used: whatever it is given, its call of avg_scalar_metrics is a TypeError. *)
Theorem C85_plot_avg_scalars_refuted : exists e, forall measure name metric_cols df, plot_avg_scalars measure name metric_cols df = Err e.
Proof. exists TypeError. reflexivity. Qed.
Print Assumptions C85_plot_avg_scalars_refuted.
