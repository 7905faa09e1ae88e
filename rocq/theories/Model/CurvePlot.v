(** leap_ec/contrib/analysis.py: the pictures CurvePlotter draws and the commands built on it.  A picture is the list of its
    lines and its legend; titles, axis labels, limits and scales are left out.  A colour is its number in the tab10 map.
    [metric_col] is the place of the metric among the analyzer's metric columns. *)
From Coq Require Import Ascii String.
From Verif Require Import Model.Base Model.PyList Model.RealProblems Model.CsvProbe Model.Analysis.
Local Open Scope list_scope.

(** cmap(i) for the tab10 map, which has ten colours and gives the last for larger numbers;
    leap_ec/contrib/analysis.py:202-209,239-251 *)
Definition tab10 (i : nat) : nat := Nat.min i 9.

(** enumerate, leap_ec/contrib/analysis.py:205,243 *)
Definition enumerate {A} (l : list A) : list (nat * A) := combine (seq 0 (length l)) l.

(** the place of a metric; leap_ec/contrib/analysis.py:197,223 *)
Fixpoint metric_index (c : text) (cols : list text) : option nat :=
  match cols with
  | [] => None
  | c' :: r => if text_eqb c' c then Some 0 else match metric_index c r with Some j => Some (S j) | None => None end
  end.

(** what is drawn by one call of DataFrame.plot: colour and points, in the order of the rows; a point that misses a coordinate
    is not visible.  leap_ec/contrib/analysis.py:208 *)
Record line := mk_line { l_color : nat; l_points : list sample }.
(** legend_patches, leap_ec/contrib/analysis.py:203-207,240-247 *)
Definition legend := list (nat * list Z).

(** leap_ec/contrib/analysis.py:195-219 plot_curves *)
Definition plot_curves (metric_cols : list text) (metric_col : text) (df : list row) : result (list line * legend) :=
  match metric_index metric_col metric_cols with
  | None => Err AssertionError
  | Some j =>
      let gs := enumerate (groupby r_exps df) in
      Ok (concat (map (fun ig =>
            map (fun rg => mk_line (tab10 (fst ig)) (map (fun r => (r_time r, metric j r)) (snd rg)))
                (groupby (fun r => [r_run r]) (snd (snd ig)))) gs),
          map (fun ig => (tab10 (fst ig), fst (snd ig))) gs)
  end.

(** a line of averages: colour, points, and the squares of the error bars' lengths if there are any;
    leap_ec/contrib/analysis.py:248-251 *)
Record avg_line := mk_avg_line { al_color : nat; al_points : list sample; al_errors : option (list (option Q)) }.

(** a row of the averages' table: time, experiment, and mean and variance of metric [j]; leap_ec/contrib/analysis.py:228-232 *)
Definition avg_time (r : list Z * list (option Q * option Q)) : option Z := hd_error (fst r).
(** leap_ec/contrib/analysis.py:228-232 *)
Definition avg_stats (j : nat) (r : list Z * list (option Q * option Q)) : option Q * option Q := nth j (snd r) (None, None).

(** leap_ec/contrib/analysis.py:221-268 plot_avg_curves *)
Definition plot_avg_curves (metric_cols : list text) (metric_col : text) (error_bars : bool) (df : list row)
  : result (list avg_line * legend) :=
  match metric_index metric_col metric_cols with
  | None => Err AssertionError
  | Some j =>
      let gs := enumerate (groupby (fun r => map Some (tl (fst r))) (avg_curves (length metric_cols) df)) in
      Ok (map (fun ig => mk_avg_line (tab10 (fst ig))
                 (map (fun r => (avg_time r, fst (avg_stats j r))) (snd (snd ig)))
                 (if error_bars then Some (map (fun r => snd (avg_stats j r)) (snd (snd ig))) else None)) gs,
          map (fun ig => (tab10 (fst ig), fst (snd ig))) gs)
  end.

(** leap_ec/contrib/analysis.py:270-284 plot_scalars_bar: for each experiment the values its box is drawn from; missing ones are
    left out *)
Definition plot_scalars_bar (measure : list sample -> result (option Q)) (j : nat) (df : list row)
  : result (list (list Z * list Q)) :=
  bind (scalar_metrics_per_run measure j df) (fun df_scalars =>
    Ok (map (fun g => (fst g, present (map snd (snd g)))) (groupby (fun s => map Some (tl (fst s))) df_scalars))).

(** binding keyword arguments to a method's parameters, for the call at leap_ec/contrib/analysis.py:289: an unknown keyword or a
    missing argument is a TypeError *)
Definition bind_keywords (required optional given : list text) : result unit :=
  let has l c := existsb (text_eqb c) l in
  if negb (forallb (has (required ++ optional)) given) then Err TypeError
  else if negb (forallb (has given) required) then Err TypeError
  else Ok tt.

(** leap_ec/contrib/analysis.py:286-306 plot_avg_scalars, independent_vars not None; the signature of avg_scalar_metrics is at 158.
    [metric] is the measure and [name] its __name__; what is drawn after the call is left out. *)
Definition plot_avg_scalars (measure : list sample -> result (option Q)) (name : text) (metric_cols : list text) (df : list row)
  : result unit :=
  bind (bind_keywords [lit "metric_col"] [lit "scalar_measure"] [lit "metrics"]) (fun _ =>
  bind (avg_scalar_metrics measure 0 df) (fun _ =>
  if existsb (text_eqb name) metric_cols then Ok tt else Err AssertionError)).

(** ** the commands *)

(** a data frame read from a file: the names of its columns, and each row's entries as keys or times and as numbers; an entry
    is looked up only if there is such a column.  Reading and writing the text of the files is left out.
    leap_ec/contrib/analysis.py:344,366,393,414,432,452 *)
Record frow := mk_frow { as_key : text -> option Z; as_num : text -> option Q }.
(** leap_ec/contrib/analysis.py:344,366,393,414,432,452 *)
Record frame := mk_frame { f_columns : list text; f_rows : list frow }.

(** the columns an analyzer looks at; leap_ec/contrib/analysis.py:346,368,394,415,433 *)
Definition project (time_col : text) (metric_cols experiment_cols : list text) (run_col : text) (r : frow) : row :=
  mk_row (as_key r time_col) (as_key r run_col) (map (as_key r) experiment_cols) (map (as_num r) metric_cols).
(** leap_ec/contrib/analysis.py:346,368,394,415,433 *)
Definition experiment_cols : list text := [lit "experiment"].
(** CurveAnalyzer(df, time_col=time_col, experiment_cols=['experiment']); leap_ec/contrib/analysis.py:346,368,394,415,433 *)
Definition analyzer (time_col : text) (f : frame) : result (list row) :=
  bind (analyzer_init (f_columns f) time_col default_metric_cols experiment_cols default_run_col) (fun _ =>
    Ok (map (project time_col default_metric_cols experiment_cols default_run_col) (f_rows f))).

(** df[time_col] % modulo == 0; a missing time has no remainder, nor is there one modulo zero.
    leap_ec/contrib/analysis.py:367 *)
Definition on_step (modulo : Z) (t : option Z) : bool :=
  match t with Some z => negb (modulo =? 0)%Z && (z mod modulo =? 0)%Z | None => false end.

(** leap_ec/contrib/analysis.py:355-378 all, for a frame with some row on a step: the three pictures *)
Definition all_command (srt : list sample -> list sample) (metric_col : text) (error : bool) (modulo : Z) (time_col : text) (f : frame)
  : result ((list line * legend) * (list avg_line * legend) * list (list Z * list Q)) :=
  if existsb (text_eqb time_col) (f_columns f) then
    let f' := mk_frame (f_columns f) (filter (fun r => on_step modulo (as_key r time_col)) (f_rows f)) in
    bind (analyzer time_col f') (fun df =>
    bind (plot_curves default_metric_cols metric_col df) (fun p1 =>
    bind (plot_avg_curves default_metric_cols metric_col error df) (fun p2 =>
    match metric_index metric_col default_metric_cols with
    | None => Err KeyError
    | Some j => bind (plot_scalars_bar (auc srt) j df) (fun p3 => Ok (p1, p2, p3))
    end)))
  else Err KeyError.

(** leap_ec/contrib/analysis.py:384-397 curves *)
Definition curves_command (metric_col time_col : text) (f : frame) : result (list line * legend) :=
  bind (analyzer time_col f) (plot_curves default_metric_cols metric_col).
(** leap_ec/contrib/analysis.py:403-418 avg_curves *)
Definition avg_curves_command (metric_col : text) (error : bool) (time_col : text) (f : frame) : result (list avg_line * legend) :=
  bind (analyzer time_col f) (plot_avg_curves default_metric_cols metric_col error).

(** pd.concat, leap_ec/contrib/analysis.py:455: all columns in the order they are met; a row has no entry in the columns its file
    did not have *)
Definition restrict (f : frame) (r : frow) : frow :=
  let of {A} (g : text -> option A) c := if existsb (text_eqb c) (f_columns f) then g c else None in
  mk_frow (of (as_key r)) (of (as_num r)).
(** leap_ec/contrib/analysis.py:455 *)
Fixpoint add_columns (cols more : list text) : list text :=
  match more with
  | [] => cols
  | c :: r => if existsb (text_eqb c) cols then add_columns cols r else add_columns (cols ++ [c]) r
  end.
(** leap_ec/contrib/analysis.py:442-455 cat_csv_files *)
Definition cat_frames (files : list frame) : result frame :=
  match files with
  | [] => Err ValueError
  | _ => Ok (mk_frame (fold_left add_columns (map f_columns files) [])
                      (concat (map (fun f => map (restrict f) (f_rows f)) files)))
  end.

(** the names avg_curves gives the columns; leap_ec/contrib/analysis.py:121-123 *)
Definition avg_columns (time_col : text) (metric_cols experiment_cols : list text) : list text :=
  (time_col :: experiment_cols) ++ concat (map (fun m => [m ++ lit "_mean"; m ++ lit "_std"]) metric_cols).
(** the averages as the rows of a file; leap_ec/contrib/analysis.py:347.  A time or experiment is read as a number where it is one. *)
Definition avg_frame (time_col : text) (metric_cols experiment_cols : list text) (tbl : list (list Z * list (option Q * option Q)))
  (sqrt : Q -> Q) : frame :=
  let names := avg_columns time_col metric_cols experiment_cols in
  let at_ {A} (l : list (option A)) c := match metric_index c names with Some i => nth i l None | None => None end in
  mk_frame names
    (map (fun r => mk_frow (at_ (map Some (fst r)))
                           (at_ (map (fun z => Some (inject_Z z)) (fst r) ++
                                 concat (map (fun mv => [fst mv; option_map sqrt (snd mv)]) (snd r))))) tbl).

(** leap_ec/contrib/analysis.py:327-349 analyze: the four files' contents.  Writing the combined frame with its index and reading it
    back adds a column in front. *)
Definition analyze (srt : list sample -> list sample) (sqrt : Q -> Q) (files : list frame)
  : result (frame * frame * list (list Z * option Q) * list (list Z * (option Q * option Q))) :=
  bind (cat_frames files) (fun c =>
  let all_runs_df := mk_frame (lit "Unnamed: 0" :: f_columns c) (f_rows c) in
  bind (analyzer default_time_col all_runs_df) (fun df =>
  bind (scalar_metrics_per_run (auc srt) 0 df) (fun per_run =>
  bind (avg_scalar_metrics (auc srt) 0 df) (fun avg =>
  Ok (all_runs_df,
      avg_frame default_time_col default_metric_cols experiment_cols (avg_curves (length default_metric_cols) df) sqrt, per_run, avg))))).
