(** leap_ec/contrib/analysis.py: the measures auc and max_value, and the tables CurveAnalyzer makes.  Times are integers
    (steps, births), metrics exact rationals, None a missing value (NaN).  The value of a run or experiment column is
    an integer that stands for its place in the column's order.  A standard deviation is given by its square. *)
From Coq Require Import Ascii String.
From Verif Require Import Model.Base Model.PyList Model.Metrics Model.RealProblems Model.CsvProbe.
Local Open Scope list_scope.

(** ** measures of one curve: a group's time and metric columns, leap_ec/contrib/analysis.py:32-49 *)
Definition sample := (option Z * option Q)%type.

(** the rows if nothing is missing; leap_ec/contrib/analysis.py:43-48: one NaN makes the sum NaN *)
Fixpoint all_present (l : list sample) : option (list (Z * Q)) :=
  match l with
  | [] => Some []
  | (Some t, Some v) :: r => match all_present r with Some r' => Some ((t, v) :: r') | None => None end
  | _ :: _ => None
  end.

(** leap_ec/contrib/analysis.py:44: previous_time, one entry per row: the smallest time, then all times but the last *)
Definition previous_time (times : list Z) : list Z :=
  match times with
  | [] => []
  | t :: r => fold_left Z.min r t :: removelast times
  end.

(** leap_ec/contrib/analysis.py:40-48 auc; [srt] is sort_values(time_col), an unstable sort.  A frame without rows: the new
    column has one entry too many. *)
Definition auc (srt : list sample -> list sample) (df : list sample) : result (option Q) :=
  match srt df with
  | [] => Err ValueError
  | s => Ok (match all_present s with
             | None => None
             | Some l =>
                 let times := map fst l in
                 let xdiff := map (fun tp => inject_Z (fst tp - snd tp)) (combine times (previous_time times)) in
                 Some (q_sum (map (fun p => (fst p * snd p)%Q) (combine xdiff (map snd l))))
             end)
  end.

(** the values that are not missing: pandas' max, mean and std skip the others; leap_ec/contrib/analysis.py:34,119,178 *)
Definition present {A} (l : list (option A)) : list A := concat (map (fun o => match o with Some v => [v] | None => [] end) l).

(** leap_ec/contrib/analysis.py:31-34 max_value *)
Definition max_value (df : list sample) : result (option Q) :=
  Ok (match present (map snd df) with
      | [] => None
      | v :: r => Some (fold_left (fun m x => if Qlt_le_dec m x then x else m) r v)
      end).

(** ** DataFrame.groupby, leap_ec/contrib/analysis.py:119,147,178 *)

(** keys compare by the first value that differs *)
(** leap_ec/contrib/analysis.py:119,147,178 *)
Fixpoint key_ltb (a b : list Z) : bool :=
  match a, b with
  | x :: a', y :: b' => (x <? y)%Z || (x =? y)%Z && key_ltb a' b'
  | [], _ :: _ => true
  | _, [] => false
  end.
(** leap_ec/contrib/analysis.py:119,147,178 *)
Fixpoint key_eqb (a b : list Z) : bool :=
  match a, b with
  | x :: a', y :: b' => (x =? y)%Z && key_eqb a' b'
  | [], [] => true
  | _, _ => false
  end.
(** leap_ec/contrib/analysis.py:119,147,178: the distinct keys in order *)
Fixpoint add_key (k : list Z) (ks : list (list Z)) : list (list Z) :=
  match ks with
  | [] => [k]
  | h :: r => if key_ltb k h then k :: ks else if key_ltb h k then h :: add_key k r else ks
  end.
(** leap_ec/contrib/analysis.py:119,147,178: a row with a missing value in a key column has no key and is in no group *)
Fixpoint whole_key (cells : list (option Z)) : option (list Z) :=
  match cells with
  | [] => Some []
  | Some c :: r => match whole_key r with Some k => Some (c :: k) | None => None end
  | None :: _ => None
  end.
(** leap_ec/contrib/analysis.py:119,147,178 *)
Definition groupby {R} (cells : R -> list (option Z)) (rows : list R) : list (list Z * list R) :=
  map (fun k => (k, filter (fun r => match whole_key (cells r) with Some k' => key_eqb k' k | None => false end) rows))
      (fold_right add_key [] (present (map (fun r => whole_key (cells r)) rows))).

(** agg 'mean'; leap_ec/contrib/analysis.py:119,178 *)
Definition agg_mean (vs : list (option Q)) : option Q :=
  match present vs with [] => None | l => Some (q_mean l) end.
(** the square of agg 'std', which divides by one less than the number of values; leap_ec/contrib/analysis.py:119,178 *)
Definition agg_var (vs : list (option Q)) : option Q :=
  match present vs with
  | [] | [_] => None
  | l => Some (q_sum (map (fun v => ((v - q_mean l) * (v - q_mean l))%Q) l) / inject_Z (Z.of_nat (length l) - 1))%Q
  end.

(** ** CurveAnalyzer *)

(** leap_ec/contrib/analysis.py:83-103 __init__, no argument None: [columns] of the dataframe *)
Definition analyzer_init (columns : list text) (time_col : text) (metric_cols experiment_cols : list text) (run_col : text)
  : result unit :=
  let has c := existsb (fun c' => if list_eq_dec ascii_dec c c' then true else false) columns in
  if (length metric_cols =? 0) then Err AssertionError
  else if (length experiment_cols =? 0) then Err AssertionError
  else if negb (has time_col) then Err AssertionError
  else if negb (has run_col) then Err AssertionError
  else if negb (forallb has metric_cols) then Err AssertionError
  else if negb (forallb has experiment_cols) then Err AssertionError
  else Ok tt.
(** leap_ec/probe.py:316 FitnessStatsCSVProbe.time_col, the default at leap_ec/contrib/analysis.py:84 *)
Definition default_time_col : text := lit "step".
(** leap_ec/probe.py:317 FitnessStatsCSVProbe.default_metric_cols, the default at leap_ec/contrib/analysis.py:85 *)
Definition default_metric_cols : list text := [lit "bsf"; lit "mean_fitness"; lit "std_fitness"; lit "min_fitness"; lit "max_fitness"].
(** leap_ec/contrib/analysis.py:87 *)
Definition default_run_col : text := lit "job".
(** leap_ec/contrib/analysis.py:86 *)
Definition default_experiment_cols : list text := [].

(** the columns a CurveAnalyzer looks at, leap_ec/contrib/analysis.py:83-99 *)
Record row := mk_row { r_time : option Z; r_run : option Z; r_exps : list (option Z); r_metrics : list (option Q) }.
(** leap_ec/contrib/analysis.py:116 *)
Definition metric (j : nat) (r : row) : option Q := nth j (r_metrics r) None.

(** leap_ec/contrib/analysis.py:105-124 avg_curves: per group the time and experiment values, and for each of the [m] metrics
    mean and squared deviation *)
Definition avg_curves (m : nat) (df : list row) : list (list Z * list (option Q * option Q)) :=
  map (fun g => (fst g, map (fun j => (agg_mean (map (metric j) (snd g)), agg_var (map (metric j) (snd g)))) (seq 0 m)))
      (groupby (fun r => r_time r :: r_exps r) df).

(** leap_ec/contrib/analysis.py:126-156 scalar_metrics_per_run: per group the run and experiment values, and the measure *)
Definition scalar_metrics_per_run (measure : list sample -> result (option Q)) (j : nat) (df : list row)
  : result (list (list Z * option Q)) :=
  map_result (fun g => bind (measure (map (fun r => (r_time r, metric j r)) (snd g))) (fun v => Ok (fst g, v)))
    (groupby (fun r => r_run r :: r_exps r) df).

(** leap_ec/contrib/analysis.py:158-184 avg_scalar_metrics; the first entry of the keys is the run *)
Definition avg_scalar_metrics (measure : list sample -> result (option Q)) (j : nat) (df : list row)
  : result (list (list Z * (option Q * option Q))) :=
  bind (scalar_metrics_per_run measure j df) (fun df_scalars =>
    Ok (map (fun g => (fst g, (agg_mean (map snd (snd g)), agg_var (map snd (snd g)))))
            (groupby (fun s => map Some (tl (fst s))) df_scalars))).

(** leap_ec/contrib/analysis.py:442-453 cat_csv_files, on the rows read from each file *)
Definition cat_csv_files (files : list (list row)) : result (list row) :=
  match files with [] => Err ValueError | _ => Ok (concat files) end.
