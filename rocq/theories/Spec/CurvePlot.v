(** What the pictures of performance curves show. *)
From Coq Require Import Ascii String Sorted.
From Verif Require Import Model.Base Model.PyList Model.RealProblems Model.CsvProbe Model.Analysis Model.CurvePlot Spec.Problems Spec.Metrics Spec.CsvProbe Spec.Analysis.
Local Open Scope list_scope.

(** all rows have the same experiment columns *)
Definition same_width (df : list row) : Prop := exists n, forall r, In r df -> length (r_exps r) = n.
(** the points of some rows *)
Definition shown (j : nat) (rows : list row) : list sample := map (fun r => (r_time r, metric j r)) rows.

(** The legend lists the experiments of the rows that count, in order, each once; the first ten colours are used in turn, and
    the tenth for all further experiments. *)
Definition legend_of (counts : row -> Prop) (df : list row) (lg : legend) : Prop :=
  StronglySorted key_lt (map snd lg) /\
  (forall e, In e (map snd lg) <-> exists r, In r df /\ counts r /\ has_key r_exps r e) /\
  (forall i c e, nth_error lg i = Some (c, e) -> (i < 10 -> c = i) /\ (10 <= i -> c = 9)).

(** the rows of experiment [e] at time [t] *)
Definition rows_at (df : list row) (e : list Z) (t : Z) (g : list row) : Prop :=
  exists b, (forall r, In r df -> (b r = true <-> r_time r = Some t /\ has_key r_exps r e)) /\ g = filter b df.
(** the average line of an experiment: for each time recorded the mean over the rows of that time, and the error bar from
    their deviation *)
Definition average_line (j : nat) (df : list row) (e : list Z) (bars : bool) (l : avg_line) : Prop :=
  exists ts mvs, StronglySorted Z.lt ts /\
    (forall t, In t ts <-> exists r, In r df /\ r_time r = Some t /\ has_key r_exps r e) /\
    Forall2 (fun t mv => exists g, rows_at df e t g /\ mean_and_var (map (metric j) g) mv) ts mvs /\
    al_points l = combine (map Some ts) (map fst mvs) /\
    al_errors l = if bars then Some (map snd mvs) else None.

(** the rows of experiment [e] *)
Definition rows_of (df : list row) (e : list Z) (g : list row) : Prop :=
  exists b, (forall r, In r df -> (b r = true <-> has_key r_exps r e)) /\ g = filter b df.
(** a box is drawn from the measures of the experiment's runs, as far as there are any *)
Definition box_of (measure : list sample -> result (option Q)) (j : nat) (df : list row) (e : list Z) (vs : list Q) : Prop :=
  exists g gs ms, rows_of df e g /\ grouped (fun r => [r_run r]) g gs /\
    Forall2 (fun rg m => measure (shown j (snd rg)) = Ok m) gs ms /\ vs = known ms.

(** a sample whose time is a multiple of [m] *)
Definition multiple_of (m : Z) (s : sample) : Prop := exists q, fst s = Some (q * m)%Z.
(** a list without the samples at other times *)
Definition thinned (m : Z) (l l' : list sample) : Prop := exists b, (forall s, b s = true <-> multiple_of m s) /\ l' = filter b l.
(** all lists of samples thinned, and those left empty removed *)
Inductive thinned_lines (m : Z) : list (list sample) -> list (list sample) -> Prop :=
| tl_nil : thinned_lines m [] []
| tl_gone l ls ls' : thinned m l [] -> thinned_lines m ls ls' -> thinned_lines m (l :: ls) ls'
| tl_kept l l' ls ls' : thinned m l l' -> l' <> [] -> thinned_lines m ls ls' -> thinned_lines m (l :: ls) (l' :: ls').

(** the entry of a row of a file, missing if the file has no such column *)
Definition entry {A} (f : frame) (c : text) (given : option A) (v : option A) : Prop :=
  (In c (f_columns f) -> v = given) /\ (~ In c (f_columns f) -> v = None).
(** the columns a command works with *)
Definition needed (time_col : text) : list text :=
  [time_col; lit "job"; lit "experiment"; lit "bsf"; lit "mean_fitness"; lit "std_fitness"; lit "min_fitness"; lit "max_fitness"].
(** a file's row as the tables see it *)
Definition reads (f : frame) (r : frow) (o : row) : Prop :=
  entry f (lit "step") (as_key r (lit "step")) (r_time o) /\ entry f (lit "job") (as_key r (lit "job")) (r_run o) /\
  (exists e, r_exps o = [e] /\ entry f (lit "experiment") (as_key r (lit "experiment")) e) /\
  Forall2 (fun c v => entry f c (as_num r c) v) [lit "bsf"; lit "mean_fitness"; lit "std_fitness"; lit "min_fitness"; lit "max_fitness"] (r_metrics o).
(** the rows of a file as a command with this column of times sees them *)
Definition seen (time_col : text) (r : frow) (o : row) : Prop :=
  r_time o = as_key r time_col /\ r_run o = as_key r (lit "job") /\ r_exps o = [as_key r (lit "experiment")] /\
  r_metrics o = map (as_num r) [lit "bsf"; lit "mean_fitness"; lit "std_fitness"; lit "min_fitness"; lit "max_fitness"].

(** ** example data *)
(** twelve experiments with one row each *)
Definition ex_many (n : nat) : list row :=
  map (fun i => mk_row (Some 0%Z) (Some 1%Z) [Some (Z.of_nat i)] [Some 1%Q]) (seq 0 n).
Definition ex_entry (c : text) : bool := existsb (text_eqb c) (needed (lit "step")).
(** a row of a file: step, job, experiment, and one value for all metrics *)
Definition ex_frow (t j e : Z) (v : Q) : frow :=
  mk_frow (fun c => if text_eqb c (lit "step") then Some t else if text_eqb c (lit "job") then Some j
                    else if text_eqb c (lit "experiment") then Some e else None)
          (fun c => Some v).
Definition ex_frame : frame :=
  mk_frame (needed (lit "step")) [ex_frow 0 1 7 1; ex_frow 1 1 7 2; ex_frow 2 1 7 6; ex_frow 0 2 7 3; ex_frow 2 2 7 4; ex_frow 1 1 8 5].
(** a file without the column of the experiments *)
Definition ex_bare_frame : frame := mk_frame [lit "step"; lit "job"; lit "bsf"] [ex_frow 0 1 7 1].
(** an experiment whose only row has no time *)
Definition ex_untimed : list row :=
  [mk_row None (Some 1%Z) [Some 1%Z] [Some 1%Q]; mk_row (Some 0%Z) (Some 1%Z) [Some 2%Z] [Some 1%Q]].
