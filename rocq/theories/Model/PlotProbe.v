(** The data the plotting probes keep and hand to matplotlib: leap_ec/probe.py:602-685, 869-875, 991-1051, 1057-1125, 1243-1302
    and leap_ec/multiobjective/probe.py.  Of matplotlib: the list of lines of an Axes, the offsets of a scatter plot, the limits
    of the view, and the last box given to update_datalim.  Drawing cannot fail here, except for lines with x and y of different lengths. *)
From Verif Require Import Model.Base Model.PyList Model.Scalar Model.Selection Model.Problems Model.CsvProbe.

(** an Axes: x and y data of each line; the last box (left, bottom, right, top) for autoscaling.  leap_ec/probe.py:653-684 *)
Record axes := mk_axes { ax_lines : list (list num * list num); ax_box : option ((num * num) * (num * num)) }.

(** Python's min(a, b) and max(a, b); leap_ec/probe.py:673-681 *)
Definition min2 (a b : num) : num := if num_ltb b a then b else a.
(** leap_ec/probe.py:673-681 *)
Definition max2 (a b : num) : num := if num_ltb a b then b else a.

(** ** PopulationMetricsPlotProbe, leap_ec/probe.py:602-685 *)

(** leap_ec/probe.py:663-666 *)
Record mstate := mk_ms { ms_x : list num; ms_y : list (list num); ms_ax : axes }.

(** np.min and np.max of a list of series: no series, or series of different lengths, raise ValueError (numpy 1.24 and
    later refuse to make an array of them); leap_ec/probe.py:677-678 *)
Definition same_lengths (ys : list (list num)) : bool :=
  match ys with [] => false | y :: r => negb (length y =? 0) && forallb (fun z => length z =? length y) r end.

(** Axes.relim goes through the lines; Line2D broadcasts x and y data against each other and raises ValueError if it cannot.
    leap_ec/probe.py:683 *)
Definition paired (nx ny : nat) : bool := (nx =? ny) || (nx =? 1) || (ny =? 1).

(** leap_ec/probe.py:670-685 _rescale_ax *)
Definition rescale (xlim ylim : option (num * num)) (x : list num) (ys : list (list num)) (ax : axes) : result axes :=
  match x with
  | [] => Err ValueError
  | _ =>
      let l := np_min x in
      let r := np_max x in
      let (l, r) := match xlim with Some lim => (min2 (fst lim) l, max2 (snd lim) r) | None => (l, r) end in
      if same_lengths ys then
        let b := np_min (concat ys) in
        let t := np_max (concat ys) in
        let (b, t) := match ylim with Some lim => (min2 (fst lim) b, max2 (snd lim) t) | None => (b, t) end in
        if forallb (fun line => paired (length (fst line)) (length (snd line))) (ax_lines ax)
        then Ok (mk_axes (ax_lines ax) (Some ((l, b), (r, t))))
        else Err ValueError
      else Err ValueError
  end.

Section Metrics.
(** what the metrics are computed from *)
Context {P : Type}.
Variables (xlim ylim : option (num * num)) (modulo : Z).

(** leap_ec/probe.py:663-668 reset *)
Definition metrics_reset (n : nat) (ax : axes) : mstate :=
  mk_ms [] (repeat [] n) (mk_axes (ax_lines ax ++ repeat ([], []) n) (ax_box ax)).

(** leap_ec/probe.py:603-640 __init__; metrics=None is the default *)
Definition metrics_init (metrics : option (list (P -> result num))) (ax : axes) : result mstate :=
  match metrics with
  | None => Err TypeError
  | Some ms => Ok (metrics_reset (length ms) ax)
  end.

(** leap_ec/probe.py:651-655, from metric [i] on *)
Fixpoint write_metrics (ms : list (P -> result num)) (i : nat) (pop : P) (st : mstate) : result unit * mstate :=
  match ms with
  | [] => (Ok tt, st)
  | m :: r =>
      match m pop with
      | Err e => (Err e, st)
      | Ok v =>
          let y := nth i (ms_y st) [] ++ [to_float v] in
          let ys := set_nth i y (ms_y st) in
          match nth_error (ax_lines (ms_ax st)) i with
          | None => (Err IndexError, mk_ms (ms_x st) ys (ms_ax st))
          | Some _ =>
              write_metrics r (S i) pop
                (mk_ms (ms_x st) ys (mk_axes (set_nth i (ms_x st, y) (ax_lines (ms_ax st))) (ax_box (ms_ax st))))
          end
      end
  end.

(** leap_ec/probe.py:642-661 __call__ in generation [gen], where x_axis_value() gives [xv] *)
Definition metrics_call (ms : list (P -> result num)) (gen : Z) (xv : result num) (pop : P) (st : mstate)
  : result P * mstate :=
  if (modulo =? 0)%Z then (Err ZeroDivisionError, st)
  else if (gen mod modulo =? 0)%Z then
    match xv with
    | Err e => (Err e, st)
    | Ok v =>
        match write_metrics ms 0 pop (mk_ms (ms_x st ++ [to_float v]) (ms_y st) (ms_ax st)) with
        | (Err e, st') => (Err e, st')
        | (Ok _, st') =>
            match rescale xlim ylim (ms_x st') (ms_y st') (ms_ax st') with
            | Err e => (Err e, st')
            | Ok ax => (Ok pop, mk_ms (ms_x st') (ms_y st') ax)
            end
        end
    end
  else (Ok pop, st).

(** calls one after another, leap_ec/probe.py:642-661; the caller goes on after an exception *)
Fixpoint metrics_run (ms : list (P -> result num)) (h : list (Z * result num * P)) (st : mstate)
  : list (result P) * mstate :=
  match h with
  | [] => ([], st)
  | (gen, xv, pop) :: h' =>
      let '(r, st') := metrics_call ms gen xv pop st in
      let '(rs, st'') := metrics_run ms h' st' in (r :: rs, st'')
  end.
End Metrics.

(** leap_ec/probe.py:869-875 FitnessPlotProbe: its one metric; a population comes with the answers of the comparisons *)
Definition fitness_metric (maximize : bool) (p : (sind -> sind -> bool) * list sind) : result num :=
  bind (best_of_gen maximize (fst p) (snd p)) (fun b => Ok (si_fit b)).

(** ** leap_ec/multiobjective/probe.py:24-44, 46-58, 60-62 ParetoPlotProbe2D *)
Record pstate := mk_ps { ps_x : list num; ps_y : list num; ps_offsets : list (num * num); ps_ax : axes }.

(** leap_ec/multiobjective/probe.py:24-44 __init__: with ax=None, the default, the new Axes stays in the base class and
    ax.scatter fails *)
Definition pareto_init (ax : option axes) : result pstate :=
  match ax with None => Err AttributeError | Some a => Ok (mk_ps [] [] [] a) end.

(** [ind.fitness[k] for ind in population], leap_ec/multiobjective/probe.py:51-52 *)
Fixpoint components (k : nat) (l : list (list num)) : result (list num) :=
  match l with
  | [] => Ok []
  | v :: r => match nth_error v k with
              | None => Err IndexError
              | Some a => bind (components k r) (fun r' => Ok (a :: r'))
              end
  end.

(** leap_ec/multiobjective/probe.py:46-58 __call__; [step] is get_step(context), [pop] the fitness vectors *)
Definition pareto_call (xlim ylim : num * num) (modulo : Z) (step : result Z) (pop : list (list num)) (st : pstate)
  : result (list (list num)) * pstate :=
  match step with
  | Err e => (Err e, st)
  | Ok s =>
      if (modulo =? 0)%Z then (Err ZeroDivisionError, st)
      else if (s mod modulo =? 0)%Z then
        match components 0 pop with
        | Err e => (Err e, st)
        | Ok x =>
            match components 1 pop with
            | Err e => (Err e, mk_ps x (ps_y st) (ps_offsets st) (ps_ax st))
            | Ok y =>
                match rescale (Some xlim) (Some ylim) x [y] (ps_ax st) with
                | Err e => (Err e, mk_ps x y (combine x y) (ps_ax st))
                | Ok ax => (Ok pop, mk_ps x y (combine x y) ax)
                end
            end
        end
      else (Ok pop, st)
  end.

(** ** phenotype plots *)

(** the limits of the view: left, right, bottom, top; leap_ec/probe.py:1016-1021 *)
Record view := mk_view { v_left : num; v_right : num; v_bottom : num; v_top : num }.
(** leap_ec/probe.py:1014-1026 *)
Record scatter := mk_sc { sc_x : list num; sc_y : list num; sc_offsets : list (num * num); sc_view : view }.

(** leap_ec/probe.py:1014-1026 the end of __init__ *)
Definition scatter_init (xlim ylim : num * num) : scatter :=
  mk_sc [] [] [] (mk_view (fst xlim) (snd xlim) (fst ylim) (snd ylim)).

(** set_xlim and set_ylim refuse nan and infinities; leap_ec/probe.py:1044-1051 *)
Definition finite_limit (v : num) : bool := match num_val v with Some (Fin _) => true | _ => false end.
(** leap_ec/probe.py:1043-1051, 1294-1302 __rescale_ax; [xlim], [ylim] the limits given to __init__.  A limit set before another raises
    stays set *)
Definition rescale_view (xlim ylim : num * num) (x y : list num) (v : view) : result unit * view :=
  match x with
  | [] => (Err ValueError, v)
  | _ =>
      let lim (cond : bool) (new : num) (set : num -> view -> view) (k : view -> result unit * view) (v : view) :=
        if cond then if finite_limit new then k (set new v) else (Err ValueError, v) else k v in
      lim (num_ltb (np_min x) (fst xlim)) (np_min x) (fun a v => mk_view a (v_right v) (v_bottom v) (v_top v))
     (lim (num_ltb (snd xlim) (np_max x)) (np_max x) (fun a v => mk_view (v_left v) a (v_bottom v) (v_top v))
     (lim (num_ltb (np_min y) (fst ylim)) (np_min y) (fun a v => mk_view (v_left v) (v_right v) a (v_top v))
     (lim (num_ltb (snd ylim) (np_max y)) (np_max y) (fun a v => mk_view (v_left v) (v_right v) (v_bottom v) a)
     (fun v => (Ok tt, v))))) v
  end.

(** the rest of a measured call, leap_ec/probe.py:1037-1041, 1288-1292 *)
Definition show_points {P} (xlim ylim : num * num) (x y : list num) (pop : P) (st : scatter) : result P * scatter :=
  match rescale_view xlim ylim x y (sc_view st) with
  | (Err e, v) => (Err e, mk_sc x y (combine x y) v)
  | (Ok _, v) => (Ok pop, mk_sc x y (combine x y) v)
  end.

(** leap_ec/probe.py:1028-1041 CartesianPhenotypePlotProbe.__call__ on the phenomes *)
Definition cartesian_call (xlim ylim : num * num) (modulo gen : Z) (pop : list (list num)) (st : scatter)
  : result (list (list num)) * scatter :=
  if (modulo =? 0)%Z then (Err ZeroDivisionError, st)
  else if (gen mod modulo =? 0)%Z then
    match components 0 pop with
    | Err e => (Err e, st)
    | Ok x => match components 1 pop with
              | Err e => (Err e, mk_sc x (sc_y st) (sc_offsets st) (sc_view st))
              | Ok y => show_points xlim ylim x y pop st
              end
    end
  else (Ok pop, st).

(** leap_ec/probe.py:1279-1292 SumPhenotypePlotProbe.__call__; an individual is its phenome and its fitness *)
Definition sum_call (xlim ylim : num * num) (modulo gen : Z) (pop : list (list num * num)) (st : scatter)
  : result (list (list num * num)) * scatter :=
  if (modulo =? 0)%Z then (Err ZeroDivisionError, st)
  else if (gen mod modulo =? 0)%Z then
    show_points xlim ylim (map (fun i => fold_left num_add (fst i) (NInt 0)) pop) (map snd pop) pop st
  else (Ok pop, st).

(** calls one after another; the caller goes on after an exception.  Histories of leap_ec/probe.py:1028-1041, 1279-1292 *)
Fixpoint scatter_run {P} (call : Z -> P -> scatter -> result P * scatter) (h : list (Z * P)) (st : scatter)
  : list (result P) * scatter :=
  match h with
  | [] => ([], st)
  | (gen, pop) :: h' =>
      let '(r, st') := call gen pop st in
      let '(rs, st'') := scatter_run call h' st' in (r :: rs, st'')
  end.

(** np.arange(a, b, step), leap_ec/probe.py:1260 *)
Definition arange (a b step : Z) : result (list Z) :=
  if (step =? 0)%Z then Err ZeroDivisionError
  else Ok (map (fun k => (a + Z.of_nat k * step)%Z) (seq 0 (Z.to_nat (- ((a - b) / step))))).

(** leap_ec/probe.py:1255-1259 bitstring_with_ones *)
Definition bitstring_with_ones (max_number_of_ones num_ones : Z) : result (list Z) :=
  if (num_ones <=? max_number_of_ones)%Z
  then Ok (repeat 1%Z (Z.to_nat num_ones) ++ repeat 0%Z (Z.to_nat (max_number_of_ones - num_ones)))
  else Err AssertionError.

(** leap_ec/probe.py:1263 *)
Fixpoint curve_values (evaluate : list Z -> result num) (mx : Z) (xs : list Z) : result (list (Z * num)) :=
  match xs with
  | [] => Ok []
  | i :: r => bind (bitstring_with_ones mx i) (fun s => bind (evaluate s) (fun v =>
              bind (curve_values evaluate mx r) (fun r' => Ok ((i, v) :: r'))))
  end.
(** leap_ec/probe.py:1249-1264: the points of the fitness curve drawn by SumPhenotypePlotProbe.__init__ *)
Definition sum_curve (evaluate : list Z -> result num) (xlim : Q * Q) (granularity : Q) : result (list (Z * num)) :=
  let mx := Qtrunc (snd xlim) in
  bind (arange (Qtrunc (fst xlim)) (mx + 1) (Qtrunc granularity)) (curve_values evaluate mx).

(** leap_ec/probe.py:1074-1087 HistPhenotypePlotProbe.__call__: [shown] are the phenomes last given to ax.hist *)
Definition hist_call {P} (modulo gen : Z) (pop : list P) (shown : list P) : result (list P) * list P :=
  if (modulo =? 0)%Z then (Err ZeroDivisionError, shown)
  else if (gen mod modulo =? 0)%Z then (Ok pop, pop) else (Ok pop, shown).

(** leap_ec/probe.py:1109-1124 HeatMapPhenotypeProbe.__call__: the columns of self.map and the phenomes shown.  [histogram]
    is np.histogram's counts, whose result is not used *)
Definition heatmap_call {P} (histogram : list P -> list Z) (modulo gen : Z) (pop : list P) (st : list (list Z) * list P)
  : result (list P) * (list (list Z) * list P) :=
  if (modulo =? 0)%Z then (Err ZeroDivisionError, st)
  else if (gen mod modulo =? 0)%Z then let hist := histogram pop in (Ok pop, (fst st, pop)) else (Ok pop, st).
(** histories of leap_ec/probe.py:1109-1124 *)
Fixpoint heatmap_run {P} (histogram : list P -> list Z) (modulo : Z) (h : list (Z * list P)) (st : list (list Z) * list P)
  : list (list Z) * list P :=
  match h with
  | [] => st
  | (gen, pop) :: h' => heatmap_run histogram modulo h' (snd (heatmap_call histogram modulo gen pop st))
  end.
