(** Theorems about the plotting probes: C79 (metrics over time) and C80 (populations as points). *)
From Verif Require Import Model.Base Model.PyList Model.Scalar Model.Selection Model.Problems Model.CsvProbe Model.PlotProbe
  Spec.Order Spec.CsvProbe Spec.PlotProbe Proofs.PlotProbe.
From Coq Require Import Lqa Lia.

(** ** C79 *)
Theorem C79_series {P} xlim ylim modulo (ms : list (P -> result num)) ax h : ms <> [] -> modulo <> 0%Z ->
  (forall line, In line (ax_lines ax) -> length (fst line) = length (snd line)) ->
  (forall c, In c (measured_calls modulo h) -> nothing_raises ms c) ->
  exists st0 st, metrics_init (Some ms) ax = Ok st0 /\
    metrics_run xlim ylim modulo ms h st0 = (map (fun c => Ok (snd c)) h, st) /\
    shown xlim ylim ms (ax_lines ax ++ repeat ([], []) (length ms)) (measured_calls modulo h) st.
Proof. exact (run_spec xlim ylim modulo ms ax h). Qed.
Print Assumptions C79_series.

Theorem C79_own_axes {P} xlim ylim modulo (ms : list (P -> result num)) ax h : ms <> [] -> modulo <> 0%Z -> ax_lines ax = [] ->
  (forall c, In c (measured_calls modulo h) -> nothing_raises ms c) -> measured_calls modulo h <> [] ->
  exists st0 st, metrics_init (Some ms) ax = Ok st0 /\
    metrics_run xlim ylim modulo ms h st0 = (map (fun c => Ok (snd c)) h, st) /\
    ax_lines (ms_ax st) = map (fun y => (ms_x st, y)) (ms_y st) /\
    is_series (fun c => snd (fst c)) (measured_calls modulo h) (ms_x st) /\
    Forall2 (fun m y => is_series (fun c => m (snd c)) (measured_calls modulo h) y) ms (ms_y st).
Proof. exact (run_alone xlim ylim modulo ms ax h). Qed.
Print Assumptions C79_own_axes.

Theorem C79_unmeasured {P} xlim ylim modulo (ms : list (P -> result num)) gen xv pop st : modulo <> 0%Z -> (gen mod modulo <> 0)%Z ->
  metrics_call xlim ylim modulo ms gen xv pop st = (Ok pop, st).
Proof. exact (metrics_unmeasured xlim ylim modulo ms gen xv pop st). Qed.
Print Assumptions C79_unmeasured.

Theorem C79_fitness_plot xlim ylim modulo mx ax h : modulo <> 0%Z -> ax_lines ax = [] ->
  (forall c, In c (measured_calls modulo h) -> (exists v, snd (fst c) = Ok v) /\ snd (snd c) <> []) -> measured_calls modulo h <> [] ->
  exists st0 st x y, metrics_init (Some [fitness_metric mx]) ax = Ok st0 /\
    metrics_run xlim ylim modulo [fitness_metric mx] h st0 = (map (fun c => Ok (snd c)) h, st) /\
    ax_lines (ms_ax st) = [(x, y)] /\
    is_series (fun c => snd (fst c)) (measured_calls modulo h) x /\
    Forall2 (fun c a => exists v, best_fitness_of mx (snd (snd c)) v /\ same_num v a) (measured_calls modulo h) y.
Proof. exact (fitness_plot xlim ylim modulo mx ax h). Qed.
Print Assumptions C79_fitness_plot.

(** after a metric raised at a measured call, x stays ahead of y for ever, and at most one later measured call does not raise *)
Theorem C79_failure_is_permanent {P} xlim ylim modulo (ms : list (P -> result num)) ax h1 c h2 : modulo <> 0%Z ->
  (forall line, In line (ax_lines ax) -> length (fst line) = length (snd line)) ->
  (forall c, In c (measured_calls modulo h1) -> nothing_raises ms c) ->
  (fst (fst c) mod modulo = 0)%Z -> (exists v, snd (fst c) = Ok v) -> (exists m e, In m ms /\ m (snd c) = Err e) ->
  exists st0 rs1 st1 e st2 rs2 st3, metrics_init (Some ms) ax = Ok st0 /\
    metrics_run xlim ylim modulo ms h1 st0 = (rs1, st1) /\
    metrics_call xlim ylim modulo ms (fst (fst c)) (snd (fst c)) (snd c) st1 = (Err e, st2) /\
    metrics_run xlim ylim modulo ms h2 st2 = (rs2, st3) /\
    (exists m, In m ms /\ m (snd c) = Err e) /\
    at_most_one (measured_ok modulo) (combine h2 rs2) /\
    (measured_calls modulo h1 <> [] -> forall q, In q (combine h2 rs2) -> ~ measured_ok modulo q) /\
    (exists y, In y (ms_y st3) /\ length y < length (ms_x st3)).
Proof. exact (failure_permanent xlim ylim modulo ms ax h1 c h2). Qed.
Print Assumptions C79_failure_is_permanent.

(** and that one draws a value at two places *)
Theorem C79_recovery_refuted : exists (ms : list (Z -> result num)) ax st0 rs st, metrics_init (Some ms) ax = Ok st0 /\
  metrics_run None None 1%Z ms [(0%Z, Ok (NInt 0), (-1)%Z); (1%Z, Ok (NInt 1), 3%Z)] st0 = (rs, st) /\
  nth_error rs 1 = Some (Ok 3%Z) /\ ax_lines (ms_ax st) = [([NFlt false (Fin (inject_Z 0)); NFlt false (Fin (inject_Z 1))], [NFlt false (Fin (inject_Z 6))])].
Proof.
  exists [ex_metric], (mk_axes [] None). eexists _, _, _. split; [vm_compute; reflexivity|]. split; [vm_compute; reflexivity|]. split; reflexivity.
Qed.
Print Assumptions C79_recovery_refuted.

(** the default, metrics=None, cannot be constructed *)
Example C79_default_metrics : @metrics_init Z None ex_axes = Err TypeError.
Proof. reflexivity. Qed.

(** on axes with a line, the probe draws over that line and its own stays empty *)
Theorem C79_shared_axes_refuted : exists ax old st0 st, ax_lines ax = [old] /\ metrics_init (Some [ex_metric]) ax = Ok st0 /\
  metrics_run None None 1%Z [ex_metric] [(0%Z, Ok (NInt 0), 3%Z)] st0 = ([Ok 3%Z], st) /\
  exists l, ax_lines (ms_ax st) = [l; ([], [])] /\ l <> old.
Proof. exists ex_axes. eexists _, _, _. split; [reflexivity|]. split; [vm_compute; reflexivity|]. split; [vm_compute; reflexivity|]. eexists. split; [reflexivity|]. discriminate. Qed.
Print Assumptions C79_shared_axes_refuted.

(** one NaN and the box is that of the limits: the value 1000 is outside *)
Theorem C79_nan_box_refuted : exists st0 rs st b, metrics_init (Some [fun v : num => Ok v]) (mk_axes [] None) = Ok st0 /\
  metrics_run (Some ex_lims) (Some ex_lims) 1%Z [fun v : num => Ok v] [(0%Z, Ok (NInt 0), NNan); (1%Z, Ok (NInt 1), NInt 1000)] st0 = (rs, st) /\
  ax_box (ms_ax st) = Some b /\ snd (snd b) = NInt 5 /\ exists y, nth_error (ms_y st) 0 = Some y /\ exists a, In a y /\ same_num a (NInt 1000).
Proof.
  eexists _, _, _, _. split; [vm_compute; reflexivity|]. split; [vm_compute; reflexivity|]. split; [reflexivity|]. split; [reflexivity|].
  eexists. split; [reflexivity|]. eexists. split; [right; left; reflexivity|reflexivity].
Qed.
Print Assumptions C79_nan_box_refuted.

Example C79_series_example : exists st0 st, metrics_init (Some [ex_metric; fun p => Ok (NInt (p - 10))]) ex_axes = Ok st0 /\
  metrics_run (Some ex_lims) None 2%Z [ex_metric; fun p => Ok (NInt (p - 10))]
    [(0%Z, Ok (NInt 0), 3%Z); (1%Z, Ok (NInt 1), (-4)%Z); (2%Z, Ok (NInt 2), 7%Z)] st0 = ([Ok 3%Z; Ok (-4)%Z; Ok 7%Z], st) /\
  map (map num_val) (ms_y st) = [[Some (Fin 6); Some (Fin 14)]; [Some (Fin (-7)); Some (Fin (-3))]] /\
  nth_error (ax_lines (ms_ax st)) 2 = Some ([], []) /\
  option_map (fun b => (num_val (fst (fst b)), num_val (snd (fst b)), num_val (fst (snd b)), num_val (snd (snd b)))) (ax_box (ms_ax st)) =
    Some (Some (Fin (-5)), Some (Fin (-7)), Some (Fin 5), Some (Fin 14)).
Proof. eexists _, _. split; [vm_compute; reflexivity|]. split; [vm_compute; reflexivity|]. repeat split. Qed.
Example C79_failure_example : exists st0 rs st, metrics_init (Some [ex_metric]) (mk_axes [] None) = Ok st0 /\
  metrics_run None None 1%Z [ex_metric] [(0%Z, Ok (NInt 0), 3%Z); (1%Z, Ok (NInt 1), (-4)%Z); (2%Z, Ok (NInt 2), 7%Z); (3%Z, Ok (NInt 3), 8%Z)] st0 = (rs, st) /\
  rs = [Ok 3%Z; Err ValueError; Err ValueError; Err ValueError].
Proof. eexists _, _, _. split; [vm_compute; reflexivity|]. split; [vm_compute; reflexivity|]. repeat split. Qed.

(** ** C80 *)
Theorem C80_cartesian xlim ylim modulo h : modulo <> 0%Z ->
  finite_num (fst xlim) -> finite_num (snd xlim) -> finite_num (fst ylim) -> finite_num (snd ylim) ->
  (forall c, In c h -> (fst c mod modulo = 0)%Z -> snd c <> [] /\ forall v, In v (snd c) -> 2 <= length v /\ Forall finite_num v) ->
  exists st, scatter_run (cartesian_call xlim ylim modulo) h (scatter_init xlim ylim) = (map (fun c => Ok (snd c)) h, st) /\
    plot_ok (Forall2 is_point) xlim ylim modulo h st.
Proof. exact (cartesian_spec xlim ylim modulo h). Qed.
Print Assumptions C80_cartesian.

Theorem C80_sum xlim ylim modulo h : modulo <> 0%Z ->
  finite_num (fst xlim) -> finite_num (snd xlim) -> finite_num (fst ylim) -> finite_num (snd ylim) ->
  (forall c, In c h -> (fst c mod modulo = 0)%Z -> snd c <> [] /\ forall i, In i (snd c) -> Forall finite_num (fst i) /\ finite_num (snd i)) ->
  exists st, scatter_run (sum_call xlim ylim modulo) h (scatter_init xlim ylim) = (map (fun c => Ok (snd c)) h, st) /\
    plot_ok (Forall2 is_sum_point) xlim ylim modulo h st.
Proof. exact (sum_spec xlim ylim modulo h). Qed.
Print Assumptions C80_sum.

Theorem C80_empty_population xlim ylim modulo gen st : modulo <> 0%Z -> (gen mod modulo = 0)%Z ->
  cartesian_call xlim ylim modulo gen [] st = (Err ValueError, mk_sc [] [] [] (sc_view st)).
Proof. exact (cartesian_empty xlim ylim modulo gen st). Qed.
Print Assumptions C80_empty_population.

Theorem C80_short_phenome xlim ylim modulo gen pop v st : modulo <> 0%Z -> (gen mod modulo = 0)%Z -> In v pop -> length v < 2 ->
  exists st', cartesian_call xlim ylim modulo gen pop st = (Err IndexError, st') /\ sc_offsets st' = sc_offsets st /\ sc_view st' = sc_view st.
Proof. exact (cartesian_short xlim ylim modulo gen pop v st). Qed.
Print Assumptions C80_short_phenome.

(** the same for the Pareto plot, which by then may have replaced the x coordinates only *)
Theorem C80_short_objectives xlim ylim modulo step pop v st : modulo <> 0%Z -> (step mod modulo = 0)%Z -> In v pop -> length v < 2 ->
  exists st', pareto_call xlim ylim modulo (Ok step) pop st = (Err IndexError, st') /\
    ps_y st' = ps_y st /\ ps_offsets st' = ps_offsets st /\ ps_ax st' = ps_ax st /\
    ((exists w, In w pop /\ w = []) -> ps_x st' = ps_x st) /\
    ((forall w, In w pop -> w <> []) -> Forall2 (fun w a => nth_error w 0 = Some a) pop (ps_x st')).
Proof. exact (pareto_short xlim ylim modulo step pop v st). Qed.
Print Assumptions C80_short_objectives.

Theorem C80_pareto xlim ylim modulo step pop st : modulo <> 0%Z -> (step mod modulo = 0)%Z -> pop <> [] ->
  (forall v, In v pop -> 2 <= length v) -> (forall line, In line (ax_lines (ps_ax st)) -> length (fst line) = length (snd line)) ->
  exists st', pareto_call xlim ylim modulo (Ok step) pop st = (Ok pop, st') /\ Forall2 is_point pop (ps_offsets st') /\
    ax_lines (ps_ax st') = ax_lines (ps_ax st) /\
    exists b, ax_box (ps_ax st') = Some b /\
      ((forall v, In v pop -> no_nan v) -> no_nan [fst xlim; snd xlim; fst ylim; snd ylim] ->
       smallest_box (Some xlim) (Some ylim) (map fst (ps_offsets st')) (map snd (ps_offsets st')) b).
Proof. exact (pareto_spec xlim ylim modulo step pop st). Qed.
Print Assumptions C80_pareto.

Theorem C80_sum_curve f (a b g : Q) lo hi gr : (0 <= lo)%Z -> (0 <= hi)%Z -> (1 <= gr)%Z ->
  (inject_Z lo <= a < inject_Z (lo + 1))%Q -> (inject_Z hi <= b < inject_Z (hi + 1))%Q -> (inject_Z gr <= g < inject_Z (gr + 1))%Q ->
  exists pts, sum_curve (fun s => Ok (f s)) (a, b) g = Ok pts /\
    (forall i, In i (map fst pts) <-> exists k : nat, i = (lo + Z.of_nat k * gr)%Z /\ (i <= hi)%Z) /\
    (forall k, k < length pts -> nth_error (map fst pts) k = Some (lo + Z.of_nat k * gr)%Z) /\
    forall i v, In (i, v) pts -> exists s, ones_in_front (Z.to_nat hi) (Z.to_nat i) s /\ v = f s.
Proof. exact (curve_spec f a b g lo hi gr). Qed.
Print Assumptions C80_sum_curve.

Theorem C80_granularity ev lim g : (-1 < g)%Q -> (g < 1)%Q -> sum_curve ev lim g = Err ZeroDivisionError.
Proof. exact (curve_granularity ev lim g). Qed.
Print Assumptions C80_granularity.

Theorem C80_histogram {P} (histogram : list P -> list Z) modulo h1 gen pop h2 st : modulo <> 0%Z -> (gen mod modulo = 0)%Z ->
  (forall c, In c h2 -> (fst c mod modulo <> 0)%Z) -> snd (heatmap_run histogram modulo (h1 ++ (gen, pop) :: h2) st) = pop.
Proof. exact (heatmap_last histogram modulo h1 gen pop h2 st). Qed.
Print Assumptions C80_histogram.

(** HistPhenotypePlotProbe shows the population of the last measured call and passes every population on *)
Theorem C80_hist_probe {P} modulo h1 gen (pop : list P) h2 shown : modulo <> 0%Z -> (gen mod modulo = 0)%Z ->
  (forall c, In c h2 -> (fst c mod modulo <> 0)%Z) ->
  fold_left (fun s c => snd (hist_call modulo (fst c) (snd c) s)) (h1 ++ (gen, pop) :: h2) shown = pop /\
  forall c s, fst (hist_call modulo (fst c) (snd c) s) = Ok (snd c : list P).
Proof. exact (hist_last modulo h1 gen pop h2 shown). Qed.
Print Assumptions C80_hist_probe.

(** the axes can be rescaled exactly if there are data, in equally long series, and the lines have as many abscissae as ordinates *)
Theorem C79_rescale xlim ylim x ys ax :
  ((exists ax', rescale xlim ylim x ys ax = Ok ax') <->
   x <> [] /\ ys <> [] /\ (exists n, n <> 0 /\ forall y, In y ys -> length y = n) /\
   (forall line, In line (ax_lines ax) -> length (fst line) = length (snd line) \/ length (fst line) = 1 \/ length (snd line) = 1)) /\
  (forall e, rescale xlim ylim x ys ax = Err e -> e = ValueError).
Proof. exact (rescale_ok_iff xlim ylim x ys ax). Qed.
Print Assumptions C79_rescale.

(** the map of HeatMapPhenotypeProbe never gets a column *)
Theorem C80_heat_map_refuted : exists h, h <> [] /\ (forall c, In c h -> (fst c mod 1 = 0)%Z /\ snd c <> []) /\
  forall P (f : Z -> P) histogram, fst (heatmap_run histogram 1%Z (map (fun c => (fst c, map f (snd c))) h) ([], [])) = [].
Proof.
  exists [(0%Z, [1%Z; 2%Z]); (1%Z, [3%Z])]. split; [discriminate|]. split; [intros c [<- | [<- | []]]; split; [reflexivity|discriminate|reflexivity|discriminate]|].
  intros P f histogram. rewrite heatmap_unchanged. reflexivity.
Qed.
Print Assumptions C80_heat_map_refuted.

(** with the default limits the curve is evaluated at bit strings longer than the longest one shown *)
Theorem C80_negative_limit_refuted : exists pts, sum_curve (fun s => Ok (NInt (Z.of_nat (length s)))) ((-(512 # 100))%Q, (512 # 100)%Q) 1 = Ok pts /\
  In ((-5)%Z, NInt 10) pts /\ In (5%Z, NInt 5) pts.
Proof. eexists. split; [vm_compute; reflexivity|]. split; vm_compute; tauto. Qed.
Print Assumptions C80_negative_limit_refuted.

(** an infinite fitness raises in the middle of a run *)
Theorem C80_infinite_refuted : exists pop st', pop <> [] /\
  sum_call ex_lims ex_lims 1%Z 0%Z pop (scatter_init ex_lims ex_lims) = (Err ValueError, st') /\
  exists i, pop = [i] /\ num_val (snd i) = Some PInf.
Proof. exists [([NInt 1], NFlt true PInf)]. eexists. split; [discriminate|]. split; [reflexivity|]. eexists. split; reflexivity. Qed.
Print Assumptions C80_infinite_refuted.

(** the default ax=None of the Pareto plot *)
Example C80_pareto_default : pareto_init None = Err AttributeError.
Proof. reflexivity. Qed.

Example C80_cartesian_example : exists st, scatter_run (cartesian_call ex_lims ex_lims 1%Z)
    [(0%Z, [[NInt (-7); NInt 2]; [NInt 1; NInt 9; NInt 4]]); (1%Z, [[NInt (-6); NInt 2]])] (scatter_init ex_lims ex_lims) =
  ([Ok [[NInt (-7); NInt 2]; [NInt 1; NInt 9; NInt 4]]; Ok [[NInt (-6); NInt 2]]], st) /\
  map num_val [v_left (sc_view st); v_right (sc_view st); v_bottom (sc_view st); v_top (sc_view st)] = [Some (Fin (-6)); Some (Fin 5); Some (Fin (-5)); Some (Fin 9)] /\
  sc_offsets st = [(NInt (-6), NInt 2)].
Proof. eexists. split; [vm_compute; reflexivity|]. split; reflexivity. Qed.
Example C80_sum_example : exists st, scatter_run (sum_call ex_lims ex_lims 1%Z) [(0%Z, [([NInt 1; NInt 0; NInt 1], NInt 2); ([NInt 4; NInt 4], NInt (-8))])] (scatter_init ex_lims ex_lims) =
  ([Ok [([NInt 1; NInt 0; NInt 1], NInt 2); ([NInt 4; NInt 4], NInt (-8))]], st) /\
  sc_offsets st = [(NInt 2, NInt 2); (NInt 8, NInt (-8))] /\
  map num_val [v_left (sc_view st); v_right (sc_view st); v_bottom (sc_view st); v_top (sc_view st)] = [Some (Fin (-5)); Some (Fin 8); Some (Fin (-8)); Some (Fin 5)].
Proof. eexists. split; [vm_compute; reflexivity|]. split; reflexivity. Qed.
Example C80_curve_example : sum_curve (fun s => Ok (NInt (fold_right Z.add 0%Z s))) (0%Q, (9 # 2)%Q) (5 # 2) = Ok [(0%Z, NInt 0); (2%Z, NInt 2); (4%Z, NInt 4)].
Proof. vm_compute. reflexivity. Qed.
Example C80_pareto_example : exists st0 st', pareto_init (Some ex_axes) = Ok st0 /\
  pareto_call ex_lims ex_lims 2%Z (Ok 4%Z) [[NInt 1; NInt 8]; [NInt 6; NInt 0]] st0 = (Ok [[NInt 1; NInt 8]; [NInt 6; NInt 0]], st') /\
  ps_offsets st' = [(NInt 1, NInt 8); (NInt 6, NInt 0)] /\
  option_map (fun b => (num_val (fst (fst b)), num_val (snd (fst b)), num_val (fst (snd b)), num_val (snd (snd b)))) (ax_box (ps_ax st')) =
    Some (Some (Fin (-5)), Some (Fin (-5)), Some (Fin 6), Some (Fin 8)).
Proof. eexists _, _. split; [vm_compute; reflexivity|]. split; [vm_compute; reflexivity|]. repeat split. Qed.
Example C80_histogram_example : snd (heatmap_run (fun _ : list Z => []) 2%Z [(0%Z, [1%Z]); (2%Z, [5%Z; 6%Z]); (3%Z, [7%Z])] ([], [])) = [5%Z; 6%Z].
Proof. reflexivity. Qed.
Example C80_hist_example : fold_left (fun s c => snd (hist_call 2 (fst c) (snd c) s)) [(0%Z, [1%Z]); (2%Z, [5%Z; 6%Z]); (3%Z, [7%Z])] [] = [5%Z; 6%Z].
Proof. reflexivity. Qed.
Example C80_short_example : exists st0 st', pareto_init (Some ex_axes) = Ok st0 /\
  pareto_call ex_lims ex_lims 1%Z (Ok 4%Z) [[NInt 1; NInt 8]; [NInt 6]] st0 = (Err IndexError, st') /\ ps_x st' = [NInt 1; NInt 6] /\ ps_y st' = ps_y st0.
Proof. eexists _, _. split; [vm_compute; reflexivity|]. split; [vm_compute; reflexivity|]. split; reflexivity. Qed.
Example C79_rescale_example : (exists ax', rescale None None [NInt 1; NInt 2] [[NInt 3; NInt 4]] (mk_axes [] None) = Ok ax') /\
  rescale None None [NInt 1] [[]] (mk_axes [] None) = Err ValueError /\ rescale None None [NInt 1] [] (mk_axes [] None) = Err ValueError.
Proof. split; [eexists; vm_compute; reflexivity|]. split; reflexivity. Qed.
