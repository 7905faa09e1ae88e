(** Property C104, continued: which arguments are refused by selection, networks, plots and benchmark problems *)
From Coq Require Import QArith.
From Verif Require Import Model.Base Model.Proportional Model.NeuralNet Model.Plot2D Model.PlotProbe Model.Problems Model.RealProblems
  Spec.Refusals2 Proofs.Refusals2.
Local Open Scope nat_scope.

(** Fitness-proportional selection from nobody raises: which exception depends on the offset and on whether the number
    of points is given; stochastic universal sampling can start, but not select. *)
Theorem C104_nobody : forall A off exponent (u start : Q) shuffle n,
  proportional_turn (@nil A) [] off exponent u = Err (match off with OffPopMin => ValueError | OffVal _ => IndexError end) /\
  sus_init [] None off exponent start = Err ValueError /\
  ((0 < n)%Z -> sus_init [] (Some n) OffPopMin exponent start = Err ValueError) /\
  forall q, (0 < n)%Z -> exists s, sus_init [] (Some n) (OffVal q) exponent start = Ok s /\
    forall d, sus_pull (@nil A) shuffle d s = Err IndexError.
Proof. exact nobody. Qed.
Print Assumptions C104_nobody.

(** Whatever lists stand for the weight matrices: a network has a graph exactly when nothing is wrong with its layers,
    and the exception is that of the first layer with which something is wrong. *)
Theorem C104_network_graph : forall V (net : list (list (list V))) e,
  nn_graph net = Err e <->
  net = [] /\ e = IndexError \/ exists m rest, net = m :: rest /\ graph_trouble (S (length m - 1)) net e.
Proof. exact @nn_graph_fails. Qed.
Print Assumptions C104_network_graph.

(** A plotting probe with a period of zero raises on every call and draws nothing. *)
Theorem C104_no_period : forall P (xlim ylim : option (num * num)) (xl yl : num * num) ms gen xv (pop : P) st
    step ps pps cs cst ss sst hs shown histogram maps,
  metrics_call xlim ylim 0 ms gen xv pop st = (Err ZeroDivisionError, st) /\
  pareto_call xl yl 0 step ps pps = (match step with Err e => Err e | Ok _ => Err ZeroDivisionError end, pps) /\
  cartesian_call xl yl 0 gen cs cst = (Err ZeroDivisionError, cst) /\
  sum_call xl yl 0 gen ss sst = (Err ZeroDivisionError, sst) /\
  hist_call 0 gen (hs : list P) shown = (Err ZeroDivisionError, shown) /\
  heatmap_call histogram 0 gen hs maps = (Err ZeroDivisionError, maps).
Proof. exact no_period. Qed.
Print Assumptions C104_no_period.

(** If lines have been removed from its axes, a metrics probe raises even though every metric can be computed. *)
Theorem C104_lost_lines : forall P (xlim ylim : option (num * num)) modulo (ms : list (P -> result num)) gen v pop st,
  (modulo <> 0)%Z -> (gen mod modulo = 0)%Z -> length (ax_lines (ms_ax st)) < length ms -> (forall m, In m ms -> exists y, m pop = Ok y) ->
  fst (metrics_call xlim ylim modulo ms gen (Ok v) pop st) = Err IndexError.
Proof. exact lost_lines. Qed.
Print Assumptions C104_lost_lines.

(** A grid without spacing is refused before the function is called, and so are bounds too short to space a grid. *)
Theorem C104_no_spacing : forall (fn : list Q -> result num) K x0 x1 y0 y1 g pad (kwargs : list K) bounds,
  (g == 0)%Q -> pad <> PadOther ->
  plot_2d_problem fn bounds (Some [x0; x1]) (Some [y0; y1]) KSurface (Some g) pad kwargs = (Err ZeroDivisionError, []).
Proof. exact plot_no_step. Qed.
Print Assumptions C104_no_spacing.
Theorem C104_short_bounds : forall (fn : list Q -> result num) K b xlim ylim k pad (kwargs : list K), length b < 2 ->
  plot_2d_problem fn (Some b) xlim ylim k None pad kwargs = (Err IndexError, []).
Proof. exact plot_short_bounds. Qed.
Print Assumptions C104_short_bounds.

(** Averaging over n evaluations of each phenome refuses a wrapped problem that gives too few or too many results. *)
Theorem C104_average : forall P (evm : list P -> result (list num)) n phenomes e, 0 < n ->
  average_multiple evm n phenomes = Err e <->
  evm (flat_map (fun p => repeat p n) phenomes) = Err e \/
  exists fs, evm (flat_map (fun p => repeat p n) phenomes) = Ok fs /\ e = AssertionError /\
    ~ (n * length phenomes < length fs + n <= n * S (length phenomes)).
Proof. exact average_fails. Qed.
Print Assumptions C104_average.

(** Without trials there is no cooperative fitness. *)
Theorem C104_no_trials_unlogged : forall G sel combine_score (x : cind G) current subpops,
  coop_op sel combine_score 0 x current subpops = Err ValueError.
Proof. exact coop_nothing. Qed.
Print Assumptions C104_no_trials_unlogged.

(** Counting ones fails exactly for what is no array or does not fit the target; leading ones, for nothing too. *)
Theorem C104_ones : forall target phenome e,
  (max_ones target phenome = Err e <->
    phenome = BOther /\ e = ValueError \/ exists l t, phenome = BArr l /\ target = Some t /\ length l <> length t /\ e = NameError) /\
  (leading_ones target phenome = Err e <->
    phenome = BOther /\ e = ValueError \/ (exists l t, phenome = BArr l /\ target = Some t /\ length l <> length t /\ e = NameError) \/
    phenome = BArr [] /\ (target = None \/ target = Some []) /\ e = StopIteration).
Proof. exact ones_fail. Qed.
Print Assumptions C104_ones.

Theorem C104_shekel : forall k c phenome e,
  shekel_evaluate k c phenome = Err e <->
  length phenome <> 2 /\ e = AssertionError \/ length phenome = 2 /\ length c < 25 /\ e = IndexError.
Proof. exact shekel_fails. Qed.
Print Assumptions C104_shekel.

(** A matrix transformation accepts exactly the square matrices. *)
Theorem C104_matrix : forall m e,
  matrix_problem m = Err e <->
  m = [] /\ e = IndexError \/
  exists first rest, m = first :: rest /\
    (length m <> length first /\ e = AssertionError \/ length m = length first /\ ~ rectangle (length m) (length m) m /\ e = ValueError).
Proof. exact matrix_fails. Qed.
Print Assumptions C104_matrix.

(** two layers: the second has a row too many for two hidden nodes and the bias as a hidden layer, but not enough to
    matter as an output layer; a ragged layer; lost lines *)
Example C104_network_graph_example :
  (nn_graph [[[1; 2]; [3; 4]]; [[5]; [6]; [7]; [8]]; [[9]; [9]]]%Z, nn_graph [[[1; 2]; [3; 4]]; [[5]; [6]]]%Z,
   nn_graph [[[1]; [3; 4]]; [[5]; [6]]]%Z, nn_graph (V := Z) []) =
  (Err AssertionError,
   Ok ([Bias; In_ 0; Hid 0 0; Hid 0 1; Out 0],
       [(In_ 0, Hid 0 0, 1); (In_ 0, Hid 0 1, 2); (Bias, Hid 0 0, 3); (Bias, Hid 0 1, 4); (Hid 0 0, Out 0, 5); (Hid 0 1, Out 0, 6)])%Z,
   Err IndexError, Err IndexError).
Proof. reflexivity. Qed.
Example C104_lost_lines_example :
  fst (metrics_call None None 1 [fun p => Ok (NInt p)] 0 (Ok (NInt 3)) 7%Z (mk_ms [] [[]] (mk_axes [] None))) = Err IndexError.
Proof. reflexivity. Qed.
Example C104_average_example :
  (average_multiple (fun ps : list Z => Ok (map NInt ps)) 2 [1; 5]%Z,
   average_multiple (fun ps : list Z => Ok (map NInt (ps ++ ps))) 2 [1; 5]%Z) =
  (Ok [np_mean [NInt 1; NInt 1]; np_mean [NInt 5; NInt 5]], Err AssertionError).
Proof. reflexivity. Qed.
Example C104_matrix_example :
  (matrix_problem [[1; 2]; [3; 4]]%Q, matrix_problem [[1; 2]; [3]]%Q, matrix_problem [[1; 2]]%Q) =
  (Ok [[1; 2]; [3; 4]]%Q, Err ValueError, Err AssertionError).
Proof. reflexivity. Qed.
