(** Property C83: plots of problems in two dimensions *)
From Coq Require Import Lqa.
From Verif Require Import Model.Base Model.Plot2D Spec.Plot2D Proofs.Plot2D.

(** the plot shows, at each point of the grid of the two ranges, the value of the function there *)
Theorem C83_grid (fn : list Q -> result num) (k : kind) (x0 x1 y0 y1 g : Q) (pad : padding) :
  (0 < g)%Q -> (x0 < x1)%Q -> (y0 < y1)%Q -> pad <> PadOther ->
  exists xs ys, ticks x0 x1 g xs /\ ticks y0 y1 g ys /\
    (defined_on fn (pad_values pad) xs ys ->
     exists d, plot_grid fn k [x0; x1] [y0; y1] g pad = (Ok d, firstn 1 (points (pad_values pad) xs ys) ++ points (pad_values pad) xs ys) /\
       d_kind d = k /\ shaped (length ys) (length xs) (d_x d) /\ shaped (length ys) (length xs) (d_y d) /\ shaped (length ys) (length xs) (d_z d) /\
       forall j i y x, nth_error ys j = Some y -> nth_error xs i = Some x ->
         grid_value (d_x d) j i = Some x /\ grid_value (d_y d) j i = Some y /\
         exists v w, fn (x :: y :: pad_values pad) = Ok v /\ floated v w /\ grid_value (d_z d) j i = Some w).
Proof. exact (grid_spec fn k x0 x1 y0 y1 g pad). Qed.
Print Assumptions C83_grid.
Example C83_grid_ex : exists d made, plot_grid ex_sum KSurface [0; 1]%Q [5; 6]%Q (2 # 5) (PadArray [100]%Q) = (Ok d, made) /\
  shaped 3 3 (d_z d) /\ length made = 10 /\ exists q, grid_value (d_z d) 2 1 = Some (NFlt false (Fin q)) /\ (q == 106 + (1 # 5))%Q.
Proof.
  do 2 eexists. split; [vm_compute; reflexivity|]. split; [split; [reflexivity|repeat constructor]|]. split; [reflexivity|].
  eexists. split; [vm_compute; reflexivity|reflexivity].
Qed.

(** plot_2d_problem plots the problem's fitness on the ranges given, or else its bounds *)
Theorem C83_problem {K} (fn : list Q -> result num) (bounds xlim ylim : option (list Q)) (k : kind) (granularity : option Q) (pad : padding)
  (kwargs : list K) (xl yl : list Q) (g : Q) :
  chosen xlim bounds = Some xl -> chosen ylim bounds = Some yl ->
  (granularity = Some g \/ granularity = None /\ exists b0 b1 r, bounds = Some (b0 :: b1 :: r) /\ g = ((b1 - b0) / 50)%Q) ->
  (k = KSurface \/ k = KContour /\ kwargs = []) ->
  plot_2d_problem fn bounds xlim ylim k granularity pad kwargs = plot_grid fn k xl yl g pad.
Proof. exact (problem_spec fn bounds xlim ylim k granularity pad kwargs xl yl g). Qed.
Print Assumptions C83_problem.
(** by default with 50 points in each direction *)
Theorem C83_default_points (lo hi : Q) (xs : list Q) : (lo < hi)%Q -> ticks lo hi ((hi - lo) / 50) xs -> length xs = 50.
Proof. exact (ticks_50 lo hi xs). Qed.
Print Assumptions C83_default_points.
Example C83_problem_ex : exists d made,
  plot_2d_problem ex_sum (Some [-1; 1]%Q) None (Some [0; 1]%Q) KContour None NoPad (@nil nat) = (Ok d, made) /\
  shaped 25 50 (d_z d) /\ length made = 1251.
Proof.
  do 2 eexists. split; [vm_compute; reflexivity|]. split; [split; [reflexivity|repeat constructor]|reflexivity].
Qed.

(** a point where the function raises ends the plot with that exception, and no point after it is tried *)
Theorem C83_failing_point (fn : list Q -> result num) (k : kind) (x0 x1 y0 y1 g : Q) (pad : padding) : (0 < g)%Q -> pad <> PadOther ->
  exists xs ys, ticks x0 x1 g xs /\ ticks y0 y1 g ys /\
    forall before p after vs e, points (pad_values pad) xs ys = before ++ p :: after -> Forall2 (fun q v => fn q = Ok v) before vs -> fn p = Err e ->
      plot_grid fn k [x0; x1] [y0; y1] g pad = (Err e, firstn 1 before ++ before ++ [p]).
Proof. exact (failing_spec fn k x0 x1 y0 y1 g pad). Qed.
Print Assumptions C83_failing_point.
Example C83_failing_point_ex : exists made,
  plot_grid (fun p => match p with x :: _ => if Qle_bool x (1 # 2) then ex_sum p else Err KeyError | [] => Err IndexError end)
    KSurface [0; 2]%Q [0; 2]%Q 1 NoPad = (Err KeyError, made) /\ length made = 3.
Proof. eexists. split; [vm_compute; reflexivity|reflexivity]. Qed.

(** arguments refused, before any point is evaluated *)
Theorem C83_refused {K} (fn : list Q -> result num) (bounds xlim ylim : option (list Q)) (k : kind) (granularity : option Q) (pad : padding)
  (kwargs : list K) :
  (bounds = None -> xlim = None \/ ylim = None -> plot_2d_problem fn bounds xlim ylim k granularity pad kwargs = (Err AttributeError, [])) /\
  (bounds = None -> xlim <> None -> ylim <> None -> granularity = None -> plot_2d_problem fn bounds xlim ylim k granularity pad kwargs = (Err ValueError, [])) /\
  (forall g xl yl, granularity = Some g -> xlim = Some xl -> ylim = Some yl ->
     (k = KOther -> plot_2d_problem fn bounds xlim ylim k granularity pad kwargs = (Err ValueError, [])) /\
     (k <> KOther -> (k = KContour -> kwargs = []) -> (length xl <> 2 \/ length yl <> 2 \/ pad = PadOther) ->
        plot_2d_problem fn bounds xlim ylim k granularity pad kwargs = (Err AssertionError, []))).
Proof. exact (refused fn bounds xlim ylim k granularity pad kwargs). Qed.
Print Assumptions C83_refused.
(** and ranges without a point *)
Theorem C83_empty_range (fn : list Q -> result num) (k : kind) (x0 x1 y0 y1 g : Q) (pad : padding) :
  (0 < g)%Q -> (x1 <= x0 \/ y1 <= y0)%Q -> pad <> PadOther -> plot_grid fn k [x0; x1] [y0; y1] g pad = (Err ValueError, []).
Proof. exact (empty_grid fn k x0 x1 y0 y1 g pad). Qed.
Print Assumptions C83_empty_range.
Example C83_refused_ex :
  plot_2d_problem ex_sum None None (Some [0; 1]%Q) KSurface None NoPad [0] = (Err AttributeError, []) /\
  plot_2d_problem ex_sum None (Some [0; 1]%Q) (Some [0; 1]%Q) KSurface None NoPad [0] = (Err ValueError, []) /\
  plot_2d_problem ex_sum (Some [0; 1]%Q) (Some [0]%Q) None KSurface None NoPad [0] = (Err AssertionError, []) /\
  plot_2d_problem ex_sum (Some [0; 1]%Q) (Some [1; 0]%Q) None KSurface (Some 1%Q) NoPad [0] = (Err ValueError, []).
Proof. repeat split; vm_compute; reflexivity. Qed.

(** further keyword arguments, such as colours, are refused for contours although they are accepted for surfaces *)
Theorem C83_contour_arguments_refuted : exists fn bounds (kwargs : list nat) d made,
  plot_2d_problem fn bounds None None KSurface None NoPad kwargs = (Ok d, made) /\
  plot_2d_problem fn bounds None None KContour None NoPad kwargs = (Err TypeError, []).
Proof.
  exists ex_sum, (Some [0; 1]%Q), [0]. do 2 eexists. split; [vm_compute; reflexivity|reflexivity].
Qed.
Print Assumptions C83_contour_arguments_refuted.
(** a function that answers with an int at the first point is drawn rounded: the value shown elsewhere is not its value *)
Theorem C83_first_value_refuted : exists fn x0 x1 y0 y1 g d made v w,
  (0 < g)%Q /\ plot_grid fn KSurface [x0; x1] [y0; y1] g NoPad = (Ok d, made) /\
  fn [1; 0]%Q = Ok v /\ grid_value (d_x d) 0 1 = Some 1%Q /\ grid_value (d_y d) 0 1 = Some 0%Q /\ grid_value (d_z d) 0 1 = Some w /\
  num_val v = Some (Fin (1 # 2)) /\ num_val w = Some (Fin 0)%Q.
Proof.
  exists ex_step, 0%Q, 2%Q, 0%Q, 1%Q, 1%Q. do 4 eexists. split; [reflexivity|]. split; [vm_compute; reflexivity|].
  repeat split; reflexivity.
Qed.
Print Assumptions C83_first_value_refuted.
(** precisely: such a function is drawn with its decimals cut off, and an infinity or NaN at a later point is an error *)
Theorem C83_int_grid (fn : list Q -> result num) (k : kind) (x0 x1 y0 y1 g : Q) (pad : padding) : (0 < g)%Q -> pad <> PadOther ->
  exists xs ys, ticks x0 x1 g xs /\ ticks y0 y1 g ys /\
    forall p rest z vs, points (pad_values pad) xs ys = p :: rest -> fn p = Ok (NInt z) -> Forall2 (fun q v => fn q = Ok v) rest vs ->
      (Forall (fun v => exists q, num_val v = Some (Fin q)) vs ->
       exists d, plot_grid fn k [x0; x1] [y0; y1] g pad = (Ok d, p :: p :: rest) /\
         forall j i y x, nth_error ys j = Some y -> nth_error xs i = Some x ->
           exists v w, fn (x :: y :: pad_values pad) = Ok v /\ cut v w /\ grid_value (d_z d) j i = Some (NInt w)) /\
      (forall before v after, vs = before ++ v :: after -> Forall (fun v => exists q, num_val v = Some (Fin q)) before ->
         (v = NNan -> plot_grid fn k [x0; x1] [y0; y1] g pad = (Err ValueError, p :: p :: rest)) /\
         ((exists b, v = NFlt b PInf \/ v = NFlt b MInf) -> plot_grid fn k [x0; x1] [y0; y1] g pad = (Err OverflowError, p :: p :: rest))).
Proof. exact (int_grid fn k x0 x1 y0 y1 g pad). Qed.
Print Assumptions C83_int_grid.
Example C83_int_grid_ex : (exists d made, plot_grid ex_mixed KSurface [-3; 2]%Q [0; 1]%Q 2 NoPad = (Ok d, made) /\ length made = 4 /\
    grid_value (d_z d) 0 1 = Some (NInt 0) /\ grid_value (d_z d) 0 2 = Some (NInt 1)) /\
  (exists made, plot_grid (fun p => if Qle_bool (hd 0%Q p) 0 then Ok (NInt 4) else Ok NNan) KSurface [0; 2]%Q [0; 1]%Q 1 NoPad = (Err ValueError, made)).
Proof.
  split; [do 2 eexists; split; [vm_compute; reflexivity|]; repeat split; vm_compute; reflexivity|].
  eexists. vm_compute. reflexivity.
Qed.
(** and the first point is evaluated twice, so a budget of evaluations is overrun by one *)
Theorem C83_once_per_point_refuted : exists fn d made p, plot_grid fn KSurface [0; 1]%Q [0; 1]%Q 1 NoPad = (Ok d, made) /\
  shaped 1 1 (d_z d) /\ made = [p; p].
Proof.
  exists ex_sum. do 3 eexists. split; [vm_compute; reflexivity|]. split; [split; [reflexivity|repeat constructor]|reflexivity].
Qed.
Print Assumptions C83_once_per_point_refuted.
