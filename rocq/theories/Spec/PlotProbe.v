(** What a plot should show. *)
From Verif Require Import Model.Base Model.Scalar Model.Selection Model.CsvProbe Model.PlotProbe Spec.Order Spec.CsvProbe.

(** the same number *)
Definition same_num (a b : num) : Prop := num_val a = num_val b.
(** the successful outcome of a computation, as the same number *)
Definition gives (r : result num) (a : num) : Prop := exists v, r = Ok v /\ same_num v a.

Section History.
Context {P : Type}.
(** the calls at which the probe measures *)
Definition measured_calls (modulo : Z) (h : list (Z * result num * P)) : list (Z * result num * P) :=
  filter (fun c => (fst (fst c) mod modulo =? 0)%Z) h.
(** nothing raises in the calls at which the probe measures *)
Definition nothing_raises (ms : list (P -> result num)) (c : Z * result num * P) : Prop :=
  (exists v, snd (fst c) = Ok v) /\ forall m, In m ms -> exists v, m (snd c) = Ok v.
(** the series hold, in order, one number per call *)
Definition is_series (f : Z * result num * P -> result num) (cs : list (Z * result num * P)) (s : list num) : Prop :=
  Forall2 (fun c a => gives (f c) a) cs s.
End History.

(** [b] is the smallest box around the numbers [xs], [ys] and the given limits *)
Definition smallest_box (xlim ylim : option (num * num)) (xs ys : list num) (b : (num * num) * (num * num)) : Prop :=
  let with_lim (f : num * num -> num) (lim : option (num * num)) l := match lim with Some p => f p :: l | None => l end in
  let '((l, bo), (r, t)) := b in
  lowest (with_lim fst xlim xs) l /\ highest (with_lim snd xlim xs) r /\
  lowest (with_lim fst ylim ys) bo /\ highest (with_lim snd ylim ys) t.
Definition no_nan (l : list num) : Prop := forall a, In a l -> num_val a <> None.
Definition lim_numbers (lim : option (num * num)) : list num := match lim with Some (a, b) => [a; b] | None => [] end.

(** at most one element satisfies [b] *)
Definition at_most_one {A} (b : A -> Prop) (l : list A) : Prop :=
  forall i j x y, nth_error l i = Some x -> nth_error l j = Some y -> b x -> b y -> i = j.

Section Outcome.
Context {P : Type}.
(** after measuring at the calls [cs], on axes with the lines [old]: the series, the lines of the axes and the box for autoscaling *)
Definition shown (xlim ylim : option (num * num)) (ms : list (P -> result num)) (old : list (list num * list num))
  (cs : list (Z * result num * P)) (st : mstate) : Prop :=
  is_series (fun c => snd (fst c)) cs (ms_x st) /\ length (ms_y st) = length ms /\
  (forall j m, nth_error ms j = Some m -> exists y, nth_error (ms_y st) j = Some y /\ is_series (fun c => m (snd c)) cs y) /\
  length (ax_lines (ms_ax st)) = length old /\
  (forall j, length ms <= j -> nth_error (ax_lines (ms_ax st)) j = nth_error old j) /\
  (forall j, j < length ms -> cs = [] -> nth_error (ax_lines (ms_ax st)) j = nth_error old j) /\
  (forall j y, nth_error (ms_y st) j = Some y -> cs <> [] -> nth_error (ax_lines (ms_ax st)) j = Some (ms_x st, y)) /\
  (cs <> [] -> exists b, ax_box (ms_ax st) = Some b /\
     (no_nan (ms_x st ++ concat (ms_y st) ++ lim_numbers xlim ++ lim_numbers ylim) -> smallest_box xlim ylim (ms_x st) (concat (ms_y st)) b)).
(** an answer at a measured call *)
Definition measured_ok (modulo : Z) (q : (Z * result num * P) * result P) : Prop := (fst (fst (fst q)) mod modulo = 0)%Z /\ exists p, snd q = Ok p.
End Outcome.

(** ** views *)
Definition num_le (a b : num) : Prop := exists x y, num_val a = Some (Fin x) /\ num_val b = Some (Fin y) /\ (x <= y)%Q.
(** the view shows the point *)
Definition shows (v : view) (p : num * num) : Prop :=
  num_le (v_left v) (fst p) /\ num_le (fst p) (v_right v) /\ num_le (v_bottom v) (snd p) /\ num_le (snd p) (v_top v).
(** the view contains the limits given to the constructor *)
Definition keeps_limits (xlim ylim : num * num) (v : view) : Prop :=
  num_le (v_left v) (fst xlim) /\ num_le (snd xlim) (v_right v) /\ num_le (v_bottom v) (fst ylim) /\ num_le (snd ylim) (v_top v).
Definition finite_num (a : num) : Prop := exists q, num_val a = Some (Fin q).

(** example: one metric, two calls *)
Definition ex_metric (p : Z) : result num := if (p <? 0)%Z then Err ValueError else Ok (NInt (2 * p)).

(** the points (x, y), in order, of a population of at least two-dimensional phenomes *)
Definition is_point (v : list num) (p : num * num) : Prop := exists r, v = fst p :: snd p :: r.
(** the point (sum of the phenome, fitness) *)
Definition is_sum_point (i : list num * num) (p : num * num) : Prop :=
  (exists qs, Forall2 (fun a q => num_val a = Some (Fin q)) (fst i) qs /\
     exists s, num_val (fst p) = Some (Fin s) /\ (s == fold_right Qplus 0 qs)%Q) /\ snd p = snd i.
Definition finite_point (p : num * num) : Prop := finite_num (fst p) /\ finite_num (snd p).
(** [p] was shown at some measured call *)
Definition was_shown {P} (points : P -> list (num * num) -> Prop) (modulo : Z) (h : list (Z * P)) (p : num * num) : Prop :=
  exists c pts, In c h /\ (fst c mod modulo = 0)%Z /\ points (snd c) pts /\ In p pts.
(** a limit of the view is the constructor's or comes from a point *)
Definition limit_from (lim : num) (coord : num * num -> num) (seen : num * num -> Prop) (v : num) : Prop :=
  v = lim \/ exists p, seen p /\ same_num (coord p) v.
(** what the plot shows after the calls [h]: the points of the last measured population, all inside the view *)
Definition plot_ok {P} (points : P -> list (num * num) -> Prop) (xlim ylim : num * num) (modulo : Z) (h : list (Z * P)) (st : scatter) : Prop :=
  keeps_limits xlim ylim (sc_view st) /\ (forall p, In p (sc_offsets st) -> shows (sc_view st) p) /\
  ((forall c, In c h -> (fst c mod modulo <> 0)%Z) -> sc_offsets st = []) /\
  (forall h1 c h2, h = h1 ++ c :: h2 -> (fst c mod modulo = 0)%Z -> (forall c', In c' h2 -> (fst c' mod modulo <> 0)%Z) ->
     points (snd c) (sc_offsets st)) /\
  limit_from (fst xlim) fst (was_shown points modulo h) (v_left (sc_view st)) /\
  limit_from (snd xlim) fst (was_shown points modulo h) (v_right (sc_view st)) /\
  limit_from (fst ylim) snd (was_shown points modulo h) (v_bottom (sc_view st)) /\
  limit_from (snd ylim) snd (was_shown points modulo h) (v_top (sc_view st)).

(** the strings of length [n] with [i] ones in front *)
Definition ones_in_front (n i : nat) (s : list Z) : Prop :=
  length s = n /\ forall k, k < n -> nth_error s k = Some (if k <? i then 1%Z else 0%Z).

(** the fitness of a best member, up to the relative tolerance [tol] of the comparisons of fitnesses *)
Definition best_fitness_of (mx : bool) (pop : list sind) (v : num) : Prop :=
  exists best, In best pop /\ v = si_fit best /\ forall y, In y pop -> better mx (si_fit y) (si_fit best) -> within_rel tol (si_fit y) (si_fit best).

(** examples *)
Definition ex_axes : axes := mk_axes [([NInt 1; NInt 2], [NInt 3; NInt 4])] None.
Definition ex_lims : num * num := (NInt (-5), NInt 5).
