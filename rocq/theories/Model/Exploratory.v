(** leap_ec/landscape_features/exploratory.py (ELAConvexity).  Genomes are vectors of exact rationals, fitnesses exact
    rationals; [score] is decoding followed by problem.evaluate and may raise.  A design individual is its genome and
    its recorded fitness.  The random choices are given: two positions in the design and the weight a. *)
From Verif Require Import Model.Base.

(** leap_ec/landscape_features/exploratory.py:208 a*x_genome + b*y_genome; arrays of different lengths raise
    ValueError (NumPy's broadcasting of one-element arrays is left out) *)
Definition mix (a b : Q) (x y : list Q) : result (list Q) :=
  if length x =? length y then Ok (map (fun p => a * fst p + b * snd p)%Q (combine x y)) else Err ValueError.

(** leap_ec/landscape_features/exploratory.py:194-216 one test; np.random.choice refuses a design of fewer than
    two (ValueError), which the assertion of the constructor excludes *)
Definition convexity_test (score : list Q -> result Q) (design : list (list Q * Q)) (draw : nat * nat * Q)
  : result Q :=
  let '(i, j, a) := draw in
  match nth_error design i, nth_error design j with
  | Some (x_genome, x_fitness), Some (y_genome, y_fitness) =>
      let b := (1 - a)%Q in
      let f := (a * x_fitness + b * y_fitness)%Q in
      bind (mix a b x_genome y_genome) (fun p_genome =>
      bind (score p_genome) (fun p_fitness => Ok (p_fitness - f)%Q))
  | _, _ => Err ValueError
  end.

(** leap_ec/landscape_features/exploratory.py:191-218 _compute_deltas, the deltas only *)
Fixpoint compute_deltas (score : list Q -> result Q) (design : list (list Q * Q)) (draws : list (nat * nat * Q))
  : result (list Q) :=
  match draws with
  | [] => Ok []
  | d :: r => bind (convexity_test score design d) (fun delta =>
              bind (compute_deltas score design r) (fun deltas => Ok (delta :: deltas)))
  end.

(** leap_ec/landscape_features/exploratory.py:146-158 the constructor; the number of draws is num_convexity_tests *)
Definition ela_init (score : list Q -> result Q) (design : list (list Q * Q)) (draws : list (nat * nat * Q))
  : result (list Q) :=
  if negb (2 <? length design) then Err AssertionError
  else if negb (0 <? length draws) then Err AssertionError
  else compute_deltas score design draws.

(** the counting loops of leap_ec/landscape_features/exploratory.py:232-241, 255-264 *)
Definition ratio_p (test : Q -> bool) (threshold : Q) (deltas : list Q) : result Q :=
  if negb (Qltb threshold 0) then Err AssertionError
  else
    let lessthan_count := fold_left (fun c d => if test d then c + 1 else c)%Z deltas 0%Z in
    if length deltas =? 0 then Err ZeroDivisionError
    else
      let ratio := (inject_Z lessthan_count / inject_Z (Z.of_nat (length deltas)))%Q in
      if negb (Qle_bool 0 ratio) then Err AssertionError
      else if negb (Qle_bool ratio 1) then Err AssertionError
      else Ok ratio.

(** leap_ec/landscape_features/exploratory.py:220-241 convex_p *)
Definition convex_p (threshold : Q) (deltas : list Q) : result Q :=
  ratio_p (fun d => Qltb d threshold) threshold deltas.
(** leap_ec/landscape_features/exploratory.py:243-264 linear_p *)
Definition linear_p (threshold : Q) (deltas : list Q) : result Q :=
  ratio_p (fun d => Qltb (Qabs d) threshold) threshold deltas.
(** leap_ec/landscape_features/exploratory.py:266-269 linear_deviation, for at least one delta *)
Definition linear_deviation (deltas : list Q) : Q :=
  (fold_left Qplus deltas 0 / inject_Z (Z.of_nat (length deltas)))%Q.
(** leap_ec/landscape_features/exploratory.py:271-277 linear_deviation_abs *)
Definition linear_deviation_abs (deltas : list Q) : Q := linear_deviation (map Qabs deltas).
