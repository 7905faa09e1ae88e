(** Fitness arithmetic in binary64: offsets, parsimony, truth tables, selection values, crowding distances and diversity,
    with every operation rounded (see Model/Floats.v for what is left out). *)
From Verif Require Import Model.Base Model.Rules Model.Proportional Model.Floats Model.FloatMeans.
From Coq Require Import QArith.
Local Open Scope Q_scope.

(** leap_ec/problem.py:302 FitnessOffsetProblem.evaluate, after the wrapped evaluation *)
Definition offset_f (fitness_offset fitness : Q) : Q := fadd fitness fitness_offset.

(** leap_ec/parsimony.py:85-93 koza_parsimony; [len]: the length of the genome *)
Definition koza_f (maximize : bool) (penalty fitness : Q) (len : nat) : Q :=
  if maximize then fsub fitness (fmul penalty (of_int (Z.of_nat len)))
  else fsub (- fitness) (fmul penalty (of_int (Z.of_nat len))).

(** leap_ec/executable_rep/problems.py:195: score/len(input_samples), of 2^num_inputs samples *)
Definition table_fitness_f (score : Z) (num_inputs : nat) : Q := fdiv (of_int score) (of_int (2 ^ Z.of_nat num_inputs)).

(** values.min(axis=0), leap_ec/ops.py:1494 *)
Fixpoint minimum (x : Q) (l : list Q) : Q :=
  match l with [] => x | y :: r => minimum (if Qltb y x then y else x) r end.

(** leap_ec/ops.py:1492-1495 compute_population_values with offset='pop-min' and exponent 1 (x ** 1 is x); numpy's min of
    an empty array raises ValueError *)
Definition pop_min_values_f (keys : list Q) : result (list Q) :=
  match keys with
  | [] => Err ValueError
  | x :: r => let m := minimum x r in Ok (map (fun v => fadd v (- m)) keys)
  end.

(** leap_ec/ops.py:655-673 proportional_selection(offset='pop-min'): one draw; [o]: how np.sum adds *)
Definition pop_min_turn_f {A} (population : list A) (keys : list Q) (o : adding) (u : Q) : result A :=
  bind (pop_min_values_f keys) (fun values =>
  if existsb (fun v => Qltb v 0) values then Err ValueError
  else proportional_turn_f population values (sum_in o values) u).

(** leap_ec/multiobjective/ops.py:211, 216: whether an objective is skipped; for a maximized one f_min and f_max have
    changed places *)
Definition skipped_f (f_min f_max : Q) : bool := Qeq_bool (fsub f_max f_min) 0.

(** leap_ec/multiobjective/ops.py:237-241: what one objective adds *)
Definition gap_f (f_min f_max before after : Q) : Q := fdiv (fsub after before) (fsub f_max f_min).

(** leap_ec/multiobjective/ops.py:194, 236-241: an inner individual's distance over the objectives that are not skipped,
    each given as f_min, f_max and the neighbours' fitnesses *)
Definition distance_f (objectives : list (Q * Q * Q * Q)) : Q :=
  fold_left (fun d '(f_min, f_max, before, after) => fadd d (gap_f f_min f_max before after)) objectives 0.

(** ** leap_ec/probe.py:691-711 pairwise_squared_distance_metric *)
(** [root]: np.sqrt, inside np.linalg.norm; [by_row], [by_gene], [by_norm]: how numpy adds up *)
Section Diversity.
  Variable root : Q -> Q.
  Variables by_row by_gene by_norm : adding.

  (** leap_ec/probe.py:706 *)
  Definition centroid_f (genomes : list (list Q)) (len : nat) : list Q :=
    map (fun j => mean_in by_row (map (fun g => nth j g 0) genomes)) (seq 0 len).

  (** leap_ec/probe.py:707-709 *)
  Definition sq_norm_f (centroid genome : list Q) : Q :=
    let squares := map (fun '(x, c) => let d := fsub x c in fmul d d) (combine genome centroid) in
    let norm := root (sum_in by_gene squares) in
    fmul norm norm.

  (** leap_ec/probe.py:703-711; np.stack of nothing, or of genomes of different lengths, raises ValueError *)
  Definition diversity_f (genomes : list (list Q)) : result Q :=
    match genomes with
    | [] => Err ValueError
    | g :: _ =>
        if forallb (fun g' => (length g' =? length g)%nat) genomes then
          let c := centroid_f genomes (length g) in
          Ok (fmul (of_int (2 * Z.of_nat (length genomes))) (sum_in by_norm (map (sq_norm_f c) genomes)))
        else Err ValueError
    end.
End Diversity.
