(** leap_ec/simple.py: the one-call optimizer ea_solve, put together from the models of its parts.
    Random draws are arguments.  Not modelled: the dask client and the live plot (lines 81-82, 106-108), the text
    written to the stream (its rows are), functions that change the genome they are given. *)
From Verif Require Import Model.Base Model.PyList Model.Scalar Model.Selection Model.Probe Model.Variation Model.Transfer.

(** what is drawn in one generation; [nat] counts the individuals bred in it, or the pairs recombined.
    leap_ec/simple.py:96-103 *)
Record gen_draws := mk_draws {
  gd_choices : nat -> list nat;               (* tournament: random.choices over positions, leap_ec/ops.py:940 *)
  gd_tcoin : nat -> sind -> sind -> bool;     (* its coins between two NaN, leap_ec/problem.py:113-114 *)
  gd_us : nat -> list Q;                      (* mutation: which genes, leap_ec/ops.py:1501-1518 *)
  gd_noise : nat -> list Q;                   (* mutation: the normal deviates, leap_ec/real_rep/ops.py:129-133 *)
  gd_mask : nat -> list bool;                 (* crossover: which genes to swap, leap_ec/ops.py:492 *)
  gd_pcoin : sind -> sind -> bool;            (* the probe's coins, leap_ec/probe.py:128-129 *)
  gd_ecoin : sind -> sind -> bool }.          (* the coins of elitist survival, leap_ec/ops.py:889-893 *)

Section Solve.
(** the user's function, which may raise; leap_ec/simple.py:24 *)
Variable function : list Q -> result num.
Variable maximize : bool.
Variable bounds : list (Q * Q).
Variable hard_bounds : bool.
Variable mutation_std : Q + list Q.
Variable pop_size : nat.

(** leap_ec/individual.py:293-304 RobustIndividual.evaluate: any exception gives NaN *)
Definition robust_fitness (genome : list Q) : num :=
  match function genome with Ok v => v | Err _ => NNan end.

(** the evaluated individuals whose genomes are [gs]; individual number i of the whole run is the i-th genome that
    was evaluated.  leap_ec/individual.py:293-304 *)
Fixpoint evaluated (id : nat) (gs : list (list Q)) : list sind :=
  match gs with
  | [] => []
  | g :: r => mk_sind id (robust_fitness g) :: evaluated (S id) r
  end.

(** leap_ec/simple.py:89-94: clipping bounds of the mutation *)
Definition mutation_bounds : Model.Variation.bounds ext :=
  if hard_bounds then BEach (map (fun b => (Fin (fst b), Fin (snd b))) bounds) else BScalar MInf PInf.

(** genomes of floats as rationals; no infinity arises (C72), so what is done with one does not matter.
    leap_ec/real_rep/ops.py:136-137 *)
Fixpoint finite_genome (l : list ext) : result (list Q) :=
  match l with
  | [] => Ok []
  | Fin q :: r => bind (finite_genome r) (fun r' => Ok (q :: r'))
  | _ :: _ => Err ValueError
  end.

(** leap_ec/simple.py:98-100: one individual through tournament selection, clone and mutation; [genomes] are all
    genomes evaluated so far *)
Definition bred (d : gen_draws) (genomes : list (list Q)) (parents : list sind) (j : nat) : result (list Q) :=
  let coin := gd_tcoin d j in
  bind (tournament_turn (ind_lt maximize coin) (ind_gt maximize coin) parents false (gd_choices d j) None) (fun '(p, _) =>
  bind (match nth_error genomes (si_id p) with Some g => Ok g | None => Err IndexError end) (fun g =>
  bind (mutate_gaussian mutation_std (Some None) mutation_bounds 1 0 (gd_us d j) (gd_noise d j) g) (fun '(_, g') =>
  finite_genome g'))).

(** leap_ec/simple.py:101, 84-85: crossover of two bred individuals at a time (leap_ec/ops.py:388-410 with p_xover 1), until
    the pool has [n] of them; of the last pair the second may be left over *)
Fixpoint offspring (d : gen_draws) (genomes : list (list Q)) (parents : list sind) (pair n : nat) : result (list (list Q)) :=
  match n with
  | 0 => Ok []
  | S n1 =>
      bind (bred d genomes parents (2 * pair)) (fun a =>
      bind (bred d genomes parents (S (2 * pair))) (fun b =>
      bind (uniform_recombine (gd_mask d pair) a b) (fun '(a', b') =>
      match n1 with
      | 0 => Ok [a']
      | S n2 => bind (offspring d genomes parents (S pair) n2) (fun r => Ok (a' :: b' :: r))
      end)))
  end.

(** leap_ec/simple.py:112-123 and leap_ec/algorithm.py:131-141 with one elite: the generations; one element of [ds] each.
    Returns all genomes evaluated, in order, the probe, and the populations from [parents] to the final one. *)
Fixpoint generations (gen : Z) (ds : list gen_draws) (genomes : list (list Q)) (parents : list sind) (probe : bsf_state)
  : result (list (list Q) * bsf_state * list (list sind)) :=
  match ds with
  | [] => Ok (genomes, probe, [parents])
  | d :: ds' =>
      bind (offspring d genomes parents 0 pop_size) (fun gs =>
      let children := evaluated (length genomes) gs in
      bind (bsf_call maximize (gd_pcoin d) gen children probe) (fun '(children', probe') =>
      let survivors :=
        fst (elitist_survival (ind_lt maximize (gd_ecoin d)) (ind_gt maximize (gd_ecoin d)) ind_eq children' parents 1) in
      bind (generations (gen + 1) ds' (genomes ++ gs) survivors probe') (fun '(genomes', probe'', pops) =>
      Ok (genomes', probe'', parents :: pops))))
  end.

(** what ea_solve returns, and what can be observed of the run besides: all genomes the function was given, in order, the
    rows of the stream and the populations.  leap_ec/simple.py:112-126 *)
Record solved := mk_solved {
  sv_best : list Q; sv_genomes : list (list Q); sv_rows : list (Z * num); sv_pops : list (list sind) }.

(** leap_ec/simple.py:24-126 ea_solve; [us]: the uniform draws of the initial individuals, pop_size of them *)
Definition ea_solve (us : list (list Q)) (ds : list gen_draws) : result solved :=
  let initial := map (create_real_vector bounds) us in
  bind (generations 0 ds initial (evaluated 0 initial) bsf_init) (fun '(genomes, probe, pops) =>
  match bsf probe with
  | None => Err AttributeError
  | Some b =>
      match nth_error genomes (si_id b) with
      | Some g => Ok (mk_solved g genomes (bsf_rows probe) pops)
      | None => Err IndexError
      end
  end).
End Solve.
