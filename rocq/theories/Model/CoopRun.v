(** Whole runs of cooperative coevolution: leap_ec/algorithm.py multi_population_ea with leap_ec/ops.py
    CooperativeEvaluate in its pipeline (examples/advanced/coevolution.py), or with a leap_ec/problem.py
    CooperativeProblem and leap_ec/ops.py grouped_evaluate (examples/advanced/coevolution_via_fitness_functions.py). *)
From Verif Require Import Model.Base Model.Problems Model.Counters Model.Algorithm.
From Verif Require Model.Pipeline.

Section CoopRun.
Context {G : Type}.

(** an individual of a subpopulation: genome, decoder and problem ([m_ind]), and fitness attribute
    (leap_ec/individual.py:41-83); the problem ignores its phenome, and decoding it is taken not to raise *)
Record member := mk_member { m_ind : cind G; m_fit : option num }.

(** leap_ec/ops.py:305-320 const_evaluate *)
Definition const_evaluate (value : num) (population : list member) : list member :=
  map (fun m => mk_member (m_ind m) (Some value)) population.

(** ** the operators before the evaluation
    Arguments: generation, subpopulation, and how many individuals were asked for before. *)
(** which parent the selection operator yields; one that is not there stands for its IndexError *)
Variable pick : nat -> nat -> nat -> list member -> nat.
(** what the mutation operators make of a genome *)
Variable mutate : nat -> nat -> nat -> list G -> result (list G).
(** the uuid4 of leap_ec/individual.py:144-150 clone *)
Variable uuid : nat -> nat -> nat -> nat.

(** leap_ec/ops.py:328-363 clone, after selection and before mutation: decoder and problem are the parent's; the
    fitness is None (a mutation operator sets it to None as well) *)
Definition child (g i k : nat) (parents : list member) : result (cind G) :=
  match nth_error parents (pick g i k parents) with
  | None => Err IndexError
  | Some p =>
      bind (Pipeline.in_generator (mutate g i k (c_genome (m_ind p)))) (fun genome =>
      Ok (mk_cind (uuid g i k) genome (c_score (m_ind p))))
  end.

(** [sel g i k fits t j pop n]: what the n-th next() gives on the collaborator selector that is made from
    subpopulation j, [pop], in the t-th round of making selectors while individual k of subpopulation i is
    evaluated in generation g; [fits] are the fitnesses of all subpopulations at that time.
    leap_ec/ops.py:1385-1387, leap_ec/problem.py:507-508 *)
Variable sel : nat -> nat -> nat -> list (list (option num)) -> nat -> nat -> list (cind G) -> nat -> result (cind G).
Variable num_trials : nat.
(** size argument of ops.pool *)
Variable size : nat.

(** ** CooperativeEvaluate *)
(** leap_ec/ops.py:1376-1409: the individuals that ops.pool asks for, from the k-th on.  The subpopulations and
    the number of the current one are read from the context for every individual. *)
Fixpoint coop_children (todo k g : nat) (v : view member) (parents : list member) : result (list member) :=
  match todo with
  | 0 => Ok []
  | S todo' =>
      bind (child g (v_current v) k parents) (fun x =>
      bind (Pipeline.in_generator (coop_op (sel g (v_current v) k (map (map m_fit) (v_pops v))) concat_combine_score
              num_trials x (v_current v) (map (map m_ind) (v_pops v)))) (fun f =>
      bind (coop_children todo' (S k) g v parents) (fun r => Ok (mk_member x (Some f) :: r))))
  end.
(** selection, clone, mutation, CooperativeEvaluate and pool: the pipeline of
    examples/advanced/coevolution.py:76-85 *)
Definition operator_pipeline (g : nat) (v : view member) (parents : list member) : result (list member) :=
  coop_children size 0 g v parents.

(** ** CooperativeProblem *)
(** leap_ec/ops.py:328-363 and the pool: individuals without fitness *)
Fixpoint made (todo k g : nat) (v : view member) (parents : list member) : result (list member) :=
  match todo with
  | 0 => Ok []
  | S todo' =>
      bind (child g (v_current v) k parents) (fun x =>
      bind (made todo' (S k) g v parents) (fun r => Ok (mk_member x None :: r)))
  end.
(** the first operators of examples/advanced/coevolution_via_fitness_functions.py:84-90 *)
Definition make_offspring (g : nat) (v : view member) (parents : list member) : result (list member) := made size 0 g v parents.

(** constructor arguments of the problem: leap_ec/problem.py:423-459; no log stream *)
Variable combine : list (list G) -> result (list G).
Variable score : list G -> result num.
(** size of the chunks of grouped_evaluate *)
Variable chunk : option nat.

(** leap_ec/problem.py:494-500 evaluate_multiple, for the individuals from number k on *)
Fixpoint evaluate_multiple (k g : nat) (v : view member) (individuals : list member) : result (list num) :=
  match individuals with
  | [] => Ok []
  | m :: r =>
      bind (coop_evaluate (sel g (v_current v) k (map (map m_fit) (v_pops v))) combine score false num_trials (m_ind m)
              (v_current v) (map (map m_ind) (v_pops v))) (fun f =>
      bind (evaluate_multiple (S k) g v r) (fun fs => Ok (f :: fs)))
  end.
(** leap_ec/ops.py:281-294: chunk after chunk *)
Fixpoint evaluate_chunks (fuel n k g : nat) (v : view member) (population : list member) : result (list num) :=
  match fuel, population with
  | _, [] => Ok []
  | 0, _ => Ok []
  | S fuel', _ =>
      bind (evaluate_multiple k g v (firstn n population)) (fun fs =>
      bind (evaluate_chunks fuel' n (k + n) g v (skipn n population)) (fun gs => Ok (fs ++ gs)))
  end.
(** leap_ec/ops.py:296-297: for fit, ind in zip(fitnesses, population) *)
Fixpoint assign (fs : list num) (population : list member) : list member :=
  match fs, population with
  | f :: fr, m :: r => mk_member (m_ind m) (Some f) :: assign fr r
  | _, _ => population
  end.
(** leap_ec/ops.py:270-299 grouped_evaluate; all individuals have the one CooperativeProblem *)
Definition grouped_coop (g : nat) (v : view member) (population : list member) : result (list member) :=
  match population with
  | [] => Err IndexError
  | _ =>
      let n := match chunk with Some n => n | None => length population end in
      if n =? 0 then Err ValueError else
      bind (evaluate_chunks (length population) n 0 g v population) (fun fs => Ok (assign fs population))
  end.

(** ** the runs: leap_ec/algorithm.py:255-292 with init_evaluate=const_evaluate(value) *)
Variable max_generations : Z.
Variable stop : nat -> Z -> list (list member) -> bool.

(** examples/advanced/coevolution.py:58-85 *)
Definition coop_run (value : num) (created : list (list member)) :=
  multi_population_ea max_generations [operator_pipeline] [] stop (map (const_evaluate value) created).
(** examples/advanced/coevolution_via_fitness_functions.py:60-90 *)
Definition coop_problem_run (value : num) (created : list (list member)) :=
  multi_population_ea max_generations [make_offspring; grouped_coop] [] stop (map (const_evaluate value) created).

(** ** the default init_evaluate
    leap_ec/individual.py:105-116 evaluate_population on the subpopulations in turn (leap_ec/algorithm.py:264), before
    context['leap']['subpopulations'] is set (line 268): the problem finds there what an earlier run in the
    same process left, [context], or no such key.  Individual number k of subpopulation i; the generation
    stands for the round of the oracle only. *)
Fixpoint initial_pop (context : option (list (list member) * nat)) (i k : nat) (pop : list member) : result (list member) :=
  match pop with
  | [] => Ok []
  | m :: r =>
      match context with
      | None => Err KeyError
      | Some (subpops, current) =>
          bind (coop_evaluate (sel 0 i k (map (map m_fit) subpops)) combine score false num_trials (m_ind m) current
                  (map (map m_ind) subpops)) (fun f =>
          bind (initial_pop context i (S k) r) (fun r' => Ok (mk_member (m_ind m) (Some f) :: r')))
      end
  end.
(** leap_ec/algorithm.py:264 *)
Fixpoint initial_pops (context : option (list (list member) * nat)) (i : nat) (pops : list (list member)) : result (list (list member)) :=
  match pops with
  | [] => Ok []
  | p :: r => bind (initial_pop context i 0 p) (fun p' => bind (initial_pops context (S i) r) (fun r' => Ok (p' :: r')))
  end.
(** leap_ec/algorithm.py:255-292 with the default init_evaluate *)
Definition coop_problem_run_default (context : option (list (list member) * nat)) (created : list (list member)) :=
  match initial_pops context 0 created with
  | Err e => Some (Err e, inc_generation 0, [])
  | Ok pops => multi_population_ea max_generations [make_offspring; grouped_coop] [] stop pops
  end.
End CoopRun.
Arguments member : clear implicits.
