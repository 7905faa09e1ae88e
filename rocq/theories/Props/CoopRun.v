(** C99: whole runs of cooperative coevolution. *)
From Coq Require Import QArith.
From Verif Require Import Model.Base Model.Problems Model.Counters Model.Algorithm Model.CoopRun Spec.Problems Spec.CoopRun Proofs.CoopRun.
Local Open Scope nat_scope.
Local Open Scope list_scope.

(** Every run with CooperativeEvaluate that returns is a coevolution from the created individuals, which have the
    made-up fitness: in each generation, in each species, exactly [size] children of members of that species,
    every one scored as the mean of [num_trials] teams with one member per species in order, itself in its own
    slot, the others from the newest populations there are.  It ends at max_generations or when told to stop. *)
Theorem C99_operator_run :
  forall G pick (mutate : nat -> nat -> nat -> list G -> result (list G)) uuid sel num_trials size max_generations stop value created final gc evss,
  choosers sel ->
  coop_run pick mutate uuid sel num_trials size max_generations stop value created = Some (Ok final, gc, evss) ->
  coevolution (fun i a b => exists g k, mutate g i k a = Ok b) joined_score num_trials size (length evss) (given value created) final /\
  gc_curr gc = Z.of_nat (length evss) /\
  ((max_generations <= Z.of_nat (length evss))%Z \/ stop (length evss) (Z.of_nat (length evss)) final = true).
Proof. exact @operator_run. Qed.
Print Assumptions C99_operator_run.

(** The same with a CooperativeProblem and grouped evaluation, whatever the size of the groups. *)
Theorem C99_problem_run :
  forall G pick (mutate : nat -> nat -> nat -> list G -> result (list G)) uuid sel num_trials size combine score chunk max_generations stop value
    created final gc evss,
  choosers sel ->
  coop_problem_run pick mutate uuid sel num_trials size combine score chunk max_generations stop value created = Some (Ok final, gc, evss) ->
  coevolution (fun i a b => exists g k, mutate g i k a = Ok b) (problem_score combine score) num_trials size (length evss) (given value created) final /\
  gc_curr gc = Z.of_nat (length evss) /\
  ((max_generations <= Z.of_nat (length evss))%Z \/ stop (length evss) (Z.of_nat (length evss)) final = true).
Proof. exact @problem_run. Qed.
Print Assumptions C99_problem_run.

(** Both complete if their operators work and complete solutions can be scored. *)
Theorem C99_operator_run_completes :
  forall G (D : nat -> list G -> Prop) pick mutate uuid sel num_trials size max_generations stop value created,
  operators_work D pick mutate sel -> choosers sel -> 0 < num_trials -> 0 < size ->
  kinds D created -> Forall (fun p => p <> []) created ->
  (forall pop x l, In pop created -> In x pop -> complete D (length created) l -> exists v, c_score (m_ind x) l = Ok v) ->
  exists final gc evss, coop_run pick mutate uuid sel num_trials size max_generations stop value created = Some (Ok final, gc, evss).
Proof. exact @operator_run_completes. Qed.
Print Assumptions C99_operator_run_completes.

Theorem C99_problem_run_completes :
  forall G (D : nat -> list G -> Prop) pick mutate uuid sel num_trials size combine score chunk max_generations stop value created,
  operators_work D pick mutate sel -> choosers sel -> 0 < size -> chunk <> Some 0 ->
  kinds D created -> Forall (fun p => p <> []) created ->
  (forall gs, length gs = length created -> (forall j g, nth_error gs j = Some g -> D j g) -> exists g v, combine gs = Ok g /\ score g = Ok v) ->
  exists final gc evss,
    coop_problem_run pick mutate uuid sel num_trials size combine score chunk max_generations stop value created = Some (Ok final, gc, evss).
Proof. exact @problem_run_completes. Qed.
Print Assumptions C99_problem_run_completes.

(** What every coevolution, hence every run, keeps: the number of species, and what the mutation operators of a
    species keep of its genomes. *)
Theorem C99_species_stay_apart :
  forall G (step : nat -> list G -> list G -> Prop) scores num_trials size (D : nat -> list G -> Prop) n created final,
  coevolution step scores num_trials size n created final ->
  length final = length created /\
  ((forall i a b, D i a -> step i a b -> D i b) -> kinds D created -> kinds D final).
Proof. exact @species_stay_apart. Qed.
Print Assumptions C99_species_stay_apart.

(** After at least one generation no made-up fitness is left: every fitness lies between the least and the
    greatest score that complete solutions can have ... *)
Theorem C99_fitness_in_range :
  forall G (step : nat -> list G -> list G -> Prop) scores num_trials size n created final lo hi,
  0 < num_trials -> coevolution step scores num_trials size (S n) created final ->
  (forall cs v, length cs = length created -> scores cs v -> exists q, num_val v = Some (Fin q) /\ (lo <= q /\ q <= hi)%Q) ->
  forall pop x, In pop final -> In x pop -> exists f m, m_fit x = Some f /\ num_val f = Some (Fin m) /\ (lo <= m /\ m <= hi)%Q.
Proof. exact @coevolution_bounds. Qed.
Print Assumptions C99_fitness_in_range.

(** ... and is no empty promise: some team with that individual that was really scored has at least that score,
    and some has at most that score. *)
Theorem C99_fitness_was_reached :
  forall G (step : nat -> list G -> list G -> Prop) scores num_trials size n created final,
  0 < num_trials -> coevolution step scores num_trials size (S n) created final ->
  (forall cs v, scores cs v -> exists q, num_val v = Some (Fin q)) ->
  exists last, coevolution step scores num_trials size n created last /\
  forall i pop x, nth_error final i = Some pop -> In x pop ->
  exists f m, m_fit x = Some f /\ num_val f = Some (Fin m) /\
    (exists cs v q, team (partners last final i) (length final) i (m_ind x) cs /\ scores cs v /\ num_val v = Some (Fin q) /\ m <= q)%Q /\
    (exists cs v q, team (partners last final i) (length final) i (m_ind x) cs /\ scores cs v /\ num_val v = Some (Fin q) /\ q <= m)%Q.
Proof. exact @fitness_was_reached. Qed.
Print Assumptions C99_fitness_was_reached.

(** The individuals of the last species met only individuals that are returned as well. *)
Theorem C99_last_species_met_the_result :
  forall G (step : nat -> list G -> list G -> Prop) scores num_trials size n created final pop x,
  coevolution step scores num_trials size (S n) created final ->
  nth_error final (length final - 1) = Some pop -> In x pop ->
  fairly_scored scores num_trials (fun j => nth j final []) (length final) (length final - 1) x.
Proof. exact @coevolution_last_species. Qed.
Print Assumptions C99_last_species_met_the_result.

(** Of the other species that is false: they were scored with individuals that are gone. *)
Theorem C99_stale_fitness_refuted :
  exists pick (mutate : nat -> nat -> nat -> list Z -> result (list Z)) uuid sel stop value created final gc evss pop x,
  choosers sel /\ coop_run pick mutate uuid sel 1 2 1 stop value created = Some (Ok final, gc, evss) /\
  nth_error final 0 = Some pop /\ In x pop /\
  ~ fairly_scored joined_score 1 (fun j => nth j final []) (length final) 0 x.
Proof. exact stale_fitness. Qed.
Print Assumptions C99_stale_fitness_refuted.

(** With multi_population_ea's default init_evaluate a CooperativeProblem cannot be used: the first run in a
    process always raises KeyError, since the subpopulations are published only after the evaluation ... *)
Theorem C99_default_evaluation_fails :
  forall G pick mutate uuid sel num_trials size combine score chunk max_generations stop (created : list (list (member G))),
  concat created <> [] ->
  coop_problem_run_default pick mutate uuid sel num_trials size combine score chunk max_generations stop None created =
    Some (Err KeyError, inc_generation 0, []).
Proof. exact @default_first_run. Qed.
Print Assumptions C99_default_evaluation_fails.

(** ... and a later run scores its individuals with what the earlier run left behind, in the slot of the species
    that was bred last there. *)
Theorem C99_left_over_subpopulations_refuted :
  exists pick (mutate : nat -> nat -> nat -> list Z -> result (list Z)) uuid sel combine score stop context created final gc evss pop x,
  choosers sel /\
  coop_problem_run_default pick mutate uuid sel 1 2 combine score None 0 stop (Some context) created = Some (Ok final, gc, evss) /\
  nth_error final 0 = Some pop /\ In x pop /\
  ~ fairly_scored (problem_score combine score) 1 (fun j => nth j final []) (length final) 0 x.
Proof. exact left_over_subpopulations. Qed.
Print Assumptions C99_left_over_subpopulations_refuted.

Example C99_example :
  operators_work demo_kind demo_pick demo_mutate demo_sel /\ choosers demo_sel /\ kinds demo_kind demo_created /\
  (match demo_run 2 1 with Some (Ok s, _, _) => shown s | _ => [] end =
     [[([1; 0], Some (Some (Fin 1%Q))); ([1; 1], Some (Some (Fin 2%Q)))]; [([1], Some (Some (Fin 3%Q))); ([1], Some (Some (Fin 3%Q)))]])%Z /\
  (match demo_run 2 2 with Some (Ok s, gc, _) => (shown s, gc_curr gc) | _ => ([], 0%Z) end =
     ([[([1; 0], Some (Some (Fin 2%Q))); ([1; 1], Some (Some (Fin 3%Q)))]; [([1], Some (Some (Fin 3%Q))); ([1], Some (Some (Fin 3%Q)))]], 2))%Z /\
  (match demo_run 2 0 with Some (Ok s, _, _) => shown s | _ => [] end =
     [[([0; 0], Some (Some (Fin (-100)%Q))); ([0; 1], Some (Some (Fin (-100)%Q)))]; [([0], Some (Some (Fin (-100)%Q))); ([0], Some (Some (Fin (-100)%Q)))]])%Z.
Proof.
  split; [exact demo_operators_work|]. split; [exact demo_choosers|]. split; [exact demo_kinds|].
  split; [|split]; vm_compute; reflexivity.
Qed.

Example C99_problem_example :
  (match coop_problem_run demo_pick demo_mutate demo_uuid demo_sel 2%nat 2%nat np_concatenate demo_score (Some 1%nat) 2 (fun _ _ _ => false) (NInt (-100)) demo_created with
   | Some (Ok s, gc, _) => (shown s, gc_curr gc) | _ => ([], 0%Z) end =
     ([[([1; 0], Some (Some (Fin 2%Q))); ([1; 1], Some (Some (Fin 3%Q)))]; [([1], Some (Some (Fin 3%Q))); ([1], Some (Some (Fin 3%Q)))]], 2))%Z.
Proof. vm_compute. reflexivity. Qed.
