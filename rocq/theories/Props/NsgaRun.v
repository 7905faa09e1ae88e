(** C93: whole runs of generalized_nsga_2. *)
From Verif Require Import Model.Base Model.Pareto Model.Crowding Spec.Order Spec.Pareto Spec.NsgaRun Proofs.NsgaRun.
Open Scope nat_scope.

(** A run takes its survivors generation by generation from parents and offspring, as many generations as asked for unless
    stopped.  If in every generation the pool consists of different, finite individuals and every front varies: the population
    keeps its size; as long as the first front fits into the population, the first front at the end is exactly the Pareto front
    of everyone who was ever evaluated; and with at least two places per objective nobody who was ever evaluated is better in
    any single objective than the best at the end. *)
Theorem C93_run :
  forall mx pipeline stop, mx <> [] ->
  forall left g parents a final a', nsga2_loop mx pipeline stop left g parents a = Ok (final, a') ->
  exists h, journey pipeline g parents h final /\ length h <= left /\ (length h = left \/ stop (g + length h) final = true) /\
    (Forall (fun s => good_pool mx (pool_of s)) h ->
       length final = length parents /\
       (Forall (fun s => front_fits mx (length parents) (pool_of s)) h ->
          forall x, undominated mx (everyone parents h) x <-> undominated mx final x) /\
       (2 * length mx <= length parents -> forall k x, k < length mx -> In x (everyone parents h) ->
          exists y, In y final /\ (y = x \/ as_good_at mx k y x))).
Proof. exact nsga_run. Qed.
Print Assumptions C93_run.

(** A run that raises has met a pool that is not of this kind. *)
Theorem C93_raises :
  forall mx pipeline stop, mx <> [] ->
  forall left g parents a e, nsga2_loop mx pipeline stop left g parents a = Err e ->
  exists h current, journey pipeline g parents h current /\ length h < left /\ ~ good_pool mx (pipeline (g + length h) current ++ current).
Proof. exact run_raises. Qed.
Print Assumptions C93_raises.

(** When the first front does not fit, progress can be lost for good: the final population contains an individual that is
    dominated by one evaluated earlier. *)
Theorem C93_no_deterioration_refuted :
  exists mx pipeline parents a final a' h, nsga2_loop mx pipeline (fun _ _ => false) 2 0 parents a = Ok (final, a') /\
  journey pipeline 0 parents h final /\ length h = 2 /\ Forall (fun s => good_pool mx (pool_of s)) h /\ 2 * length mx <= length parents /\
  exists x y, In x (everyone parents h) /\ ~ In x final /\ In y final /\ beats_in mx x y.
Proof. exact lossy. Qed.
Print Assumptions C93_no_deterioration_refuted.

(** In a population smaller than that the best value of an objective can be lost. *)
Theorem C93_small_population_refuted :
  exists mx pipeline parents a final a' h, nsga2_loop mx pipeline (fun _ _ => false) 1 0 parents a = Ok (final, a') /\
  journey pipeline 0 parents h final /\ length h = 1 /\ Forall (fun s => good_pool mx (pool_of s)) h /\ length parents = 1 /\
  exists k x, k < length mx /\ In x (everyone parents h) /\ forall y, In y final -> y <> x /\ ~ as_good_at mx k y x.
Proof. exact single. Qed.
Print Assumptions C93_small_population_refuted.

Example C93_example :
  exists a', nsga2_loop [false; false] steady_pipeline (fun _ _ => false) 2 0 steady_parents blank = Ok ([pt 7 0 90; pt 3 100 0; pt 4 30 30; pt 8 10 80], a') /\
  exists h, journey steady_pipeline 0 steady_parents h [pt 7 0 90; pt 3 100 0; pt 4 30 30; pt 8 10 80] /\ length h = 2 /\
    Forall (fun s => good_pool [false; false] (pool_of s)) h /\ Forall (fun s => front_fits [false; false] 4 (pool_of s)) h.
Proof. exact steady. Qed.
