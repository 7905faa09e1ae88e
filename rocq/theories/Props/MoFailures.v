(** C101: failed evaluations under several objectives. *)
From Verif Require Import Model.Base Model.Pareto Model.Crowding Model.MoFailures Spec.Order Spec.Pareto Spec.NsgaRun Spec.MoFailures Proofs.RankOrdinal Proofs.MoFailures.
Open Scope nat_scope.

(** Comparisons: an individual is better than another exactly if both were evaluated and it dominates the other; all else,
    in particular anybody against a failed individual, counts as equal. *)
Theorem C101_comparison :
  forall failed mx, mx <> [] ->
  forall a b, (failed (o_id a) = false -> length (o_fit a) = length mx) -> (failed (o_id b) = false -> length (o_fit b) = length mx) ->
  (robust_lt failed mx a b = true <-> better_evaluated failed mx b a) /\
  (robust_gt failed mx a b = true <-> better_evaluated failed mx a b) /\
  (robust_eq failed mx a b = true <-> ~ better_evaluated failed mx a b /\ ~ better_evaluated failed mx b a).
Proof. exact robust_comparison. Qed.
Print Assumptions C101_comparison.
Example C101_comparison_example :
  robust_lt nine [false; false] (pt 1 3 3) (pt 2 1 2) = true /\ robust_lt nine [false; false] broken (pt 2 1 2) = false /\
  robust_gt nine [false; false] (pt 2 1 2) broken = false.
Proof. repeat split. Qed.

(** The documentation says that a failed individual is worse than every other (leap_ec/individual.py:288-289).  It is equal. *)
Theorem C101_failure_is_worse_refuted : exists failed mx x y, mx <> [] /\ length (o_fit y) = length mx /\
  failed (o_id x) = true /\ failed (o_id y) = false /\ robust_lt failed mx x y = false /\ robust_eq failed mx x y = true.
Proof. exists nine, [false; false], broken, (pt 1 0 0). repeat split; discriminate. Qed.
Print Assumptions C101_failure_is_worse_refuted.

(** fast_nondominated_sort puts every failed individual into the first front and numbers the fronts of the others as if the
    failed were not there. *)
Theorem C101_fast_sort :
  forall failed mx, mx <> [] ->
  forall population parents before fuel,
  let working := match parents with Some ps => population ++ ps | None => population end in
  population <> [] -> NoDup (map o_id working) ->
  (forall x, In x working -> failed (o_id x) = false -> length (o_fit x) = length mx) -> length working < fuel ->
  exists st, fast_nondominated_sort (robust_gt failed mx) fuel population parents before = Some (Ok (working, st)) /\
    (forall x, In x working -> failed (o_id x) = true -> f_rank st (o_id x) = 1) /\
    front_numbers (fun y x => dominates mx (o_fit y) (o_fit x)) (successes failed working) (fun x => f_rank st (o_id x)).
Proof. exact fast_sort_with_failures. Qed.
Print Assumptions C101_fast_sort.
Example C101_fast_sort_example :
  match fast_nondominated_sort (robust_gt nine [false; false]) 5 [pt 1 3 3; broken] (Some [pt 2 1 2; pt 3 4 4]) (mk_fns (fun _ => []) (fun _ => 0%Z) (fun _ => 0)) with
  | Some (Ok (_, st)) => map (f_rank st) [1; 9; 2; 3] = [2; 1; 1; 3]
  | _ => False
  end.
Proof. reflexivity. Qed.

(** rank_ordinal_sort with k failed individuals: these get rank k, everybody else k more than the number of their front among
    the others. *)
Theorem C101_rank_ordinal :
  forall failed mx population parents before,
  let working := match parents with Some ps => population ++ ps | None => population end in
  mx <> [] -> working <> [] -> (forall x y, In x working -> In y working -> o_id x = o_id y -> x = y) ->
  numeric_vectors mx (successes failed working) ->
  exists rank fronts, robust_rank_ordinal_sort failed mx population parents before = Ok (working, rank) /\
    front_numbers (fun y x => dominates mx (o_fit y) (o_fit x)) (successes failed working) (fun x => fronts (o_id x)) /\
    (forall x, In x (failures failed working) -> rank (o_id x) = length (failures failed working)) /\
    (forall x, In x (successes failed working) -> rank (o_id x) = length (failures failed working) + fronts (o_id x)).
Proof. exact rank_ordinal_with_failures. Qed.
Print Assumptions C101_rank_ordinal.
Example C101_rank_ordinal_example :
  match robust_rank_ordinal_sort (fun i => (i =? 8) || (i =? 9)) [false; false] [pt 1 3 3; broken; mk_mo 8 []] (Some [pt 2 1 2; pt 3 4 4]) (fun _ => 0) with
  | Ok (_, rank) => map rank [1; 9; 8; 2; 3] = [4; 2; 2; 3; 5]
  | _ => False
  end.
Proof. reflexivity. Qed.

(** So the two sorts give the same ranks exactly up to a shift by the number of failures. *)
Theorem C101_sorts :
  forall failed mx population parents before before' fuel,
  let working := match parents with Some ps => population ++ ps | None => population end in
  mx <> [] -> population <> [] -> NoDup (map o_id working) -> numeric_vectors mx (successes failed working) -> length working < fuel ->
  exists st rank,
    fast_nondominated_sort (robust_gt failed mx) fuel population parents before = Some (Ok (working, st)) /\
    robust_rank_ordinal_sort failed mx population parents before' = Ok (working, rank) /\
    forall x, In x working -> rank (o_id x) =
      if failed (o_id x) then length (failures failed working) else length (failures failed working) + f_rank st (o_id x).
Proof. exact sorts_with_failures. Qed.
Print Assumptions C101_sorts.
Example C101_sorts_example : NoDup (map o_id [pt 1 3 3; broken; pt 2 1 2]) /\ numeric_vectors [false; false] (successes nine [pt 1 3 3; broken; pt 2 1 2]).
Proof.
  split.
  - repeat constructor; intros H; cbn in H; repeat destruct H as [H|H]; try discriminate; destruct H.
  - intros x [<-|[<-|[]]]; (split; [reflexivity|repeat constructor; discriminate]).
Qed.

(** "Produces identical rank values to fast_nondominated_sort" (leap_ec/multiobjective/ops.py:117) is false once an evaluation
    has failed. *)
Theorem C101_identical_ranks_refuted : exists failed mx population st rank x,
  mx <> [] /\ NoDup (map o_id population) /\ numeric_vectors mx (successes failed population) /\ In x population /\
  fast_nondominated_sort (robust_gt failed mx) (S (length population)) population None (mk_fns (fun _ => []) (fun _ => 0%Z) (fun _ => 0)) = Some (Ok (population, st)) /\
  robust_rank_ordinal_sort failed mx population None (fun _ => 0) = Ok (population, rank) /\
  f_rank st (o_id x) = 1 /\ rank (o_id x) = 2.
Proof. exact identical_ranks_false. Qed.
Print Assumptions C101_identical_ranks_refuted.

(** One generation of generalized_nsga_2, with either ranking: if any evaluation failed it raises TypeError, whatever the rest
    of the pool is. *)
Theorem C101_generation :
  forall failed mx rank_func parents offspring a,
  rank_func = by_rank_ordinal failed mx \/ rank_func = by_fast_sort failed mx ->
  mx <> [] -> offspring <> [] -> NoDup (map o_id (offspring ++ parents)) ->
  (forall x, In x (successes failed (offspring ++ parents)) -> length (o_fit x) = length mx) ->
  failures failed (offspring ++ parents) <> [] ->
  robust_survival failed mx rank_func parents offspring a = Err TypeError.
Proof. exact generation_fails. Qed.
Print Assumptions C101_generation.
Example C101_generation_example :
  robust_survival nine [false; false] (by_fast_sort nine [false; false]) steady_parents [pt 4 30 30; broken] blank = Err TypeError /\
  robust_survival nine [false; false] (by_rank_ordinal nine [false; false]) steady_parents [pt 4 30 30; broken] blank = Err TypeError /\
  match robust_survival nine [false; false] (by_fast_sort nine [false; false]) steady_parents [pt 4 30 30; pt 5 70 70] blank with
  | Ok (next, _) => length next = 4
  | Err _ => False
  end.
Proof. vm_compute. repeat split; reflexivity. Qed.

(** Whole runs with rank_ordinal_sort: as long as no pool has a failed individual the run is the run of C93, step by step.  It
    ends like that one, or raises TypeError in the first generation whose pool has one. *)
Theorem C101_run :
  forall failed mx pipeline stop, mx <> [] -> (forall g ps, numeric_vectors mx (successes failed (pipeline g ps))) ->
  forall left g parents a, numeric_vectors mx (successes failed parents) ->
  exists h current, journey pipeline g parents h current /\ length h <= left /\ Forall (fun s => failures failed (pool_of s) = []) h /\
    let plain := nsga2_loop mx pipeline stop left g parents a in
    let run := robust_loop failed mx (by_rank_ordinal failed mx) pipeline stop left g parents a in
    let offspring := pipeline (g + length h) current in
    (run = plain /\ (exists a', run = Ok (current, a')) /\ (length h = left \/ stop (g + length h) current = true)) \/
    (run = plain /\ run = Err IndexError /\ offspring ++ current = []) \/
    (run = Err TypeError /\ length h < left /\ stop (g + length h) current = false /\ failures failed (offspring ++ current) <> []).
Proof. exact robust_run. Qed.
Print Assumptions C101_run.
Example C101_run_example :
  match robust_loop nine [false; false] (by_rank_ordinal nine [false; false]) breaking_pipeline (fun _ _ => false) 1 0 steady_parents blank with
  | Ok (final, _) => length final = 4 /\ In (pt 4 30 30) final
  | Err _ => False
  end /\
  robust_loop nine [false; false] (by_rank_ordinal nine [false; false]) breaking_pipeline (fun _ _ => false) 5 0 steady_parents blank = Err TypeError.
Proof. vm_compute. split; [split; [reflexivity|tauto]|reflexivity]. Qed.

(** With either ranking: a run that returns has never had a failed individual in a pool. *)
Theorem C101_a_returning_run_saw_no_failure :
  forall failed mx rank_func pipeline stop left g parents a final a',
  rank_func = by_rank_ordinal failed mx \/ rank_func = by_fast_sort failed mx ->
  robust_loop failed mx rank_func pipeline stop left g parents a = Ok (final, a') ->
  exists h, journey pipeline g parents h final /\ length h <= left /\ (length h = left \/ stop (g + length h) final = true) /\
    Forall (fun s => failures failed (pool_of s) = []) h.
Proof. exact runs_are_clean. Qed.
Print Assumptions C101_a_returning_run_saw_no_failure.
Example C101_a_returning_run_saw_no_failure_example :
  match robust_loop nine [false; false] (by_fast_sort nine [false; false]) breaking_pipeline (fun g _ => g =? 1) 5 0 steady_parents blank with
  | Ok (final, _) => length final = 4
  | Err _ => False
  end.
Proof. vm_compute. reflexivity. Qed.

(** RobustIndividual is there so that a run goes on after a failed evaluation (leap_ec/individual.py:265-291).  With several
    objectives one failure in a pool of seven ends it. *)
Theorem C101_robustness_refuted : exists failed mx pipeline parents a,
  mx <> [] /\ numeric_vectors mx (successes failed parents) /\ (forall g ps, numeric_vectors mx (successes failed (pipeline g ps))) /\
  (forall g ps, length (failures failed (pipeline g ps)) <= 1) /\ failures failed parents = [] /\
  robust_loop failed mx (by_rank_ordinal failed mx) pipeline (fun _ _ => false) 2 0 parents a = Err TypeError /\
  robust_loop failed mx (by_fast_sort failed mx) pipeline (fun _ _ => false) 2 0 parents a = Err TypeError.
Proof. exact robustness_false. Qed.
Print Assumptions C101_robustness_refuted.
