(** C40, C41, C42: asynchronous and synchronous distributed evaluation. *)
From Coq Require Import Permutation.
From Verif Require Import Model.Base Model.Scalar Model.Counters Model.Distrib Spec.Order Spec.Distrib
  Proofs.Distrib Proofs.DistribProps.
Open Scope nat_scope.

(** C40, at every moment of every run: after k completed evaluations the counter is the smaller of the
    budget and the number of completions that count, as is the published value; the offspring submitted
    are the counted births plus one for each failure that does not count.  [choice] is the order of
    completion, [outcome] the successes and failures. *)
Theorem C40_ledger :
  forall G max_births pop_size count_nonviable choice outcome inserter pipeline (genomes : list G) n,
  (0 <= max_births)%Z ->
  (forall i x pop, exists pop', inserter i x pop pop_size = Ok pop') ->
  (forall i pop, length (pipeline i pop) = 1) ->
  exists st, ss_iter max_births pop_size count_nonviable choice outcome inserter pipeline n 0 (ss_init genomes) = Ok st /\
    let k := length (as_evaluated st) in
    let compensated := if count_nonviable then 0 else failures (as_evaluated st) in
    (k <= n /\ (k < n -> as_pending st = [])) /\
    bc_curr (as_births st) = Z.min max_births (Z.of_nat k - Z.of_nat compensated) /\
    bc_ctx (as_births st) = bc_curr (as_births st) /\
    Z.of_nat (length (as_submitted st)) = (bc_curr (as_births st) + Z.of_nat compensated)%Z /\
    length (as_pending st) + k = length genomes + length (as_submitted st).
Proof. exact births_after. Qed.
Print Assumptions C40_ledger.

(** C40, the end of the run: if failures stop at some point (or count), the run ends, and it ends with
    exactly max_births counted births and one extra offspring for each failure that does not count. *)
Theorem C40_exact_budget :
  forall G max_births pop_size count_nonviable choice outcome inserter pipeline (genomes : list G) N,
  (0 <= max_births)%Z -> genomes <> [] ->
  (forall i x pop, exists pop', inserter i x pop pop_size = Ok pop') ->
  (forall i pop, length (pipeline i pop) = 1) ->
  (count_nonviable = false -> forall i g, N <= i -> exists f, outcome i g = Ok f) ->
  (exists fuel st, ss_loop max_births pop_size count_nonviable choice outcome inserter pipeline fuel 0 (ss_init genomes) = Some (Ok st)) /\
  forall fuel st, ss_loop max_births pop_size count_nonviable choice outcome inserter pipeline fuel 0 (ss_init genomes) = Some (Ok st) ->
    let compensated := if count_nonviable then 0 else failures (as_evaluated st) in
    bc_curr (as_births st) = max_births /\ bc_ctx (as_births st) = max_births /\
    Z.of_nat (length (as_submitted st)) = (max_births + Z.of_nat compensated)%Z /\
    length (as_evaluated st) = length genomes + length (as_submitted st).
Proof. exact exact_budget. Qed.
Print Assumptions C40_exact_budget.

(** outside the claim: if every evaluation fails and failures do not count, the run never ends *)
Theorem C40_all_failing_never_ends :
  forall G max_births pop_size count_nonviable choice outcome inserter pipeline,
  (forall i x pop, exists pop', inserter i x pop pop_size = Ok pop') ->
  (forall i pop, length (pipeline i pop) = 1) ->
  forall genomes : list G, (0 <= max_births)%Z -> genomes <> [] -> count_nonviable = false ->
  (forall i g, exists e, outcome i g = Err e) ->
  forall fuel, ss_loop max_births pop_size count_nonviable choice outcome inserter pipeline fuel 0 (ss_init genomes) = None.
Proof. exact steady_never_ends. Qed.
Print Assumptions C40_all_failing_never_ends.

(** outside the claim: a pipeline that makes two offspring at a time can exceed the budget *)
Theorem C40_batches_refuted : exists max_births pop_size (genomes : list nat) pipeline choice outcome fuel st,
  (forall i pop, length (pipeline i pop) = 2) /\
  ss_loop max_births pop_size true choice outcome (fun _ => greedy_insert true (fun _ _ => false)) pipeline fuel 0 (ss_init genomes) = Some (Ok st) /\
  (max_births < bc_curr (as_births st))%Z.
Proof. exact overshoot. Qed.
Print Assumptions C40_batches_refuted.

(** three initial tasks, budget 4; the completions number 1 and 3 fail and are compensated *)
Example C40_example :
  match ss_loop 4 2 false (fun i => 2 * i) (fun i g => if (i =? 1) || (i =? 3) then Err ValueError else Ok (NInt (Z.of_nat g)))
          (fun _ => greedy_insert true (fun _ _ => false)) (fun i _ => [10 + i]) 20 0 (ss_init [1; 2; 3]) with
  | Some (Ok st) => bc_curr (as_births st) = 4%Z /\ length (as_submitted st) = 6 /\ length (as_evaluated st) = 9 /\
                    length (as_pop st) = 2
  | _ => False
  end.
Proof. vm_compute. auto. Qed.

(** C41 for greedy insertion: along every run (any completion order, outcomes, pipeline and coins for
    two NaN) the population has the smaller of pop_size and the number of completions; members were
    evaluated; each arrival fills a free place or takes at most one slot, from an incumbent that is not
    viable or strictly worse; no viable fitness is ever lost without a match. *)
Theorem C41_greedy :
  forall G max_births pop_size count_nonviable choice outcome mx coin pipeline (genomes : list G) n,
  0 < pop_size ->
  let run n := ss_iter max_births pop_size count_nonviable choice outcome (fun i => greedy_insert mx (coin i)) pipeline n 0 (ss_init genomes) in
  exists st, run n = Ok st /\
    length (as_pop st) = Nat.min pop_size (length (as_evaluated st)) /\
    (forall y, In y (as_pop st) -> In y (as_evaluated st)) /\
    (exists st', run (S n) = Ok st' /\
      (st' = st /\ as_pending st = [] \/
       exists x, as_evaluated st' = as_evaluated st ++ [x] /\ arrival mx pop_size (as_pop st) x (as_pop st'))) /\
    (forall m st', n <= m -> run m = Ok st' -> no_worse mx (as_pop st) (as_pop st')).
Proof. exact greedy_run. Qed.
Print Assumptions C41_greedy.

(** C41 for tournament insertion with any random slots *)
Theorem C41_tournament :
  forall G max_births pop_size count_nonviable choice outcome mx coin draw pipeline (genomes : list G) n,
  0 < pop_size ->
  let run n := ss_iter max_births pop_size count_nonviable choice outcome (fun i => tournament_insert mx (coin i) (draw i)) pipeline n 0 (ss_init genomes) in
  exists st, run n = Ok st /\
    length (as_pop st) = Nat.min pop_size (length (as_evaluated st)) /\
    (forall y, In y (as_pop st) -> In y (as_evaluated st)) /\
    (exists st', run (S n) = Ok st' /\
      (st' = st /\ as_pending st = [] \/
       exists x, as_evaluated st' = as_evaluated st ++ [x] /\ arrival mx pop_size (as_pop st) x (as_pop st'))) /\
    (forall m st', n <= m -> run m = Ok st' -> no_worse mx (as_pop st) (as_pop st')).
Proof. exact tournament_run. Qed.
Print Assumptions C41_tournament.

(** C41, greedy: the slot that changes held a worst member *)
Theorem C41_greedy_takes_worst :
  forall G mx coin (x : dind G) pop pop_size pop', 0 < pop_size -> pop_size <= length pop ->
  greedy_insert mx coin x pop pop_size = Ok pop' ->
  pop' = pop \/ exists l1 old l2, pop = l1 ++ old :: l2 /\ pop' = l1 ++ x :: l2 /\
       forall y, In y pop -> ~ better mx (si_fit (d_ind old)) (si_fit (d_ind y)).
Proof. exact greedy_slot. Qed.
Print Assumptions C41_greedy_takes_worst.

Example C41_example :
  let d i f v := mk_dind (mk_sind i f) tt v in
  greedy_insert true (fun _ _ => true) (d 9 (NInt 5) true) [d 0 (NInt 7) true; d 1 (NInt 2) true; d 2 (NInt 3) true] 3
  = Ok [d 0 (NInt 7) true; d 9 (NInt 5) true; d 2 (NInt 3) true] /\
  tournament_insert true (fun _ _ => true) 3 (d 9 (NInt 5) true) [d 0 (NInt 7) true; d 1 (NInt 2) true; d 2 (NInt 3) true] 3
  = Ok [d 0 (NInt 7) true; d 1 (NInt 2) true; d 2 (NInt 3) true] /\
  greedy_insert false (fun _ _ => true) (d 9 (NInt 5) true) [d 0 (NInt 7) true; d 1 NNan false; d 2 (NInt 3) true] 3
  = Ok [d 0 (NInt 7) true; d 9 (NInt 5) true; d 2 (NInt 3) true].
Proof. vm_compute. auto. Qed.

(** C42: whatever order the workers finish in, the results are the local evaluations in the order of
    the population; a failing evaluation yields a non-viable individual with NaN fitness. *)
Theorem C42_population :
  forall G outcome (tasks : list (task G)) finish,
  (forall k, k < length tasks -> In k finish) ->
  exists out, eval_population outcome tasks finish = Some out /\ Forall2 (evaluated_as outcome) tasks out.
Proof. exact sync_population. Qed.
Print Assumptions C42_population.

Theorem C42_pool :
  forall G outcome (stream : list (task G)) size finish,
  (forall k, k < size -> In k finish) ->
  (size <= length stream -> exists out, eval_pool outcome stream size finish = Ok (Some out) /\ length out = size /\
     Forall2 (evaluated_as outcome) (firstn size stream) out) /\
  (length stream < size -> eval_pool outcome stream size finish = Err StopIteration).
Proof. exact sync_pool. Qed.
Print Assumptions C42_pool.

(** C42, the counter: exact when the failing workers update it one after the other *)
Theorem C42_counter_partial :
  forall start workers, counter_run start (sequential workers) = (start + Z.of_nat (length workers))%Z.
Proof. exact counter_sequential. Qed.
Print Assumptions C42_counter_partial.

(** in general it never counts too many, and at least one *)
Theorem C42_counter_bounds_partial :
  forall start l, reads_first l ->
  (start <= counter_run start l <= start + Z.of_nat (writes l))%Z /\ (0 < writes l -> (start < counter_run start l)%Z).
Proof. exact counter_bound. Qed.
Print Assumptions C42_counter_bounds_partial.

(** the claim for the counter is false for two workers in threads of one process: an update is lost *)
Theorem C42_counter_refuted :
  exists workers actions,
  NoDup workers /\ Permutation actions (sequential workers) /\ reads_first actions /\
  counter_run 0 actions <> Z.of_nat (length workers).
Proof. exact counter_lost_update. Qed.
Print Assumptions C42_counter_refuted.

Example C42_example :
  option_map (map (fun d => (si_id (d_ind d), si_fit (d_ind d), d_viable d)))
    (eval_population (fun g => if g =? 7 then Err ValueError else Ok (NInt (Z.of_nat g)))
      [mk_task 0 3; mk_task 1 7; mk_task 2 5] [2; 0; 1])
  = Some [(0, NInt 3, true); (1, NNan, false); (2, NInt 5, true)].
Proof. vm_compute. reflexivity. Qed.
