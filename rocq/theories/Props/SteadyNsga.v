(** C76: steady-state NSGA-II and the sort by dominance. *)
From Coq Require Import Permutation.
From Verif Require Import Model.Base Model.PyList Model.Pareto Model.Crowding Model.Enlu Model.Counters Model.Distrib Model.SteadyNsga
  Spec.Order Spec.Pareto Spec.Crowding Spec.SteadyNsga Proofs.Crowding Proofs.SteadyNsga.

(** As long as every evaluation gives a full vector of finite numbers, in whatever order evaluations complete: the run goes on;
    every individual ever submitted is evaluated or waiting, once; the population consists of the evaluated individuals who
    were not dropped, as many as there is room for; it is arranged in non-empty layers whose number is the rank of their
    members and within which the crowding distance was computed; and with at most two objectives the ranks are the true
    front numbers. *)
Theorem C76_population :
  forall G mx max_births pop_size count_nonviable choice outcome pipeline a (genomes : list G) n,
  (forall i g, i < n -> full_fitness mx (outcome i g)) ->
  exists st dropped, ns_iter mx max_births pop_size count_nonviable choice outcome pipeline n 0 (ns_init a genomes) = Ok st /\
    (length (ns_evaluated st) <= n /\ (length (ns_evaluated st) < n -> ns_pending st = [])) /\
    fates outcome genomes st /\
    survivors pop_size (ns_evaluated st) dropped (ns_pop st) /\
    NoDup (map o_id (ns_evaluated st)) /\
    ns_pop st = concat (ins_layers (ns_ins st)) /\
    (forall l, In l (ins_layers (ns_ins st)) -> l <> []) /\
    (forall k l x, nth_error (ins_layers (ns_ins st)) k = Some l -> In x l -> at_rank (ins_attrs (ns_ins st)) (o_id x) = S k) /\
    (forall l, In l (ins_layers (ns_ins st)) -> crowding fval (length mx) l (fun x => at_dist (ins_attrs (ns_ins st)) (o_id x))) /\
    (length mx <= 2 -> front_numbers (fun v u => dominates mx (o_fit v) (o_fit u)) (ns_pop st) (fun u => at_rank (ins_attrs (ns_ins st)) (o_id u))).
Proof. exact @population_run. Qed.
Print Assumptions C76_population.

(** What one completion does: the newcomer joins while there is room; after that one member of newcomer and population leaves.
    With at most two objectives it is of the last front, among those with the smallest crowding distance, and if nobody
    dominates it then nobody there dominates anybody. *)
Theorem C76_completion :
  forall G mx max_births pop_size count_nonviable choice outcome pipeline a (genomes : list G) n,
  (forall i g, i <= n -> full_fitness mx (outcome i g)) ->
  let run n := ns_iter mx max_births pop_size count_nonviable choice outcome pipeline n 0 (ns_init a genomes) in
  exists st st', run n = Ok st /\ run (S n) = Ok st' /\
    (st' = st /\ ns_pending st = [] \/
     exists x, ns_evaluated st' = ns_evaluated st ++ [x] /\
       let pool := x :: ns_pop st in
       (length (ns_pop st) < pop_size /\ Permutation pool (ns_pop st') \/
        exists z, pop_size <= length (ns_pop st) /\ Permutation pool (z :: ns_pop st') /\
         (length mx <= 2 ->
          (exists rank worst dist, front_numbers (fun v u => dominates mx (o_fit v) (o_fit u)) pool rank /\
             (forall y, In y pool -> rank y <= rank z) /\ (forall y, In y worst <-> In y pool /\ rank y = rank z) /\
             crowding fval (length mx) worst dist /\
             forall y, In y worst -> exists e f, dist z = Some e /\ dist y = Some f /\ ~ ext_lt f e) /\
          ((forall y, In y pool -> ~ dominates mx (o_fit y) (o_fit z)) ->
           forall u v, In u pool -> In v pool -> ~ dominates mx (o_fit u) (o_fit v))))).
Proof. exact @completion. Qed.
Print Assumptions C76_completion.

(** With one offspring at a time the run ends, and has then submitted exactly [max_births] offspring and evaluated them and the
    initial population. *)
Theorem C76_exact_budget :
  forall G mx max_births pop_size count_nonviable choice outcome pipeline a,
  (forall i at_ pop, length (pipeline i at_ pop) = 1) -> (0 <= max_births)%Z ->
  forall genomes : list G, genomes <> [] ->
  (forall i g, full_fitness mx (outcome i g)) ->
  let loop fuel := ns_loop mx max_births pop_size count_nonviable choice outcome pipeline fuel 0 (ns_init a genomes) in
  (exists st, loop (length genomes + Z.to_nat max_births) = Some (Ok st)) /\
  forall fuel st, loop fuel = Some (Ok st) ->
    bc_curr (ns_births st) = max_births /\ bc_ctx (ns_births st) = max_births /\
    Z.of_nat (length (ns_submitted st)) = max_births /\
    length (ns_evaluated st) = length genomes + length (ns_submitted st).
Proof. exact @exact_budget. Qed.
Print Assumptions C76_exact_budget.

Example C76_example :
  match ns_loop [true; true] 4 7 true (fun i => i * i) (fun _ => ex_fitness) ex_offspring 20 0 (ns_init (mk_attrs (fun _ => 0) (fun _ => None)) [3; 6; 5; 0]) with
  | Some (Ok st) => map o_id (ns_evaluated st) = [0; 2; 1; 4; 3; 6; 5; 7] /\
      map o_id (ns_pop st) = [2; 1; 4; 5; 7; 0; 6] /\ map (map o_id) (ins_layers (ns_ins st)) = [[2; 1; 4; 5; 7]; [0; 6]] /\
      bc_curr (ns_births st) = 4%Z /\ length (ns_submitted st) = 4
  | _ => False
  end.
Proof. vm_compute. auto. Qed.

(** A failing evaluation ends the run with a TypeError whatever count_nonviable says: its fitness is the number nan, which the
    crowding distance cannot index. *)
Theorem C76_failing_evaluation_aborts :
  forall G mx max_births pop_size count_nonviable choice outcome pipeline a (genomes : list G) n st t e,
  ns_iter mx max_births pop_size count_nonviable choice outcome pipeline n 0 (ns_init a genomes) = Ok st ->
  nth_error (ns_pending st) (choice n mod length (ns_pending st)) = Some t -> outcome n (t_genome t) = Err e ->
  (forall m, n < m -> ns_iter mx max_births pop_size count_nonviable choice outcome pipeline m 0 (ns_init a genomes) = Err TypeError) /\
  (forall fuel, n <= fuel -> ns_loop mx max_births pop_size count_nonviable choice outcome pipeline fuel 0 (ns_init a genomes) = Some (Err TypeError)).
Proof. exact @failing_aborts. Qed.
Print Assumptions C76_failing_evaluation_aborts.

(** So failures are not tolerated, although count_nonviable is there for them: one failure among five evaluations. *)
Theorem C76_failures_tolerated_refuted :
  exists (outcome : nat -> nat -> result (list num)) (genomes : list nat) fuel,
    (forall i g, i <> 3 -> full_fitness [true; true] (outcome i g)) /\ (forall g, exists e, outcome 3 g = Err e) /\
    forall count_nonviable,
    ns_loop [true; true] 2 3 count_nonviable (fun i => i) outcome ex_offspring fuel 0 (ns_init (mk_attrs (fun _ => 0) (fun _ => None)) genomes)
    = Some (Err TypeError).
Proof. exact failures_abort. Qed.
Print Assumptions C76_failures_tolerated_refuted.

(** sort_by_dominance: a stable sort by rank and, within a rank, by decreasing distance *)
Theorem C76_sort_by_dominance :
  forall rank dist pop,
  (forall x, In x pop -> exists d, dist (o_id x) = Some d) ->
  sorted_stably (crowded_before rank dist) pop (sort_by_dominance rank dist pop).
Proof. exact sort_by_dominance_spec. Qed.
Print Assumptions C76_sort_by_dominance.

Example C76_example_sort :
  let ind i := mk_mo i [] in
  let rank i := nth i [2; 1; 1; 2; 1] 0 in
  let dist i := nth i [Some PInf; Some (Fin 1%Q); Some PInf; Some (Fin 3%Q); Some (Fin 1%Q)] None in
  map o_id (sort_by_dominance rank dist (map ind [0; 1; 2; 3; 4])) = [2; 1; 4; 0; 3].
Proof. reflexivity. Qed.
