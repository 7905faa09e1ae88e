(** C11, C12, C30, C53: the algorithm loops. *)
From Verif Require Import Model.Base Model.PyList Model.Scalar Model.Selection Model.Counters Model.Algorithm
  Spec.Order Spec.Algorithm Proofs.Algorithm.

(** C11.  [bred_from evs ++ [final]] is the sequence of populations of the run.  [P] is any set of
    fitness values without two different floats that the float tolerance identifies. *)
Theorem C11_elitism_monotone :
  forall mx (coin : nat -> sind -> sind -> bool) max k pipeline stop (P : num -> Prop) start init,
  (forall f g m, P f -> P g -> blurred f g -> ~ better m f g) ->
  1 <= k ->
  (forall i c p o, Forall (fun x => P (si_fit x)) p -> pipeline i c p = Ok o ->
     o <> [] /\ Forall (fun x => P (si_fit x)) o) ->
  Forall (fun x => P (si_fit x)) init ->
  forall final gc' evs,
  generational_ea (fun i => ind_lt mx (coin i)) (fun i => ind_gt mx (coin i)) (fun _ => ind_eq)
    max k pipeline stop start init = Some (Ok final, gc', evs) ->
  let pops := bred_from evs ++ [final] in
  nth_error pops 0 = Some init /\
  forall j1 j2 p1 p2, j1 <= j2 -> nth_error pops j1 = Some p1 -> nth_error pops j2 = Some p2 ->
    forall x, In x p1 -> exists y, In y p2 /\ ~ better mx (si_fit x) (si_fit y).
Proof. exact elitism_monotone. Qed.
Print Assumptions C11_elitism_monotone.

(** Offspring worse than the parents every generation: the elite survives. *)
Example C11_example :
  let i n f := mk_sind n (NInt f) in
  let init := [i 0 5%Z; i 1 9%Z] in
  let pipeline := fun (it : nat) (_ : Z) (_ : list sind) => Ok [i (2 + it) 1%Z; i (4 + it) 2%Z] in
  exists gc' evs,
    generational_ea (fun _ => ind_lt true (fun _ _ => false)) (fun _ => ind_gt true (fun _ _ => false))
      (fun _ => ind_eq) 2 1 pipeline (fun _ _ _ => false) 0 init
    = Some (Ok [i 1 9%Z; i 5 2%Z], gc', evs) /\ length (bred_from evs) = 2 /\
  (forall f g m, (exists z, f = NInt z) -> (exists z, g = NInt z) -> blurred f g -> ~ better m f g).
Proof.
  eexists _, _. split; [vm_compute; reflexivity|]. split; [vm_compute; reflexivity|].
  intros f g m [z ->] _ ([e He] & _). discriminate.
Qed.

(** C12.  The events are exactly: for each completed generation, the stop predicate then the
    pipeline, both seeing generation start + j; the run ends at max_generations, at the first true
    stop predicate, or with the pipeline's exception. *)
Theorem C12_generational_run :
  forall (A : Type) (lt gt eq : nat -> A -> A -> bool) max_generations k_elites pipeline stop start init,
  exists r gc' evs ps final,
    generational_ea lt gt eq max_generations k_elites pipeline stop start init = Some (r, gc', evs) /\
    nth_error (ps ++ [final]) 0 = Some init /\
    gen_history max_generations pipeline stop
      (fun offspring parents survivors =>
         length survivors = length offspring /\ incl survivors (offspring ++ parents))
      0 start ps final r evs /\
    gc_curr gc' = (start + Z.of_nat (length ps))%Z /\ gc_ctx gc' = gc_curr gc'.
Proof. exact @generational_run. Qed.
Print Assumptions C12_generational_run.

Theorem C12_exact_number_of_generations :
  forall (A : Type) (lt gt eq : nat -> A -> A -> bool) max_generations k_elites pipeline stop start init,
  (forall i c p, stop i c p = false) ->
  (forall i c p, exists o, pipeline i c p = Ok o) ->
  exists f gc' evs,
    generational_ea lt gt eq max_generations k_elites pipeline stop start init = Some (Ok f, gc', evs) /\
    length (bred_from evs) = Z.to_nat (max_generations - start).
Proof. exact @generational_count. Qed.
Print Assumptions C12_exact_number_of_generations.

Example C12_example :
  generational_ea (fun _ => Nat.ltb) (fun _ a b => Nat.ltb b a) (fun _ => Nat.eqb) 7 0
    (fun _ _ p => Ok (map S p)) (fun _ _ p => match p with [] => true | x :: _ => 3 <? x end) 2 [1; 2]
  = Some (Ok [4; 3], mk_gc 4 4 [],
      [EvStop 2 [1; 2]; EvPipe 2 [1; 2]; EvStop 3 [3; 2]; EvPipe 3 [3; 2]; EvStop 4 [4; 3]]).
Proof. vm_compute. reflexivity. Qed.

(** stop_at_generation stops at the first generation that is not below its argument. *)
Theorem C12_stop_at_generation :
  forall (A : Type) (lt gt eq : nat -> A -> A -> bool) max_generations k_elites pipeline start init m,
  (forall i c p, exists o, pipeline i c p = Ok o) ->
  exists f gc' evs,
    generational_ea lt gt eq max_generations k_elites pipeline (stop_at_generation m) start init
      = Some (Ok f, gc', evs) /\
    length (bred_from evs) = Z.to_nat (Z.min max_generations m - start).
Proof. exact @stop_at_generation_count. Qed.
Print Assumptions C12_stop_at_generation.

(** C30. *)
Theorem C30_islands_once_per_generation :
  forall (A : Type) max_generations (shared_pipeline : list (@mop A)) subpop_pipelines stop init,
  exists r gc' evss,
    multi_population_ea max_generations shared_pipeline subpop_pipelines stop init = Some (r, gc', evss) /\
    forall final, r = Ok final ->
      mp_history max_generations
        (fun j g v parents => bind (operators shared_pipeline subpop_pipelines j)
                                   (fun ops => run_ops ops g v parents))
        stop 0 0 init final (gc_curr gc') (gc_ctx gc') evss.
Proof. exact @multi_population_ok. Qed.
Print Assumptions C30_islands_once_per_generation.

Theorem C30_exact_number_of_generations :
  forall (A : Type) max_generations (shared_pipeline : list (@mop A)) subpop_pipelines stop
    init r gc' evss final,
  (forall g c p, stop g c p = false) ->
  multi_population_ea max_generations shared_pipeline subpop_pipelines stop init = Some (r, gc', evss) ->
  r = Ok final -> length evss = Z.to_nat max_generations.
Proof. exact @multi_population_count. Qed.
Print Assumptions C30_exact_number_of_generations.

(** The [run] of an island in the theorem above: the shared operators in order, then the island's own. *)
Theorem C30_shared_then_own_operators :
  forall (A : Type) (shared : list (@mop A)) subs j g v parents offspring,
  let run := bind (operators shared subs j) (fun ops => run_ops ops g v parents) in
  (subs = [] -> (run = Ok offspring <-> passes g v shared parents offspring)) /\
  (forall own, nth_error subs j = Some own ->
     (run = Ok offspring <-> exists between, passes g v shared parents between /\ passes g v own between offspring)) /\
  (subs <> [] -> length subs <= j -> run = Err IndexError).
Proof. exact @island_operators. Qed.
Print Assumptions C30_shared_then_own_operators.

Example C30_example_operators :
  let add n : @mop nat := fun _ _ p => Ok (map (Nat.add n) p) in
  let double : @mop nat := fun _ _ p => Ok (map (Nat.mul 2) p) in
  bind (operators [add 1] [[double]; [add 3]] 0) (fun ops => run_ops ops 0 (mk_view 0 0 []) [1; 2]) = Ok [4; 6] /\
  bind (operators [add 1] [[double]; [add 3]] 1) (fun ops => run_ops ops 0 (mk_view 0 1 []) [1; 2]) = Ok [5; 6].
Proof. vm_compute. split; reflexivity. Qed.

(** Two islands; each copies the sum of all visible populations: island 1 sees island 0's new one. *)
Example C30_example :
  let op : @mop nat := fun _ v p => Ok (map (fun x => x + list_sum (concat (v_pops v))) p) in
  multi_population_ea 2 [op] [] (fun _ _ _ => false) [[1]; [10]] =
  Some (Ok [[56]; [120]], mk_gc 2 2 [],
    [[MpRun 0 (mk_view 0 0 [[1]; [10]]) [1]; MpRun 1 (mk_view 0 1 [[12]; [10]]) [10]];
     [MpRun 0 (mk_view 1 0 [[12]; [32]]) [12]; MpRun 1 (mk_view 1 1 [[56]; [32]]) [32]]]).
Proof. vm_compute. reflexivity. Qed.

(** C53 as stated is false: a supplied context is not updated, and zero evaluations still do one. *)
Theorem C53_supplied_context_refuted :
  exists (evaluations : Z) (pipeline : nat -> rs_ctx -> list nat -> result (list nat)) caller global first traj c,
    (1 <= evaluations)%Z /\
    random_search evaluations pipeline caller global first = Some (Ok traj, c) /\
    rs_caller c <> Some evaluations.
Proof.
  exists 3%Z, (fun _ _ l => Ok (map S l)), None, None, 0, [0; 1; 2], (mk_rs None (Some 3%Z)).
  vm_compute. split; [discriminate|]. split; [reflexivity|discriminate].
Qed.
Print Assumptions C53_supplied_context_refuted.

Theorem C53_zero_evaluations_refuted :
  exists (pipeline : nat -> rs_ctx -> list nat -> result (list nat)) caller global first traj c,
    random_search 0 pipeline caller global first = Some (Ok traj, c) /\ length traj = 1.
Proof.
  exists (fun _ _ l => Ok (map S l)), None, None, 0, [0], (mk_rs None (Some 1%Z)).
  vm_compute. split; reflexivity.
Qed.
Print Assumptions C53_zero_evaluations_refuted.

(** What holds: at least one evaluation requested, a pipeline ending in pool(size=1); the counter is
    published in the global context. *)
Theorem C53_random_search_partial :
  forall (A : Type) evaluations (pipeline : nat -> rs_ctx -> list A -> result (list A)) caller global first,
  (1 <= evaluations)%Z ->
  (forall i c x, exists y, pipeline i c [x] = Ok [y]) ->
  exists traj,
    random_search evaluations pipeline caller global first =
      Some (Ok traj, mk_rs caller (Some evaluations)) /\
    Z.of_nat (length traj) = evaluations /\ nth_error traj 0 = Some first /\
    forall j x y, nth_error traj j = Some x -> nth_error traj (S j) = Some y ->
      pipeline j (mk_rs caller (Some (1 + Z.of_nat j)%Z)) [x] = Ok [y].
Proof. exact @random_search_ok. Qed.
Print Assumptions C53_random_search_partial.

(** Every run, whatever the number of evaluations and the pipeline: it is a walk of evaluations - 1
    further steps (none for evaluations <= 1), all outputs recorded in order; or it stops at the first
    step whose pipeline fails or returns nothing, with that error. *)
Theorem C53_any_pipeline :
  forall (A : Type) evaluations (pipeline : nat -> rs_ctx -> list A -> result (list A)) caller global first,
  exists outs last r,
    random_search evaluations pipeline caller global first =
      Some (r, mk_rs caller (Some (1 + Z.of_nat (length outs))%Z)) /\
    walk pipeline caller 0 first outs last /\
    ((length outs = Z.to_nat (evaluations - 1) /\ r = Ok (first :: concat outs)) \/
     (length outs < Z.to_nat (evaluations - 1) /\
      exists e, r = Err e /\
        let run := pipeline (length outs) (mk_rs caller (Some (1 + Z.of_nat (length outs))%Z)) [last] in
        (run = Err e \/ (run = Ok [] /\ e = IndexError)))).
Proof. exact @random_search_walk. Qed.
Print Assumptions C53_any_pipeline.

(** two children per step, and a pipeline failing at its third step *)
Example C53_any_pipeline_example :
  random_search 3 (fun i _ l => Ok (map (fun x => x * 2 + i) l ++ [7])) (Some 5%Z) None 1
    = Some (Ok [1; 2; 7; 5; 7], mk_rs (Some 5%Z) (Some 3%Z)) /\
  random_search 9 (fun i _ l => if i =? 2 then Ok [] else Ok (map S l)) None None 1
    = Some (Err IndexError, mk_rs None (Some 3%Z)) /\
  random_search (-2) (fun i _ l => Ok (map S l)) None None 1 = Some (Ok [1], mk_rs None (Some 1%Z)).
Proof. vm_compute. repeat split. Qed.

Example C53_example :
  random_search 4 (fun i _ l => Ok (map (fun x => x * 2 + i) l)) None None 1
  = Some (Ok [1; 2; 5; 12], mk_rs None (Some 4%Z)).
Proof. vm_compute. reflexivity. Qed.
