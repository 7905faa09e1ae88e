(** C36, C37: crowding distance and the NSGA-II generation. *)
From Coq Require Import Permutation.
From Verif Require Import Model.Base Model.Pareto Model.Crowding Spec.Order Spec.Selection Spec.Pareto Spec.Crowding
  Proofs.Pareto Proofs.RankOrdinal Proofs.Crowding Proofs.Nsga2 Proofs.CrowdingProps
  Spec.CrowdingInf Proofs.CrowdingInf.
Open Scope nat_scope.

(** C36 as stated fails: a rank whose members agree in every objective (for instance a rank of one)
    disappears. *)
Theorem C36_keeps_everybody_refuted :
  exists mx rank pop d out d', NoDup (map o_id pop) /\ finite_vectors mx pop /\
    crowding_distance_calc mx rank pop d = Ok (out, d') /\ length pop = 5 /\
    (exists best, In best pop /\ ~ In best out /\
       forall x, In x pop -> x = best \/ dominates mx (o_fit best) (o_fit x)).
Proof. exact crowding_loses_best. Qed.
Print Assumptions C36_keeps_everybody_refuted.

(** C36, what holds.  Finite fitness vectors, different objects.  The members of a rank get the
    crowding distance of the specification; exactly the ranks in which no objective varies are
    missing from the result; the result comes in blocks of equal rank.
    Missing for the full claim: degenerate ranks are not kept. *)
Theorem C36_crowding_partial :
  forall mx rank pop d, pop <> [] -> NoDup (map o_id pop) -> finite_vectors mx pop ->
  exists out d', crowding_distance_calc mx rank pop d = Ok (out, d') /\
    (forall x, In x pop -> crowding fval (length mx) (same_rank rank pop (rank (o_id x))) (fun y => d' (o_id y))) /\
    (exists dropped, Permutation pop (out ++ dropped) /\
       (forall x, In x out -> ~ degenerate (length mx) (same_rank rank pop (rank (o_id x)))) /\
       (forall x, In x dropped -> degenerate (length mx) (same_rank rank pop (rank (o_id x))))) /\
    (exists blocks : list (nat * list mo), out = concat (map snd blocks) /\ NoDup (map fst blocks) /\
       forall r b x, In (r, b) blocks -> In x b -> rank (o_id x) = r).
Proof. exact crowding_calc_ok. Qed.
Print Assumptions C36_crowding_partial.

(** C36: hence distances are never negative, and in each rank, for each objective that varies there,
    somebody with the smallest and somebody with the largest value gets an infinite distance. *)
Theorem C36_distances :
  forall mx rank pop d out d', pop <> [] -> NoDup (map o_id pop) -> finite_vectors mx pop ->
  crowding_distance_calc mx rank pop d = Ok (out, d') ->
  (forall x, In x pop -> d' (o_id x) = Some PInf \/ exists q, d' (o_id x) = Some (Fin q) /\ (0 <= q)%Q) /\
  (forall r k, k < length mx -> varies fval k (same_rank rank pop r) ->
     exists lo hi, In lo (same_rank rank pop r) /\ In hi (same_rank rank pop r) /\
       d' (o_id lo) = Some PInf /\ d' (o_id hi) = Some PInf /\
       forall z, In z (same_rank rank pop r) -> (fval k lo <= fval k z <= fval k hi)%Q).
Proof. exact crowding_distances. Qed.
Print Assumptions C36_distances.

(** two ranks, the second objective minimised; the third objective is constant *)
Definition C36_pop : list mo :=
  [mk_mo 0 [NInt 1; NInt 1; NInt 0]; mk_mo 1 [NInt 4; NInt 4; NInt 0]; mk_mo 2 [NInt 3; NInt 2; NInt 0];
   mk_mo 3 [NInt 0; NInt 6; NInt 0]; mk_mo 4 [NInt 1; NInt 9; NInt 0]].
Example C36_example :
  match crowding_distance_calc [true; false; true] (fun i => if i <? 3 then 1 else 2) C36_pop (fun _ => None) with
  | Ok (out, d) => map o_id out = [1; 2; 0; 4; 3] /\
      map (fun x => d (o_id x)) C36_pop = [Some PInf; Some PInf; Some (Fin (18 # 9)); Some PInf; Some PInf]
  | Err _ => False
  end.
Proof. vm_compute. auto. Qed.

(** C36: with infinite values among the objectives (no NaN).  Each objective in turn: one with the same finite value
    everywhere changes nothing; at an end of the others the distance becomes infinite; next to an infinite value it
    becomes NaN; where only others are infinite, 0 is added; if all are finite, the relative gap. *)
Theorem C36_infinite_objectives :
  forall mx rank pop d, pop <> [] -> NoDup (map o_id pop) -> numeric_vectors mx pop ->
  exists out d', crowding_distance_calc mx rank pop d = Ok (out, d') /\
    forall x, In x pop -> distances evalue (length mx) (same_rank rank pop (rank (o_id x))) (fun y => d' (o_id y)).
Proof. exact crowding_calc_ext. Qed.
Print Assumptions C36_infinite_objectives.

(** so, with infinite values, the only member with the lowest value of an objective may get NaN for its distance,
    not infinity *)
Theorem C36_extreme_infinite_refuted :
  exists mx rank pop d out d' x, NoDup (map o_id pop) /\ numeric_vectors mx pop /\
    (forall y, In y pop -> rank (o_id y) = rank (o_id x)) /\ In x pop /\
    (forall y, In y pop -> y = x \/ ext_lt (evalue 0 x) (evalue 0 y)) /\
    crowding_distance_calc mx rank pop d = Ok (out, d') /\ d' (o_id x) = None.
Proof. exact extreme_is_lost. Qed.
Print Assumptions C36_extreme_infinite_refuted.
Example C36_infinite_example : numeric_vectors [true; true] inf_pop /\ NoDup (map o_id inf_pop) /\
  match crowding_distance_calc [true; true] (fun _ => 1) inf_pop (fun _ => None) with
  | Ok (_, d) => map (fun x => d (o_id x)) inf_pop = [Some PInf; None; Some (Fin (2 # 3)); Some PInf]
  | Err _ => False
  end.
Proof.
  split; [exact inf_pop_numeric|]. split; [repeat constructor; cbn; intuition congruence|]. vm_compute. reflexivity.
Qed.

(** C37 as stated fails for the same reason: the population shrinks (to nothing) ... *)
Theorem C37_keeps_size_refuted :
  exists mx parents offspring a a', finite_pool mx (offspring ++ parents) /\ length parents = 1 /\
    nsga2_survival mx parents offspring a = Ok ([], a').
Proof. exact population_vanishes. Qed.
Print Assumptions C37_keeps_size_refuted.

(** ... and an individual dominating all others is dropped while dominated ones are kept. *)
Theorem C37_keeps_best_front_refuted :
  exists mx parents offspring a next a' best x, finite_pool mx (offspring ++ parents) /\
    nsga2_survival mx parents offspring a = Ok (next, a') /\ length next = length parents /\
    In best parents /\ (forall y, In y (offspring ++ parents) -> y = best \/ dominates mx (o_fit best) (o_fit y)) /\
    ~ In best next /\ In x next /\ dominates mx (o_fit best) (o_fit x).
Proof. exact best_is_lost. Qed.
Print Assumptions C37_keeps_best_front_refuted.

(** C37, every generation: the survivors are the best by (rank, distance) among those in ranks that
    vary in some objective. *)
Theorem C37_survival_partial :
  forall mx parents offspring a,
  mx <> [] -> offspring ++ parents <> [] -> finite_pool mx (offspring ++ parents) ->
  let pool := offspring ++ parents in
  exists next a' crowded dropped,
    nsga2_survival mx parents offspring a = Ok (next, a') /\
    let rank := fun x => at_rank a' (o_id x) in
    let dist := fun x => at_dist a' (o_id x) in
    front_numbers (fun y x => dominates mx (o_fit y) (o_fit x)) pool rank /\
    (forall x, In x pool -> crowding fval (length mx) (same_rank (at_rank a') pool (rank x)) dist) /\
    Permutation pool (crowded ++ dropped) /\
    (forall x, In x crowded -> ~ degenerate (length mx) (same_rank (at_rank a') pool (rank x))) /\
    (forall x, In x dropped -> degenerate (length mx) (same_rank (at_rank a') pool (rank x))) /\
    best_selection (fun x y => ~ crowded_better rank dist ext_lt x y) (length parents) crowded next.
Proof. exact survival_ok. Qed.
Print Assumptions C37_survival_partial.

(** C37, the stated property for pools in which every rank varies in some objective. *)
Theorem C37_survival_nondegenerate_partial :
  forall mx parents offspring a,
  mx <> [] -> offspring ++ parents <> [] -> finite_pool mx (offspring ++ parents) ->
  let pool := offspring ++ parents in
  (forall r, front_numbers (fun y x => dominates mx (o_fit y) (o_fit x)) pool r ->
     forall x, In x pool -> exists y z k, In y pool /\ In z pool /\ k < length mx /\
       r y = r x /\ r z = r x /\ ~ (fval k y == fval k z)%Q) ->
  exists next a',
    nsga2_survival mx parents offspring a = Ok (next, a') /\
    let rank := fun x => at_rank a' (o_id x) in
    let dist := fun x => at_dist a' (o_id x) in
    front_numbers (fun y x => dominates mx (o_fit y) (o_fit x)) pool rank /\
    length next = length parents /\
    best_selection (fun x y => ~ crowded_better rank dist ext_lt x y) (length parents) pool next /\
    exists lost, Permutation pool (next ++ lost) /\
      forall x y, In x next -> In y lost ->
        (forall z, In z pool -> ~ dominates mx (o_fit z) (o_fit y)) ->
        (forall z, In z pool -> ~ dominates mx (o_fit z) (o_fit x)).
Proof. exact survival_nondegenerate. Qed.
Print Assumptions C37_survival_nondegenerate_partial.

(** C37: over a whole run the population never grows. *)
Theorem C37_never_grows :
  forall mx pipeline stop left g parents a final a',
  nsga2_loop mx pipeline stop left g parents a = Ok (final, a') -> length final <= length parents.
Proof. exact loop_never_grows. Qed.
Print Assumptions C37_never_grows.

(** ranks {0,1,2}, {3,4}: both vary *)
Example C37_example :
  match nsga2_survival [true; false; true] (firstn 3 C36_pop) (skipn 3 C36_pop)
          (mk_attrs (fun _ => 0) (fun _ => None)) with
  | Ok (next, a) => map o_id next = [1; 0; 2] /\ map (fun x => at_rank a (o_id x)) C36_pop = [1; 1; 1; 2; 2]
  | Err _ => False
  end.
Proof. vm_compute. auto. Qed.

Example C37_example_pool : finite_pool [true; false; true] C36_pop.
Proof. exact example_pool_ok. Qed.
