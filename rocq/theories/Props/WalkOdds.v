(** C113: how likely a random search is to miss the solutions. *)
From Verif Require Import Model.Base Model.Algorithm Model.Variation Spec.Variation Spec.Odds Spec.Chances Spec.Search Spec.HeapEa Spec.WalkOdds
  Proofs.WalkOdds.
Local Open Scope nat_scope.
Local Open Scope list_scope.

(** If from everywhere between [s1] and [s2] of the mutator's outcomes are solutions, then of all the ways in which a
    search of T steps can turn out, at least (A - s2)^T and at most (A - s1)^T visit none. *)
Theorem C113_bounds :
  forall G X (D : list G -> Prop) (mutator : X -> list G -> result (list G * option (list G))) x0 (solution : list G -> bool) alphabet s1 s2,
  NoDup alphabet ->
  (forall x g, In x alphabet -> D g -> exists r, mutator x g = Ok r /\ D (outcome_of r)) ->
  (forall g, D g -> solution g = false ->
     exists c, counts (fun x => exists r, mutator x g = Ok r /\ solution (outcome_of r) = true) alphabet c /\ s1 <= c <= s2) ->
  forall T l g caller global, D g -> solution g = false -> all_lists alphabet T l ->
  exists c, counts (fun t => ~ visits solution (random_search (1 + Z.of_nat T) (walk_pipeline mutator x0 t) caller global g)) l c /\
    (length alphabet - s2) ^ T <= c <= (length alphabet - s1) ^ T /\ length l = length alphabet ^ T.
Proof. exact @walk_bounds. Qed.
Print Assumptions C113_bounds.

(** In the end a random search visits a solution: all but a B-th of the long searches do, for every B. *)
Theorem C113_visits_in_the_end :
  forall G X (D : list G -> Prop) (mutator : X -> list G -> result (list G * option (list G))) x0 (solution : list G -> bool) alphabet s1 s2,
  NoDup alphabet ->
  (forall x g, In x alphabet -> D g -> exists r, mutator x g = Ok r /\ D (outcome_of r)) ->
  (forall g, D g -> solution g = false ->
     exists c, counts (fun x => exists r, mutator x g = Ok r /\ solution (outcome_of r) = true) alphabet c /\ s1 <= c <= s2) ->
  forall B, 1 <= s1 -> exists T0, forall T l g caller global, T0 <= T -> D g -> solution g = false -> all_lists alphabet T l ->
  exists c, counts (fun t => ~ visits solution (random_search (1 + Z.of_nat T) (walk_pipeline mutator x0 t) caller global g)) l c /\ B * c <= length l.
Proof. exact @walk_eventually. Qed.
Print Assumptions C113_visits_in_the_end.

(** Bit flips at rate one half (c of 2c grid points are below it): whatever the solutions, only their number counts, and the
    odds of visiting none are exactly (1 - K/2^n)^T - those of drawing genomes independently. *)
Theorem C113_half_rate :
  forall n c expected probability p, rate_is expected probability n p -> (0 <= p)%Q -> (p <= 1)%Q ->
  counts (fun k => inject_Z (Z.of_nat k) / inject_Z (Z.of_nat (2 * c)) < p)%Q (seq 0 (2 * c)) c ->
  forall alphabet, all_draws (2 * c) n alphabet ->
  forall hs T l x0 g caller global, In x0 alphabet -> NoDup hs -> Forall (bit_string n) hs -> bit_string n g -> ~ In g hs ->
  all_lists alphabet T l ->
  counts (fun t => ~ visits (one_of hs) (random_search (1 + Z.of_nat T) (walk_pipeline (grid_flip expected probability (2 * c)) x0 t) caller global g))
    l (((2 * c) ^ n - length hs * c ^ n) ^ T) /\ length l = ((2 * c) ^ n) ^ T.
Proof. exact bit_walk. Qed.
Print Assumptions C113_half_rate.

(** two bits, one solution, two steps: nine of sixteen searches from 00 miss 11; seven find it *)
Example C113_example :
  let l := flat_map (fun d => map (fun e => [d; e]) ex_coins) ex_coins in
  let miss t := match random_search 3 (walk_pipeline (grid_flip None (Some (1 # 2)%Q) 2) [0; 0] t) None None [0; 0]%Z with
                | Some (Ok traj, _) => negb (existsb (one_of [[1; 1]%Z]) traj)
                | _ => false
                end in
  length l = 16 /\ length (filter miss l) = 9 /\ ((2 * 1) ^ 2 - length [[1; 1]%Z] * 1 ^ 2) ^ 2 = 9.
Proof. vm_compute. repeat split. Qed.
(** the hypotheses: one of two grid points is below 1/2 *)
Example C113_hypotheses : counts (fun k => inject_Z (Z.of_nat k) / inject_Z (Z.of_nat (2 * 1)) < 1 # 2)%Q (seq 0 (2 * 1)) 1 /\
  rate_is None (Some (1 # 2)%Q) 2 (1 # 2)%Q /\ all_draws (2 * 1) 2 ex_coins /\ bit_string 2 [0; 0]%Z /\ ~ In [0; 0]%Z [[1; 1]%Z].
Proof. exact walk_hypotheses. Qed.
