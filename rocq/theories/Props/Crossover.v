(** C19, C20, C21: crossover. *)
From Verif Require Import Model.Base Model.Variation Model.Heap Model.Crossover
  Spec.Variation Spec.Crossover Proofs.Variation Proofs.Heap Proofs.Crossover Proofs.XoverPair.
From Coq Require Import Permutation Lqa.

(** C19. *)
Theorem C19_uniform_crossover :
  forall G (mask : list bool) (a b : list G),
  length a = length mask -> length b = length mask ->
  exists a' b', uniform_recombine mask a b = Ok (a', b') /\
    exchanged (fun i => nth i mask false) a b a' b' /\
    Permutation (a' ++ b') (a ++ b) /\ uniform_recombine mask a' b' = Ok (a, b).
Proof. exact @uniform_full. Qed.
Print Assumptions C19_uniform_crossover.

Theorem C19_unequal_lengths_raise :
  forall G (mask : list bool) (a b : list G),
  length mask = Nat.min (length a) (length b) -> length a <> length b ->
  uniform_recombine mask a b = Err IndexError.
Proof. exact @uniform_mismatch. Qed.
Print Assumptions C19_unequal_lengths_raise.

Example C19_example :
  uniform_recombine [true; false; true; false] [1; 2; 3; 4] [5; 6; 7; 8] = Ok ([5; 2; 7; 4], [1; 6; 3; 8]) /\
  uniform_recombine [true; false] [1; 2; 3] [5; 6] = Err IndexError.
Proof. split; reflexivity. Qed.

(** C20. *)
Theorem C20_nary_crossover :
  forall G n draws (a b : list G),
  length a = length b -> length draws = n -> n <= length a -> Forall (fun p => p < length a) draws ->
  exists a' b', nary_recombine n draws a b = Ok (a', b') /\
    exchanged (fun i => Nat.odd (cuts_upto draws i)) a b a' b' /\
    Permutation (a' ++ b') (a ++ b) /\
    source_changes (fun i => Nat.odd (cuts_upto draws i)) (length a) <= n.
Proof. exact @nary_full. Qed.
Print Assumptions C20_nary_crossover.

Theorem C20_short_genomes_rejected :
  forall G n draws (a b : list G), length a < n \/ length b < n ->
  nary_recombine n draws a b = Err RuntimeError.
Proof. exact @nary_short. Qed.
Print Assumptions C20_short_genomes_rejected.

Example C20_example :
  nary_recombine 3 [4; 1; 2] [1; 2; 3; 4; 5] [11; 12; 13; 14; 15] = Ok ([1; 12; 3; 4; 15], [11; 2; 13; 14; 5]) /\
  nary_recombine 3 [0] [1; 2] [11; 12; 13] = Err RuntimeError.
Proof. split; reflexivity. Qed.

(** For genomes of different lengths (allowed by the code) genes are lost. *)
Theorem C20_unequal_lengths_lose_genes_refuted :
  exists (a b a' b' : list nat), nary_recombine 1 [1] a b = Ok (a', b') /\
    length (a' ++ b') < length (a ++ b).
Proof. exists [1; 2], [11; 12; 13; 14], [1; 12], [11; 2]. split; [vm_compute; reflexivity|]. repeat constructor. Qed.
Print Assumptions C20_unequal_lengths_lose_genes_refuted.

(** C21. *)
Theorem C21_performed_crossover :
  forall G P F (f : list G -> list G -> result (list G * list G)) fresh (w : world G P F) i j w' u,
  i <> j -> xover_pair false f fresh w i j = (Ok u, w') ->
  i_fitness (w_ind w' i) = None /\ i_fitness (w_ind w' j) = None /\
  (forall k p, k = i \/ k = j ->
     (In p (i_parents (w_ind w' k)) <-> In p (i_parents (w_ind w i)) \/ In p (i_parents (w_ind w j)))) /\
  (fresh = true \/ i_genome (w_ind w i) <> i_genome (w_ind w j) ->
     f (genes w i) (genes w j) = Ok (genes w' i, genes w' j)) /\
  (forall k, k <> i -> k <> j -> w_ind w' k = w_ind w k).
Proof. exact pair_performed. Qed.
Print Assumptions C21_performed_crossover.

Theorem C21_skipped_crossover :
  forall G P F (f : list G -> list G -> result (list G * list G)) fresh (w : world G P F) i j p_xover u,
  (u <= 1)%Q ->
  (xover_pair (xover_skipped p_xover u) f fresh w i j = (Ok tt, w) \/
   xover_pair (xover_skipped p_xover u) f fresh w i j = recombine_ind f fresh w i j) /\
  ((u > p_xover)%Q -> xover_pair (xover_skipped p_xover u) f fresh w i j = (Ok tt, w)) /\
  ((1 <= p_xover)%Q -> xover_pair (xover_skipped p_xover u) f fresh w i j = recombine_ind f fresh w i j).
Proof. exact pair_skipped. Qed.
Print Assumptions C21_skipped_crossover.

Theorem C21_children_handed_out_once :
  forall breed es, latest_only 0 es ->
  let s := x_run true breed es in
  handed_out (x_out s) ++ map Some (waiting (x_second s)) = map Some (x_made s) /\
  ~ In None (handed_out (x_out s)).
Proof. intros. split; [exact (run_handed breed es H)|exact (run_no_none breed es H)]. Qed.
Print Assumptions C21_children_handed_out_once.

(** one generator, with or without persistence: the children of consecutive pairs in order *)
Theorem C21_single_generator :
  forall persist breed n up,
  handed_out (x_out (x_run persist (fun a b => Ok (breed a b)) (New up :: repeat (Next 0) n))) =
  map Some (firstn n (children_of breed up)).
Proof. exact single_run. Qed.
Print Assumptions C21_single_generator.

Definition crossing (a b : nat) : result (nat * nat) := Ok (a + 100, b + 100).

Example C21_example :
  let es := [New [1; 2; 3; 4]; Next 0; Next 0; Next 0; New [5; 6; 7]; Next 1; Next 1; Next 1; Next 1] in
  latest_only 0 es /\
  handed_out (x_out (x_run true crossing es)) = map Some [101; 102; 103; 104; 105; 106] /\
  children_of (fun a b => (a + 100, b + 100)) [1; 2; 3; 4; 5] = [101; 102; 103; 104].
Proof. vm_compute. repeat split. Qed.

(** without persistence the second child of an interrupted pair is lost *)
Example C21_without_persistence :
  handed_out (x_out (x_run false crossing [New [1; 2; 3; 4]; Next 0; New [5; 6]; Next 1; Next 1])) =
  map Some [101; 105; 106].
Proof. reflexivity. Qed.

Example C21_example_pair :
  let w := mk_world (fun n => mk_indiv (P:=nat) n 0 0 (Some n) None (n + 20) [n; 7] false None None)
                    (fun a => [a; a + 10]) 2 2 30 in
  let '(r, w') := xover_pair false (fun a b => Ok (b, a)) false w 0 1 in
  r = Ok tt /\ genes w' 0 = [1; 11] /\ genes w' 1 = [0; 10] /\ i_fitness (w_ind w' 0) = None /\
  i_parents (w_ind w' 0) = [0; 7; 1].
Proof. vm_compute. repeat split. Qed.

(** Two generators of one operator pulled in turns: a generator hands out None and a child is emitted
    by a generator that did not produce it. *)
Theorem C21_interleaved_generators_refuted :
  exists es, In None (handed_out (x_out (x_run true crossing es))).
Proof.
  exists [New [1; 2; 3; 4]; New [5; 6; 7; 8]; Next 0; Next 1; Next 0]. vm_compute. right. right. left. reflexivity.
Qed.
Print Assumptions C21_interleaved_generators_refuted.
