(** C89: a different mutator for each segment. *)
From Verif Require Import Model.Base Model.Segmented Model.SegMutate Spec.Segmented Spec.SegMutate Proofs.SegMutate.

Theorem C89_each_mutator_its_segment :
  forall G (mss : list (list (smutator G))) (xs : list sind) (st : store G) gss,
  Forall (seg_sane st) xs -> NoDup (all_segments xs) ->
  Forall2 (fun ms p => segment_wise ms (contents st (fst p)) (snd p)) mss (combine xs gss) ->
  length xs = length gss ->
  exists st1 ys, segmented_mutate_all mss st xs = (st1, ys, Ok tt) /\
    map (contents st1) ys = gss /\ Forall (fun y => sg_fitness y = None) ys /\
    Forall (seg_sane st1) ys /\ NoDup (all_segments ys) /\ s_next st <= s_next st1 /\
    (forall b, In b (all_segments ys) -> In b (all_segments xs) \/ s_next st <= b) /\
    forall c, c < s_next st -> ~ In c (all_segments xs) -> s_seg st1 c = s_seg st c.
Proof. exact @all_ok. Qed.
Print Assumptions C89_each_mutator_its_segment.

Theorem C89_wrong_number_of_mutators_changes_nothing :
  forall G (ms : list (smutator G)) (st : store G) x, length (sg_genome x) <> length ms ->
  segmented_mutate ms st x = (st, x, Err NameError).
Proof. exact @mismatch. Qed.
Print Assumptions C89_wrong_number_of_mutators_changes_nothing.

Theorem C89_a_failing_mutator_stops_the_turn :
  forall G ms1 (m : smutator G) ms2 (st : store G) x seg1 a seg2 gs1 w e,
  sg_genome x = seg1 ++ a :: seg2 -> length seg2 = length ms2 ->
  seg_sane st x -> NoDup (sg_genome x) ->
  segment_wise ms1 (map (s_seg st) seg1) gs1 -> m (s_seg st a) = (w, Err e) ->
  exists st1, segmented_mutate (ms1 ++ m :: ms2) st x = (st1, x, Err e) /\
    (forall c, c < s_next st -> ~ In c seg1 -> c <> a -> s_seg st1 c = s_seg st c) /\
    map (s_seg st1) seg1 = left_behind ms1 (map (s_seg st) seg1) /\ s_seg st1 a = w.
Proof. exact @turn_fails. Qed.
Print Assumptions C89_a_failing_mutator_stops_the_turn.

(** two individuals, one mutator that writes in place and one that returns a new array *)
Example C89_example :
  let xs := [mk_sind [0; 2] (Some (NInt 7)); mk_sind [3; 1] (Some (NInt 9))] in
  Forall (seg_sane seg_start) xs /\ NoDup (all_segments xs) /\
  Forall2 (fun ms p => segment_wise ms (contents seg_start (fst p)) (snd p))
    [[flip_first; shifted]; [shifted; shifted]]
    (combine xs [[[1; 20]; [8; 23]]; [[9; 24]; [7; 22]]]) /\
  (let '(st, ys, r) := segmented_mutate_all [[flip_first; shifted]; [shifted; shifted]] seg_start xs in
   r = Ok tt /\ map (contents st) ys = [[[1; 20]; [8; 23]]; [[9; 24]; [7; 22]]] /\ s_seg st 2 = [7; 22]).
Proof.
  cbv zeta. split; [repeat constructor|]. split; [repeat constructor; cbn; intuition discriminate|].
  split; [|vm_compute; auto].
  repeat constructor; unfold turns_into, flip_first, shifted; eexists _, _; split; reflexivity.
Qed.

(** The assertion on the number of mutators never shows as an AssertionError. *)
Theorem C89_mismatch_is_an_assertion_error_refuted :
  exists (ms : list (smutator nat)) st x, length (sg_genome x) <> length ms /\
  snd (segmented_mutate ms st x) <> Err AssertionError.
Proof.
  exists [flip_first], seg_start, (mk_sind [0; 1] None). split; [discriminate|]. vm_compute. discriminate.
Qed.
Print Assumptions C89_mismatch_is_an_assertion_error_refuted.

(** When a later mutator fails, earlier segments have been changed in place and the individual still carries
    the fitness of its former genome. *)
Theorem C89_failure_leaves_no_stale_fitness_refuted :
  exists (ms : list (smutator nat)) st x st1 y e, seg_sane st x /\ NoDup (sg_genome x) /\
  segmented_mutate ms st x = (st1, y, Err e) /\
  contents st1 y <> contents st x /\ sg_fitness y = sg_fitness x /\ sg_fitness y <> None.
Proof.
  exists [flip_first; breaks], seg_start, (mk_sind [0; 1] (Some (NInt 7))). eexists _, _, _.
  split; [repeat constructor|]. split; [repeat constructor; cbn; intuition discriminate|].
  split; [reflexivity|]. vm_compute. repeat split; discriminate.
Qed.
Print Assumptions C89_failure_leaves_no_stale_fitness_refuted.
