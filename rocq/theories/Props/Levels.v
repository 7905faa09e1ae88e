(** C116: how many generations an elitist run takes on average to reach a level of fitness. *)
From Verif Require Import Model.Base Model.Scalar Model.Counters Model.Heap Model.Pipeline Model.HeapEa Model.Variation
  Spec.Order Spec.Heap Spec.HeapEa Spec.Variation Spec.Problems Spec.Odds Spec.Chances Spec.Search Spec.Levels Proofs.Levels.
Local Open Scope nat_scope.
Local Open Scope list_scope.

Theorem C116_levels :
  forall G P X (decoder_of : nat -> option (list G -> result P)) (problem_of : nat -> phen_value G P -> result num)
    (D : list G -> Prop) problem decoder robust (mutator : X -> list G -> result (list G * option (list G))) x0
    maximize coin k_elites size pop_size pick alphabet (level : list G -> nat) m (s : nat -> nat),
  NoDup alphabet -> In x0 alphabet ->
  (forall x g, In x alphabet -> D g -> exists r, mutator x g = Ok r /\ D (outcome_of r)) ->
  (forall g, D g -> level g < m -> 1 <= s (level g) /\
     exists c, counts (fun x => exists r, mutator x g = Ok r /\ level g < level (outcome_of r)) alphabet c /\ s (level g) <= c) ->
  robust = true \/ (forall g, D g -> exists f, score (decoder_of decoder) (problem_of problem) g = Ok f) ->
  (forall g g', D g -> D g' -> level g < level g' ->
     better maximize (outcome NNan (score (decoder_of decoder) (problem_of problem) g'))
       (outcome NNan (score (decoder_of decoder) (problem_of problem) g))) ->
  (forall g g' m, D g -> D g' ->
     let f := outcome NNan (score (decoder_of decoder) (problem_of problem) g) in
     let f' := outcome NNan (score (decoder_of decoder) (problem_of problem) g') in
     blurred f f' -> ~ better m f f') ->
  (forall i w l k, l <> [] -> pick i w l k < length l) ->
  (forall i w l p q, length l = pop_size \/ length l = size ->
     nth_error l (pick i w l 0) = Some p -> In q l -> level (genes w q) <= level (genes w p)) ->
  1 <= k_elites -> 1 <= size -> 1 <= pop_size ->
  forall initialize start (w : world G P num) T l i0,
  (forall k, D (initialize k)) -> (forall k, i0 <= level (initialize k)) -> all_tables alphabet size T l ->
  mean_at_most (waiting_time (fun T t => reaches level m
      (heap_ea decoder_of problem_of maximize coin (start + Z.of_nat T) k_elites size
         (fun i => search_pipeline mutator x0 (nth i t [])) pick (fun _ _ _ => false)
         initialize problem decoder robust pop_size start w))) l (level_sum (length alphabet) s i0 m).
Proof. exact fitness_levels. Qed.
Print Assumptions C116_levels.

Theorem C116_max_ones :
  forall coin k_elites pick n N c expected probability p alphabet x0,
  rate_is expected probability n p -> (0 <= p)%Q -> (p <= 1)%Q ->
  counts (fun k => inject_Z (Z.of_nat k) / inject_Z (Z.of_nat N) < p)%Q (seq 0 N) c -> 1 <= c -> c < N ->
  all_draws N n alphabet -> In x0 alphabet ->
  (forall i w l k, l <> [] -> pick i w l k < length l) -> 1 <= k_elites ->
  forall initialize start (w : world Z unit num) T l i0,
  (forall k, bit_string n (initialize k)) -> (forall k, i0 <= ones (initialize k)) -> all_tables alphabet 1 T l ->
  mean_at_most (waiting_time (fun T t => reaches ones n
      (heap_ea no_decoder max_ones_problem true coin (start + Z.of_nat T) k_elites 1
         (fun i => search_pipeline (grid_flip expected probability N) x0 (nth i t [])) pick (fun _ _ _ => false)
         initialize 0 0 false 1 start w))) l
    (inject_Z (Z.of_nat (N ^ n)) / inject_Z (Z.of_nat (c * (N - c) ^ (n - 1))) * harmonic (n - i0)).
Proof. exact max_ones_time. Qed.
Print Assumptions C116_max_ones.

Theorem C116_leading_ones :
  forall coin k_elites pick n N c expected probability p alphabet x0,
  1 <= n -> rate_is expected probability n p -> (0 <= p)%Q -> (p <= 1)%Q ->
  counts (fun k => inject_Z (Z.of_nat k) / inject_Z (Z.of_nat N) < p)%Q (seq 0 N) c -> 1 <= c -> c < N ->
  all_draws N n alphabet -> In x0 alphabet ->
  (forall i w l k, l <> [] -> pick i w l k < length l) -> 1 <= k_elites ->
  forall initialize start (w : world Z unit num) T l i0,
  (forall k, bit_string n (initialize k)) -> (forall k, i0 <= leads (initialize k)) -> all_tables alphabet 1 T l ->
  mean_at_most (waiting_time (fun T t => reaches leads n
      (heap_ea no_decoder leading_ones_problem true coin (start + Z.of_nat T) k_elites 1
         (fun i => search_pipeline (grid_flip expected probability N) x0 (nth i t [])) pick (fun _ _ _ => false)
         initialize 0 0 false 1 start w))) l
    (level_sum (N ^ n) (fun i => c * (N - c) ^ i * N ^ (n - 1 - i)) i0 n).
Proof. exact leading_ones_time. Qed.
Print Assumptions C116_leading_ones.

(** Without elites there is no such time: a run that has reached its aim can lose it again. *)
Theorem C116_without_elites_refuted :
  exists l, all_tables ex_coins 1 3 l /\
    forall q, ~ mean_at_most (waiting_time (fun _ t => reaches ones 2 (ex_search 0 [0; 0]%Z t))) l q.
Proof. exact no_elites_no_time. Qed.
Print Assumptions C116_without_elites_refuted.

(** Example: the conditions of C116_max_ones hold for two bits and rate 1/2. *)
Example C116_conditions : rate_is None (Some (1 # 2)%Q) 2 (1 # 2) /\ all_draws 2 2 ex_coins /\ In [0; 0] ex_coins /\ bit_string 2 [0; 0]%Z /\
  counts (fun k => inject_Z (Z.of_nat k) / inject_Z (Z.of_nat 2) < 1 # 2)%Q (seq 0 2) 1.
Proof. exact level_conditions. Qed.

(** Example: from 00 the bound is 6 generations.  The one run of no, 3 of 4 runs of one, and 9 of 16 runs of two
    generations have not reached 11: up to the second generation runs wait 1 + 3/4 generations on average. *)
Example C116_example :
  (inject_Z (Z.of_nat (2 ^ 2)) / inject_Z (Z.of_nat (1 * (2 - 1) ^ (2 - 1))) * harmonic (2 - 0) == 6)%Q /\
  (level_sum (2 ^ 2) (fun i => 1 * (2 - 1) ^ i * 2 ^ (2 - 1 - i))%nat 0 2 == 6)%Q /\
  map (fun ts => length (filter (fun t => match ex_last (ex_search 1 [0; 0]%Z t) with [Some (NInt 2)] => false | _ => true end) ts))
    [[[]]; ex_tables1; ex_tables2] = [1; 3; 9].
Proof. split; [vm_compute; reflexivity|]. split; vm_compute; reflexivity. Qed.
