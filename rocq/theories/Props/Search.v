(** C100: how likely an elitist run is to miss a solution, and that it finds one in the end. *)
From Verif Require Import Model.Base Model.Scalar Model.Counters Model.Heap Model.Pipeline Model.HeapEa Model.Variation
  Spec.Order Spec.Heap Spec.HeapEa Spec.HeapRuns Spec.Variation Spec.Odds Spec.Chances Spec.Search Proofs.Search.
Local Open Scope nat_scope.
Local Open Scope list_scope.

Theorem C100_search :
  forall G P X (decoder_of : nat -> option (list G -> result P)) (problem_of : nat -> phen_value G P -> result num)
    (D : list G -> Prop) problem decoder robust (mutator : X -> list G -> result (list G * option (list G))) x0
    maximize coin k_elites size pick h alphabet s,
  NoDup alphabet -> In x0 alphabet ->
  (forall x g, In x alphabet -> D g -> exists r, mutator x g = Ok r /\ D (outcome_of r)) ->
  (forall g, D g -> exists c, counts (fun x => exists r, mutator x g = Ok r /\ outcome_of r = h) alphabet c /\ s <= c) ->
  robust = true \/ (forall g, D g -> exists f, score (decoder_of decoder) (problem_of problem) g = Ok f) ->
  (forall g g' m, D g -> D g' ->
     let f := outcome NNan (score (decoder_of decoder) (problem_of problem) g) in
     let f' := outcome NNan (score (decoder_of decoder) (problem_of problem) g') in
     blurred f f' -> ~ better m f f') ->
  (forall i w l k, l <> [] -> pick i w l k < length l) -> 1 <= k_elites -> 1 <= size ->
  forall initialize pop_size start (w : world G P num) T l,
  (forall k, D (initialize k)) -> 1 <= pop_size -> all_tables alphabet size T l ->
  exists c, counts (fun t => ~ found (decoder_of decoder) (problem_of problem) maximize h
      (heap_ea decoder_of problem_of maximize coin (start + Z.of_nat T) k_elites size
         (fun i => search_pipeline mutator x0 (nth i t [])) pick (fun _ _ _ => false)
         initialize problem decoder robust pop_size start w)) l c /\
    c <= (length alphabet - s) ^ (size * T) /\ length l = length alphabet ^ (size * T).
Proof. exact @search. Qed.
Print Assumptions C100_search.

Theorem C100_search_succeeds_in_the_end :
  forall G P X (decoder_of : nat -> option (list G -> result P)) (problem_of : nat -> phen_value G P -> result num)
    (D : list G -> Prop) problem decoder robust (mutator : X -> list G -> result (list G * option (list G))) x0
    maximize coin k_elites size pick h alphabet s,
  1 <= s -> NoDup alphabet -> In x0 alphabet ->
  (forall x g, In x alphabet -> D g -> exists r, mutator x g = Ok r /\ D (outcome_of r)) ->
  (forall g, D g -> exists c, counts (fun x => exists r, mutator x g = Ok r /\ outcome_of r = h) alphabet c /\ s <= c) ->
  robust = true \/ (forall g, D g -> exists f, score (decoder_of decoder) (problem_of problem) g = Ok f) ->
  (forall g g' m, D g -> D g' ->
     let f := outcome NNan (score (decoder_of decoder) (problem_of problem) g) in
     let f' := outcome NNan (score (decoder_of decoder) (problem_of problem) g') in
     blurred f f' -> ~ better m f f') ->
  (forall i w l k, l <> [] -> pick i w l k < length l) -> 1 <= k_elites -> 1 <= size ->
  forall B, exists T0, forall initialize pop_size start (w : world G P num) T l,
  T0 <= T -> (forall k, D (initialize k)) -> 1 <= pop_size -> all_tables alphabet size T l ->
  exists c, counts (fun t => ~ found (decoder_of decoder) (problem_of problem) maximize h
      (heap_ea decoder_of problem_of maximize coin (start + Z.of_nat T) k_elites size
         (fun i => search_pipeline mutator x0 (nth i t [])) pick (fun _ _ _ => false)
         initialize problem decoder robust pop_size start w)) l c /\
    B * c <= length l.
Proof. exact @search_eventually. Qed.
Print Assumptions C100_search_succeeds_in_the_end.

Theorem C100_bit_flips :
  forall P (decoder_of : nat -> option (list Z -> result P)) (problem_of : nat -> phen_value Z P -> result num)
    problem decoder robust maximize coin k_elites size pick n N below m expected probability p alphabet x0 h,
  rate_is expected probability n p -> (0 <= p)%Q -> (p <= 1)%Q ->
  counts (fun k => inject_Z (Z.of_nat k) / inject_Z (Z.of_nat N) < p)%Q (seq 0 N) below -> m <= below -> m <= N - below ->
  all_draws N n alphabet -> In x0 alphabet -> bit_string n h ->
  robust = true \/ (forall g, bit_string n g -> exists f, score (decoder_of decoder) (problem_of problem) g = Ok f) ->
  (forall g g' m, bit_string n g -> bit_string n g' ->
     let f := outcome NNan (score (decoder_of decoder) (problem_of problem) g) in
     let f' := outcome NNan (score (decoder_of decoder) (problem_of problem) g') in
     blurred f f' -> ~ better m f f') ->
  (forall i w l k, l <> [] -> pick i w l k < length l) -> 1 <= k_elites -> 1 <= size ->
  forall initialize pop_size start (w : world Z P num) T l,
  (forall k, bit_string n (initialize k)) -> 1 <= pop_size -> all_tables alphabet size T l ->
  exists c, counts (fun t => ~ found (decoder_of decoder) (problem_of problem) maximize h
      (heap_ea decoder_of problem_of maximize coin (start + Z.of_nat T) k_elites size
         (fun i => search_pipeline (grid_flip expected probability N) x0 (nth i t [])) pick (fun _ _ _ => false)
         initialize problem decoder robust pop_size start w)) l c /\
    c <= (N ^ n - m ^ n) ^ (size * T) /\ length l = (N ^ n) ^ (size * T).
Proof. exact @bit_search. Qed.
Print Assumptions C100_bit_flips.

Theorem C100_bit_flips_succeed_in_the_end :
  forall P (decoder_of : nat -> option (list Z -> result P)) (problem_of : nat -> phen_value Z P -> result num)
    problem decoder robust maximize coin k_elites size pick n N below m expected probability p alphabet x0 h,
  1 <= m -> rate_is expected probability n p -> (0 <= p)%Q -> (p <= 1)%Q ->
  counts (fun k => inject_Z (Z.of_nat k) / inject_Z (Z.of_nat N) < p)%Q (seq 0 N) below -> m <= below -> m <= N - below ->
  all_draws N n alphabet -> In x0 alphabet -> bit_string n h ->
  robust = true \/ (forall g, bit_string n g -> exists f, score (decoder_of decoder) (problem_of problem) g = Ok f) ->
  (forall g g' m, bit_string n g -> bit_string n g' ->
     let f := outcome NNan (score (decoder_of decoder) (problem_of problem) g) in
     let f' := outcome NNan (score (decoder_of decoder) (problem_of problem) g') in
     blurred f f' -> ~ better m f f') ->
  (forall i w l k, l <> [] -> pick i w l k < length l) -> 1 <= k_elites -> 1 <= size ->
  forall B, exists T0, forall initialize pop_size start (w : world Z P num) T l,
  T0 <= T -> (forall k, bit_string n (initialize k)) -> 1 <= pop_size -> all_tables alphabet size T l ->
  exists c, counts (fun t => ~ found (decoder_of decoder) (problem_of problem) maximize h
      (heap_ea decoder_of problem_of maximize coin (start + Z.of_nat T) k_elites size
         (fun i => search_pipeline (grid_flip expected probability N) x0 (nth i t [])) pick (fun _ _ _ => false)
         initialize problem decoder robust pop_size start w)) l c /\
    B * c <= length l.
Proof. exact @bit_search_eventually. Qed.
Print Assumptions C100_bit_flips_succeed_in_the_end.

Theorem C100_integers :
  forall P (decoder_of : nat -> option (list Z -> result P)) (problem_of : nat -> phen_value Z P -> result num)
    problem decoder robust maximize coin k_elites size pick bs N below M L expected probability p coins numbers x0 h,
  rate_is expected probability (length bs) p -> (0 <= p)%Q -> (p <= 1)%Q ->
  counts (fun k => inject_Z (Z.of_nat k) / inject_Z (Z.of_nat N) < p)%Q (seq 0 N) below ->
  Forall (fun b => fst b <= snd b /\ Z.of_nat M * (snd b + 1 - fst b) <= Z.of_nat L)%Z bs ->
  all_draws N (length bs) coins -> all_draws L (length bs) numbers -> In x0 (list_prod coins numbers) -> int_box bs h ->
  robust = true \/ (forall g, int_box bs g -> exists f, score (decoder_of decoder) (problem_of problem) g = Ok f) ->
  (forall g g' m, int_box bs g -> int_box bs g' ->
     let f := outcome NNan (score (decoder_of decoder) (problem_of problem) g) in
     let f' := outcome NNan (score (decoder_of decoder) (problem_of problem) g') in
     blurred f f' -> ~ better m f f') ->
  (forall i w l k, l <> [] -> pick i w l k < length l) -> 1 <= k_elites -> 1 <= size ->
  forall initialize pop_size start (w : world Z P num) T l,
  (forall k, int_box bs (initialize k)) -> 1 <= pop_size -> all_tables (list_prod coins numbers) size T l ->
  exists c, counts (fun t => ~ found (decoder_of decoder) (problem_of problem) maximize h
      (heap_ea decoder_of problem_of maximize coin (start + Z.of_nat T) k_elites size
         (fun i => search_pipeline (grid_randint bs expected probability N) x0 (nth i t [])) pick (fun _ _ _ => false)
         initialize problem decoder robust pop_size start w)) l c /\
    c <= ((N * L) ^ length bs - (below * M) ^ length bs) ^ (size * T) /\ length l = ((N * L) ^ length bs) ^ (size * T).
Proof. exact @int_search. Qed.
Print Assumptions C100_integers.

Theorem C100_integers_succeed_in_the_end :
  forall P (decoder_of : nat -> option (list Z -> result P)) (problem_of : nat -> phen_value Z P -> result num)
    problem decoder robust maximize coin k_elites size pick bs N below M L expected probability p coins numbers x0 h,
  1 <= below * M -> rate_is expected probability (length bs) p -> (0 <= p)%Q -> (p <= 1)%Q ->
  counts (fun k => inject_Z (Z.of_nat k) / inject_Z (Z.of_nat N) < p)%Q (seq 0 N) below ->
  Forall (fun b => fst b <= snd b /\ Z.of_nat M * (snd b + 1 - fst b) <= Z.of_nat L)%Z bs ->
  all_draws N (length bs) coins -> all_draws L (length bs) numbers -> In x0 (list_prod coins numbers) -> int_box bs h ->
  robust = true \/ (forall g, int_box bs g -> exists f, score (decoder_of decoder) (problem_of problem) g = Ok f) ->
  (forall g g' m, int_box bs g -> int_box bs g' ->
     let f := outcome NNan (score (decoder_of decoder) (problem_of problem) g) in
     let f' := outcome NNan (score (decoder_of decoder) (problem_of problem) g') in
     blurred f f' -> ~ better m f f') ->
  (forall i w l k, l <> [] -> pick i w l k < length l) -> 1 <= k_elites -> 1 <= size ->
  forall B, exists T0, forall initialize pop_size start (w : world Z P num) T l,
  T0 <= T -> (forall k, int_box bs (initialize k)) -> 1 <= pop_size -> all_tables (list_prod coins numbers) size T l ->
  exists c, counts (fun t => ~ found (decoder_of decoder) (problem_of problem) maximize h
      (heap_ea decoder_of problem_of maximize coin (start + Z.of_nat T) k_elites size
         (fun i => search_pipeline (grid_randint bs expected probability N) x0 (nth i t [])) pick (fun _ _ _ => false)
         initialize problem decoder robust pop_size start w)) l c /\
    B * c <= length l.
Proof. exact @int_search_eventually. Qed.
Print Assumptions C100_integers_succeed_in_the_end.

Theorem C100_tables_exist :
  forall X (alphabet : list X) size T, NoDup alphabet -> exists l, all_tables alphabet size T l.
Proof. exact @tables_exist. Qed.
Print Assumptions C100_tables_exist.

(** Without elites the bound fails: a run that starts at 11 misses it, after two generations, in 12 of 16 cases. *)
Theorem C100_without_elites_refuted :
  exists l c, all_tables ex_coins 1 2 l /\
    counts (fun t => ~ found (no_decoder 0) (max_ones_problem 0) true [1; 1]%Z (ex_search 0 [1; 1]%Z t)) l c /\
    (2 ^ 2 - 1 ^ 2) ^ (1 * 2) < c.
Proof. exact no_elites. Qed.
Print Assumptions C100_without_elites_refuted.

(** Example: the conditions of C100_bit_flips hold for two bits and rate 1/2. *)
Example C100_conditions :
  rate_is None (Some (1 # 2)%Q) 2 (1 # 2) /\ all_draws 2 2 ex_coins /\ In [0; 0] ex_coins /\ bit_string 2 [1; 1]%Z /\
  counts (fun k => inject_Z (Z.of_nat k) / inject_Z (Z.of_nat 2) < 1 # 2)%Q (seq 0 2) 1.
Proof. exact coins_fit. Qed.

(** Example: a run from 00.  Of the four equally likely draws one reaches 11 in one generation, and of the sixteen
    pairs of draws nine miss it twice: the bounds (4 - 1)^1 and (4 - 1)^2 are reached. *)
Example C100_example :
  map (fun t => ex_last (ex_search 1 [0; 0]%Z t)) ex_tables1 = [[Some (NInt 2)]; [Some (NInt 1)]; [Some (NInt 1)]; [Some (NInt 0)]] /\
  map (fun t => ex_last (ex_search 1 [0; 0]%Z t)) ex_tables2
  = [[Some (NInt 2)]; [Some (NInt 2)]; [Some (NInt 2)]; [Some (NInt 2)];
     [Some (NInt 1)]; [Some (NInt 1)]; [Some (NInt 2)]; [Some (NInt 1)];
     [Some (NInt 1)]; [Some (NInt 2)]; [Some (NInt 1)]; [Some (NInt 1)];
     [Some (NInt 2)]; [Some (NInt 1)]; [Some (NInt 1)]; [Some (NInt 0)]].
Proof. split; vm_compute; reflexivity. Qed.

(** Example: two integers from 0..2 and 5..6: six numbers are enough for every value of both, each is drawn at
    least twice. *)
Example C100_integers_example :
  Forall (fun b => fst b <= snd b /\ Z.of_nat 2 * (snd b + 1 - fst b) <= Z.of_nat 6)%Z [(0, 2); (5, 6)]%Z /\
  map (fun d => grid_randint [(0, 2); (5, 6)]%Z None (Some (1 # 2)%Q) 2 d [0; 5]%Z)
    [([0; 0], [2; 1]); ([0; 0], [5; 3]); ([0; 1], [2; 1]); ([1; 1], [2; 1])]
  = map Ok [([2; 6]%Z, None); ([2; 6]%Z, None); ([2; 5]%Z, None); ([0; 5]%Z, None)].
Proof. split; [repeat constructor; cbn; discriminate|vm_compute; reflexivity]. Qed.
