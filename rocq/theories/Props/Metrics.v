(** C50, C52, C56: parsimony keys and diversity metrics. *)
From Coq Require Import Lia.
From Verif Require Import Model.Base Model.Selection Model.Metrics Spec.Order Spec.Selection Spec.Problems Spec.Metrics Proofs.Metrics.

(** C50: the larger lexical key belongs to the better fitness, or to the shorter genome at equal fitness. *)
Theorem C50_lexical :
  forall mx f g m n, viable f -> viable g ->
  (pair_ltb (lexical_key mx f m) (lexical_key mx g n) = true <-> better mx g f \/ (same_value mx f g /\ n < m)) /\
  (pair_eqb (lexical_key mx f m) (lexical_key mx g n) = true <-> same_value mx f g /\ m = n).
Proof. exact lexical_spec. Qed.
Print Assumptions C50_lexical.

(** C50: truncation selection with this key keeps the best, and the shortest among equals.  Individuals
    are pairs of fitness and genome length. *)
Theorem C50_lexical_truncation :
  forall mx offspring size parents,
  let pool := offspring ++ match parents with Some ps => ps | None => [] end in
  let key := fun x : num * nat => lexical_key mx (fst x) (snd x) in
  Forall (fun x => viable (fst x)) pool ->
  best_selection (fun x y => ~ better mx (fst x) (fst y) /\ (better mx (fst y) (fst x) \/ snd y <= snd x)) size pool
    (truncation_selection (fun a b => pair_ltb (key a) (key b)) (fun a b => pair_ltb (key b) (key a))
       (fun a b => pair_eqb (key a) (key b)) offspring size parents).
Proof. exact lexical_truncation. Qed.
Print Assumptions C50_lexical_truncation.

(** C50: the larger Koza key belongs to the individual whose fitness advantage exceeds the penalty times
    its extra length. *)
Theorem C50_koza :
  forall mx penalty f g m n p q,
  num_val f = Some (Fin p) -> num_val g = Some (Fin q) ->
  num_ltb (koza_key mx penalty g n) (koza_key mx penalty f m) = true <->
  (penalty * (inject_Z (Z.of_nat m) - inject_Z (Z.of_nat n)) < if mx then p - q else q - p)%Q.
Proof. exact koza_spec. Qed.
Print Assumptions C50_koza.

Example C50_example :
  let pop := [(NInt 3, 6); (NInt 0, 2); (NInt 2, 2); (NInt 3, 3)] in
  let key := fun mx (x : num * nat) => lexical_key mx (fst x) (snd x) in
  let trunc := fun mx k => truncation_selection (fun a b => pair_ltb (key mx a) (key mx b)) (fun a b => pair_ltb (key mx b) (key mx a))
       (fun a b => pair_eqb (key mx a) (key mx b)) pop k None in
  Forall (fun x => viable (fst x)) pop /\
  trunc true 1 = [(NInt 3, 3)] /\ trunc true 3 = [(NInt 3, 3); (NInt 3, 6); (NInt 2, 2)] /\ trunc false 2 = [(NInt 0, 2); (NInt 2, 2)] /\
  num_ltb (koza_key true (1 # 2) (NInt 3) 6) (koza_key true (1 # 2) (NInt 2) 2) = true /\
  num_ltb (koza_key false (1 # 2) (NInt 3) 2) (koza_key false (1 # 2) (NInt 2) 6) = false.
Proof. split; [repeat (constructor; [discriminate|]); constructor|]. vm_compute. auto 10. Qed.

(** C52: the metric computed from the centroid is the sum over all ordered pairs. *)
Theorem C52_pairwise :
  forall n gs, gs <> [] -> rectangular n gs ->
  exists v, pairwise_squared_distance gs = Ok v /\ (v == pairwise_sum gs)%Q.
Proof. exact metric_spec. Qed.
Print Assumptions C52_pairwise.

Theorem C52_zero_iff_equal :
  forall n gs v, gs <> [] -> rectangular n gs -> pairwise_squared_distance gs = Ok v ->
  ((v == 0)%Q <-> forall a b, In a gs -> In b gs -> same_genome a b).
Proof. exact metric_zero. Qed.
Print Assumptions C52_zero_iff_equal.

Theorem C52_sum_of_variances :
  forall n gs, gs <> [] -> rectangular n gs ->
  exists v, sum_of_variances gs = Ok v /\
    (v == pairwise_sum gs / (2 * (inject_Z (Z.of_nat (length gs)) * inject_Z (Z.of_nat (length gs)))))%Q.
Proof. exact variances_spec. Qed.
Print Assumptions C52_sum_of_variances.

Example C52_example :
  let gs := [[0; 1; 2]; [1; 1; 0]; [1 # 2; 1; 4]]%Q in
  rectangular 3 gs /\
  (exists v, pairwise_squared_distance gs = Ok v /\ (v == 51)%Q) /\ (pairwise_sum gs == 51)%Q /\
  (exists v, sum_of_variances gs = Ok v /\ (v == 51 # 18)%Q) /\
  pairwise_squared_distance [] = Err ValueError /\ pairwise_squared_distance [[0]; [0; 1]]%Q = Err ValueError.
Proof.
  split; [repeat constructor|]. split; [eexists; split; [reflexivity|vm_compute; reflexivity]|]. split; [vm_compute; reflexivity|].
  split; [eexists; split; [reflexivity|vm_compute; reflexivity]|]. split; reflexivity.
Qed.

(** C56: for integer genomes num_fixated_metric counts the columns in which all genomes agree. *)
Theorem C56_fixated_columns :
  forall n gs, gs <> [] -> rectangular n gs -> integral gs -> (Z.of_nat (length gs) < 50000000)%Z ->
  exists fixed, NoDup fixed /\ (forall j, In j fixed <-> j < n /\ constant_column gs j) /\ num_fixated gs = Ok (length fixed).
Proof. exact num_fixated_integers. Qed.
Print Assumptions C56_fixated_columns.

(** C56: for any genomes it counts at least those. *)
Theorem C56_fixated_columns_lower :
  forall n gs, gs <> [] -> rectangular n gs ->
  exists counted, NoDup counted /\ num_fixated gs = Ok (length counted) /\ (forall j, In j counted -> j < n) /\
    (forall j, j < n -> constant_column gs j -> In j counted) /\
    (integral gs -> (Z.of_nat (length gs) < 50000000)%Z -> forall j, In j counted -> constant_column gs j).
Proof. exact fixated_lower. Qed.
Print Assumptions C56_fixated_columns_lower.

(** Real-valued columns that vary by less than 1e-4 are counted too. *)
Theorem C56_close_columns_refuted :
  exists gs j, rectangular 1 gs /\ num_fixated gs = Ok 1 /\ j < 1 /\ ~ constant_column gs j.
Proof.
  exists [[0]; [1 # 10000]]%Q, 0. split; [repeat constructor|]. split; [vm_compute; reflexivity|]. split; [lia|].
  intros H. specialize (H [0]%Q [1 # 10000]%Q (or_introl eq_refl) (or_intror (or_introl eq_refl))). discriminate H.
Qed.
Print Assumptions C56_close_columns_refuted.

Example C56_example :
  let gs := [[0; 1; 2]; [0; 1; 0]; [0; 1; 4]]%Q in
  rectangular 3 gs /\ integral gs /\ num_fixated gs = Ok 2.
Proof.
  split; [repeat constructor|]. split; [|vm_compute; reflexivity].
  repeat (constructor; [repeat (constructor; [match goal with |- exists z, (?x == _)%Q => exists (Qnum x) end; reflexivity|]); constructor|]); constructor.
Qed.
