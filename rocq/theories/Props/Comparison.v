(** C01-C05: comparison of scalar individuals, best of a population, best-so-far probes. *)
From Coq Require Import Lqa Sorted.
From Verif Require Import Model.Base Model.PyList Model.Scalar Model.Probe Spec.Order
  Proofs.Order Proofs.ScalarSel Proofs.ScalarSel.

(** C01. [a < b] iff b is numerically better, for any two numeric fitnesses. *)
Theorem C01_lt_means_worse :
  forall mx coin a b, viable (si_fit a) -> viable (si_fit b) ->
  (ind_lt mx coin a b = true <-> better mx (si_fit b) (si_fit a)).
Proof. exact (fun mx coin a b H _ => ind_lt_spec mx coin a b (or_introl H)). Qed.
Print Assumptions C01_lt_means_worse.

Theorem C01_strict_weak_order :
  forall mx coin, strict_weak_order_on (fun a => viable (si_fit a)) (ind_lt mx coin).
Proof. exact ind_lt_swo. Qed.
Print Assumptions C01_strict_weak_order.

Example C01_example :
  let a := mk_sind 0 (NInt 3) in let b := mk_sind 1 (NFlt true (Fin (7 # 2))) in
  viable (si_fit a) /\ viable (si_fit b) /\
  ind_lt true (fun _ _ => false) a b = true /\ ind_lt false (fun _ _ => false) b a = true /\
  ind_lt true (fun _ _ => false) (mk_sind 2 (NFlt true MInf)) a = true.
Proof. vm_compute. repeat split; discriminate. Qed.

(** C02. NaN is worse than every number, whatever the direction. *)
Theorem C02_nan_worse_than_numbers :
  forall mx coin a b, ~ viable (si_fit a) -> viable (si_fit b) ->
  ind_lt mx coin a b = true /\ ind_lt mx coin b a = false.
Proof. exact nan_worse. Qed.
Print Assumptions C02_nan_worse_than_numbers.

(** Two NaN fitnesses are ordered by the coin alone, and are not equal to each other. *)
Theorem C02_two_nans_toss_a_coin :
  forall mx coin a b, ~ viable (si_fit a) -> ~ viable (si_fit b) ->
  ind_lt mx coin a b = coin a b /\ ind_eq a b = false.
Proof. exact nan_pair. Qed.
Print Assumptions C02_two_nans_toss_a_coin.

Theorem C02_best_is_numeric :
  forall mx coin pop x, best_of_gen mx coin pop = Ok x ->
  (exists y, In y pop /\ viable (si_fit y)) -> viable (si_fit x).
Proof. exact best_of_gen_viable. Qed.
Print Assumptions C02_best_is_numeric.

Example C02_example :
  let n := mk_sind 0 NNan in let b := mk_sind 1 (NFlt true MInf) in
  ~ viable (si_fit n) /\ viable (si_fit b) /\
  best_of_gen true (fun _ _ => true) [n; b; n] = Ok b.
Proof. vm_compute. repeat split; try discriminate. intros H. apply H. reflexivity. Qed.

(** C03 is false as stated: floats within relative 1e-9 are [==], so [a > b] is False although
    [b < a]. *)
Theorem C03_gt_agrees_with_lt_refuted :
  exists mx coin a b, viable (si_fit a) /\ viable (si_fit b) /\
    ind_gt mx coin a b <> ind_lt mx coin b a.
Proof.
  exists true, (fun _ _ => false),
    (mk_sind 0 (NFlt true (Fin (10000000001 # 10000000000)))), (mk_sind 1 (NFlt true (Fin 1))).
  vm_compute. repeat split; discriminate.
Qed.
Print Assumptions C03_gt_agrees_with_lt_refuted.

(** C03, the part that holds: [a > b] and [b < a] differ only for different built-in floats within
    the tolerance (missing: those floats). *)
Theorem C03_gt_agrees_with_lt_partial :
  forall mx coin coin' a b, viable (si_fit a) \/ viable (si_fit b) ->
  (ind_gt mx coin a b = ind_lt mx coin' b a <->
   ~ (better mx (si_fit a) (si_fit b) /\ blurred (si_fit a) (si_fit b))).
Proof. exact gt_lt_agree. Qed.
Print Assumptions C03_gt_agrees_with_lt_partial.

(** The non-strict operators: [a <= b] fails exactly when a is better beyond the tolerance, while
    [a >= b] fails exactly when b is better at all. *)
Theorem C03_le_and_ge :
  forall mx coin a b, viable (si_fit a) \/ viable (si_fit b) ->
  (ind_le mx coin a b = true <-> ~ clearly_better mx (si_fit a) (si_fit b)) /\
  (ind_ge mx coin a b = true <-> ~ better mx (si_fit b) (si_fit a)).
Proof.
  exact (fun mx coin a b H => conj (ind_le_spec mx coin a b H) (ind_ge_spec mx coin a b H)).
Qed.
Print Assumptions C03_le_and_ge.

Example C03_example :
  let a := mk_sind 0 (NFlt true (Fin (3 # 2))) in let b := mk_sind 1 (NInt 1) in
  ind_gt true (fun _ _ => false) a b = true /\ ind_lt true (fun _ _ => false) b a = true.
Proof. vm_compute. auto. Qed.

(** C04. *)
Theorem C04_max_returns_a_best :
  forall mx coin pop x, best_of_gen mx coin pop = Ok x ->
  In x pop /\ forall y, In y pop ->
    better mx (si_fit y) (si_fit x) -> within_rel tol (si_fit y) (si_fit x).
Proof. exact best_of_gen_spec. Qed.
Print Assumptions C04_max_returns_a_best.

Theorem C04_max_exact_without_near_ties :
  forall mx coin c l, sharp (map si_fit (c :: l)) ->
  exists x, best_of_gen mx coin (c :: l) = Ok x /\
    forall y, In y (c :: l) -> ~ better mx (si_fit y) (si_fit x).
Proof. exact (fun mx coin c l H => ex_intro _ _ (conj eq_refl (pymax_sharp mx coin c l H))). Qed.
Print Assumptions C04_max_exact_without_near_ties.

(** there is a best individual in every population but the empty one, which is an AssertionError *)
Theorem C04_max_total :
  forall mx coin pop, (pop <> [] -> exists x, best_of_gen mx coin pop = Ok x) /\
    (forall e, best_of_gen mx coin pop = Err e -> pop = [] /\ e = AssertionError).
Proof. exact best_of_gen_total'. Qed.
Print Assumptions C04_max_total.

Example C04_example :
  best_of_gen false (fun _ _ => false)
    [mk_sind 0 (NInt 5); mk_sind 1 NNan; mk_sind 2 (NFlt true (Fin (1 # 2))); mk_sind 3 (NInt 2)]
  = Ok (mk_sind 2 (NFlt true (Fin (1 # 2)))).
Proof. vm_compute. reflexivity. Qed.

(** C05.  Populations passing through one BestSoFarProbe object.  Two comparisons separate an
    individual from the record, hence twice the tolerance. *)
Theorem C05_best_so_far_probe :
  forall mx h, Forall (fun i => bi_pop i <> []) h ->
  exists st, bsf_run mx h bsf_init = Ok (map bi_pop h, st) /\
    map fst (bsf_rows st) = map bi_gen h /\
    StronglySorted (fun r1 r2 : Z * num => ~ better mx (snd r1) (snd r2)) (bsf_rows st) /\
    (h <> [] -> exists b, bsf st = Some b /\ last (map snd (bsf_rows st)) NNan = si_fit b /\
       In b (concat (map bi_pop h)) /\
       forall y, In y (concat (map bi_pop h)) ->
         better mx (si_fit y) (si_fit b) -> within_rel (2 * tol) (si_fit y) (si_fit b)).
Proof. exact bsf_probe_ok. Qed.
Print Assumptions C05_best_so_far_probe.

(** C05.  Individuals passing through one BestSoFarIterProbe object. *)
Theorem C05_best_so_far_iter_probe :
  forall mx h,
  exists st, bsf_pulls mx h bsf_init = (map pi_ind h, st) /\
    map fst (bsf_rows st) = map pi_gen h /\
    StronglySorted (fun r1 r2 : Z * num => ~ better mx (snd r1) (snd r2)) (bsf_rows st) /\
    (h <> [] -> exists b, bsf st = Some b /\ last (map snd (bsf_rows st)) NNan = si_fit b /\
       In b (map pi_ind h) /\
       forall y, In y (map pi_ind h) ->
         better mx (si_fit y) (si_fit b) -> within_rel tol (si_fit y) (si_fit b)).
Proof. exact bsf_iter_ok. Qed.
Print Assumptions C05_best_so_far_iter_probe.

Example C05_example :
  let c := fun _ _ => false in
  let i n f := mk_sind n (NInt f) in
  exists st,
  bsf_run false [mk_bin 0 c [i 0 7%Z; i 1 4%Z]; mk_bin 1 c [i 2 5%Z]; mk_bin 2 c [i 3 9%Z; i 4 2%Z]] bsf_init
  = Ok ([[i 0 7%Z; i 1 4%Z]; [i 2 5%Z]; [i 3 9%Z; i 4 2%Z]], st) /\
  bsf st = Some (i 4 2%Z) /\ bsf_rows st = [(0%Z, NInt 4); (1%Z, NInt 4); (2%Z, NInt 2)].
Proof. eexists. vm_compute. auto. Qed.
