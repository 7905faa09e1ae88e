(** From the mean waiting time to the odds of a late run. *)
From Coq Require Import QArith Lia Lqa.
From Verif Require Import Model.Base Model.Scalar Model.Counters Model.Heap Model.Pipeline Model.HeapEa Model.Variation
  Spec.Order Spec.Heap Spec.HeapEa Spec.Variation Spec.Problems Spec.Odds Spec.Chances Spec.Search Spec.Levels Proofs.Levels.
Local Open Scope nat_scope.
Local Open Scope list_scope.

(** each run that is late by then has waited longer than [T] generations *)
Lemma late_count {X} (r : nat -> list X -> Prop) (b : list X -> bool) T l ns : Forall2 (waiting_time r) l ns ->
  (forall t, b t = true <-> ~ r T (firstn T t)) -> Forall (fun t => length t = S T) l ->
  length (filter b l) * S T <= fold_right Nat.add 0 ns.
Proof.
  intros H B. induction H as [|t n l ns Ht H IH]; intros L; [cbn; lia|]. inversion L as [|? ? Lt L']; subst.
  specialize (IH L'). cbn [filter fold_right]. destruct (b t) eqn:E; [|lia].
  apply B in E. destruct Ht as [_ W]. specialize (W T ltac:(lia)).
  assert (S T <= n). { destruct (le_lt_dec n T) as [K|K]; [|lia]. exfalso. apply E, W, K. }
  cbn [length]. lia.
Qed.

Lemma tail_of_mean {X} (r : nat -> list X -> Prop) (b : list X -> bool) T l q : mean_at_most (waiting_time r) l q ->
  (forall t, b t = true <-> ~ r T (firstn T t)) -> Forall (fun t => length t = S T) l ->
  (inject_Z (Z.of_nat (length (filter b l))) * inject_Z (Z.of_nat (S T)) <= inject_Z (Z.of_nat (length l)) * q)%Q.
Proof.
  intros (ns & H & M) B L. apply Qle_trans with (inject_Z (Z.of_nat (fold_right Nat.add 0%nat ns))); [|exact M].
  rewrite <- inject_Z_mult, <- Nat2Z.inj_mul. rewrite <- Zle_Qle. apply Nat2Z.inj_le. exact (late_count r b T l ns H B L).
Qed.

Lemma late_levels :
  forall G P X (decoder_of : nat -> option (list G -> result P)) (problem_of : nat -> phen_value G P -> result num)
    (D : list G -> Prop) problem decoder robust (mutator : X -> list G -> result (list G * option (list G))) x0
    maximize coin k_elites size pop_size pick alphabet (level : list G -> nat) m (s : nat -> nat),
  NoDup alphabet -> In x0 alphabet ->
  (forall x g, In x alphabet -> D g -> exists r, mutator x g = Ok r /\ D (outcome_of r)) ->
  (forall g, D g -> level g < m -> 1 <= s (level g) /\
     exists c, counts (fun x => exists r, mutator x g = Ok r /\ level g < level (outcome_of r)) alphabet c /\ s (level g) <= c) ->
  robust = true \/ (forall g, D g -> exists f, score (decoder_of decoder) (problem_of problem) g = Ok f) ->
  (forall g g', D g -> D g' -> level g < level g' ->
     better maximize (outcome NNan (score (decoder_of decoder) (problem_of problem) g'))
       (outcome NNan (score (decoder_of decoder) (problem_of problem) g))) ->
  (forall g g' m, D g -> D g' ->
     let f := outcome NNan (score (decoder_of decoder) (problem_of problem) g) in
     let f' := outcome NNan (score (decoder_of decoder) (problem_of problem) g') in
     blurred f f' -> ~ better m f f') ->
  (forall i w l k, l <> [] -> pick i w l k < length l) ->
  (forall i w l p q, length l = pop_size \/ length l = size ->
     nth_error l (pick i w l 0) = Some p -> In q l -> level (genes w q) <= level (genes w p)) ->
  1 <= k_elites -> 1 <= size -> 1 <= pop_size ->
  forall initialize start (w : world G P num) T l i0,
  (forall k, D (initialize k)) -> (forall k, i0 <= level (initialize k)) -> all_tables alphabet size (S T) l ->
  exists late, counts (fun t => ~ reaches level m
      (heap_ea decoder_of problem_of maximize coin (start + Z.of_nat T) k_elites size
         (fun i => search_pipeline mutator x0 (nth i (firstn T t) [])) pick (fun _ _ _ => false)
         initialize problem decoder robust pop_size start w)) l late /\
    (inject_Z (Z.of_nat late) * inject_Z (Z.of_nat (S T)) <= inject_Z (Z.of_nat (length l)) * level_sum (length alphabet) s i0 m)%Q.
Proof.
  intros G P X decoder_of problem_of D problem decoder robust mutator x0 maximize coin k_elites size pop_size pick alphabet level m s
    H1 H2 H3 H4 H5 H6 H7 H8 H9 H10 H11 H12 initialize start w T l i0 I1 I2 A.
  set (run := fun T (t : list (list X)) => heap_ea decoder_of problem_of maximize coin (start + Z.of_nat T) k_elites size
         (fun i => search_pipeline mutator x0 (nth i t [])) pick (fun _ _ _ => false)
         initialize problem decoder robust pop_size start w).
  pose proof (fitness_levels G P X decoder_of problem_of D problem decoder robust mutator x0 maximize coin k_elites size pop_size pick alphabet
    level m s H1 H2 H3 H4 H5 H6 H7 H8 H9 H10 H11 H12 initialize start w (S T) l i0 I1 I2 A) as M.
  set (b := fun t => negb (reached level m (run T (firstn T t)))).
  assert (B : forall t, b t = true <-> ~ reaches level m (run T (firstn T t))).
  { intros t. unfold b. pose proof (reached_spec level m (run T (firstn T t))) as R.
    destruct (reached level m (run T (firstn T t))); cbn; split; intros K; try discriminate; try reflexivity.
    - exfalso. apply K, R. reflexivity.
    - intros F. apply R in F. discriminate. }
  exists (length (filter b l)). split.
  - exists b. split; [intros t _; apply B|reflexivity].
  - apply (tail_of_mean (fun T t => reaches level m (run T t)) b T l _ M B).
    apply Forall_forall. intros t Ht. apply A in Ht. apply Ht.
Qed.

Lemma late_max_ones :
  forall coin k_elites pick n N c expected probability p alphabet x0,
  rate_is expected probability n p -> (0 <= p)%Q -> (p <= 1)%Q ->
  counts (fun k => inject_Z (Z.of_nat k) / inject_Z (Z.of_nat N) < p)%Q (seq 0 N) c -> 1 <= c -> c < N ->
  all_draws N n alphabet -> In x0 alphabet ->
  (forall i w l k, l <> [] -> pick i w l k < length l) -> 1 <= k_elites ->
  forall initialize start (w : world Z unit num) T l i0,
  (forall k, bit_string n (initialize k)) -> (forall k, i0 <= ones (initialize k)) -> all_tables alphabet 1 (S T) l ->
  exists late, counts (fun t => ~ reaches ones n
      (heap_ea no_decoder max_ones_problem true coin (start + Z.of_nat T) k_elites 1
         (fun i => search_pipeline (grid_flip expected probability N) x0 (nth i (firstn T t) [])) pick (fun _ _ _ => false)
         initialize 0 0 false 1 start w)) l late /\
    (inject_Z (Z.of_nat late) * inject_Z (Z.of_nat (S T)) <=
     inject_Z (Z.of_nat (length l)) * (inject_Z (Z.of_nat (N ^ n)) / inject_Z (Z.of_nat (c * (N - c) ^ (n - 1))) * harmonic (n - i0)))%Q.
Proof.
  intros coin k_elites pick n N c expected probability p alphabet x0 H1 H2 H3 H4 H5 H6 H7 H8 H9 H10 initialize start w T l i0 I1 I2 A.
  pose proof (max_ones_time coin k_elites pick n N c expected probability p alphabet x0 H1 H2 H3 H4 H5 H6 H7 H8 H9 H10
    initialize start w (S T) l i0 I1 I2 A) as M.
  set (run := fun T (t : list (list (list nat))) => heap_ea no_decoder max_ones_problem true coin (start + Z.of_nat T) k_elites 1
         (fun i => search_pipeline (grid_flip expected probability N) x0 (nth i t [])) pick (fun _ _ _ => false)
         initialize 0 0 false 1 start w).
  set (b := fun t => negb (reached ones n (run T (firstn T t)))).
  assert (B : forall t, b t = true <-> ~ reaches ones n (run T (firstn T t))).
  { intros t. unfold b. pose proof (reached_spec ones n (run T (firstn T t))) as R.
    destruct (reached ones n (run T (firstn T t))); cbn; split; intros K; try discriminate; try reflexivity.
    - exfalso. apply K, R. reflexivity.
    - intros F. apply R in F. discriminate. }
  exists (length (filter b l)). split.
  - exists b. split; [intros t _; apply B|reflexivity].
  - apply (tail_of_mean (fun T t => reaches ones n (run T t)) b T l _ M B).
    apply Forall_forall. intros t Ht. apply A in Ht. apply Ht.
Qed.

(** all tables of five generations of one child *)
Definition ex_tables5 : list (list (list (list nat))) :=
  flat_map (fun a => flat_map (fun b => map (fun t => [a] :: [b] :: t) (flat_map (fun c => map (fun t => [c] :: t) ex_tables2) ex_coins)) ex_coins) ex_coins.
