(** C112: what binary64 rounding does to fitnesses - offsets, parsimony, truth tables, selection values, crowding
    distances and the diversity metric. *)
From Verif Require Import Model.Base Model.Floats Model.FloatMeans Model.FloatFitness Spec.Floats Spec.FloatMeans Spec.FloatFitness Proofs.Floats Proofs.FloatMeans Proofs.FloatFitness.
From Coq Require Import QArith Qabs Permutation Lia.
Local Open Scope Q_scope.

(** ** A fitness offset never turns an order round, is exact on whole numbers, and is off by at most half an ulp ... *)
Theorem C112_offset_order : forall c a b, a <= b -> offset_f c a <= offset_f c b.
Proof. exact offset_mono. Qed.
Print Assumptions C112_offset_order.

Theorem C112_offset_whole : forall c z, (Z.abs (z + c) <= 2 ^ 53)%Z -> offset_f (inject_Z c) (inject_Z z) == inject_Z z + inject_Z c.
Proof. exact offset_whole. Qed.
Print Assumptions C112_offset_whole.

Theorem C112_offset_error : forall c a, binary64 a -> binary64 c -> within eps (a + c) (offset_f c a).
Proof. exact offset_error. Qed.
Print Assumptions C112_offset_error.

(** ... but a strictly better fitness can become an equal one. *)
Theorem C112_offset_strict_refuted : exists c a b, binary64 c /\ binary64 a /\ binary64 b /\ a < b /\ offset_f c a == offset_f c b.
Proof.
  exists 1, 0, (pow2 (-60)). split; [apply (b64_int 1); lia|]. split; [apply b64_0|]. split; [apply b64_pow2; lia|].
  split; vm_compute; reflexivity.
Qed.
Print Assumptions C112_offset_strict_refuted.

(** ** Koza's parsimony: better fitness and shorter genome never give a smaller key ... *)
Theorem C112_koza_order : forall maximize penalty f f' len len', 0 <= penalty -> as_good maximize f' f -> (len' <= len)%nat ->
  koza_f maximize penalty f len <= koza_f maximize penalty f' len'.
Proof. exact koza_mono. Qed.
Print Assumptions C112_koza_order.

Theorem C112_koza_whole : forall (maximize : bool) p f len, (Z.of_nat len <= 2 ^ 53)%Z -> (Z.abs (p * Z.of_nat len) <= 2 ^ 53)%Z ->
  (Z.abs ((if maximize then f else - f) - p * Z.of_nat len) <= 2 ^ 53)%Z ->
  koza_f maximize (inject_Z p) (inject_Z f) len == (if maximize then inject_Z f else - inject_Z f) - inject_Z p * inject_Z (Z.of_nat len).
Proof. exact koza_whole. Qed.
Print Assumptions C112_koza_whole.

(** ... but the pressure on the length can vanish altogether. *)
Theorem C112_koza_pressure_refuted : exists penalty f, binary64 penalty /\ 0 < penalty /\ binary64 f /\ koza_f true penalty f 1 == koza_f true penalty f 3.
Proof.
  exists (pow2 (-60)), 1. split; [apply b64_pow2; lia|]. split; [reflexivity|]. split; [apply (b64_int 1); lia|]. vm_compute. reflexivity.
Qed.
Print Assumptions C112_koza_pressure_refuted.

(** ** The fitness of a truth table is exact, so that it is 1 only for programs that are right everywhere. *)
Theorem C112_table : forall score num_inputs, (0 <= score <= 2 ^ Z.of_nat num_inputs)%Z -> (num_inputs <= 53)%nat ->
  table_fitness_f score num_inputs == inject_Z score / inject_Z (2 ^ Z.of_nat num_inputs).
Proof. exact table_exact. Qed.
Print Assumptions C112_table.

(** ** Proportional selection with offset 'pop-min' never selects a worst individual, if somebody is better. *)
Theorem C112_pop_min : forall A (population : list A) keys o u,
  length keys = length population -> Forall binary64 keys -> covers o (length keys) -> (Z.of_nat (length keys) <= 2 ^ 51)%Z ->
  (exists a b, In a keys /\ In b keys /\ a < b) -> unit_draw u ->
  exists i k k' x, nth_error keys i = Some k /\ In k' keys /\ k' < k /\ nth_error population i = Some x /\
                   pop_min_turn_f population keys o u = Ok x.
Proof. exact @pop_min_pick. Qed.
Print Assumptions C112_pop_min.

(** ** Crowding: an objective is skipped exactly if all its values are equal, and an individual between the extremes gets a
    distance between 0 and the number of objectives. *)
Theorem C112_crowding_skip : forall lo hi, binary64 lo -> binary64 hi -> skipped_f lo hi = true <-> lo == hi.
Proof. exact skipped_iff. Qed.
Print Assumptions C112_crowding_skip.

Theorem C112_crowding : forall objectives, (Z.of_nat (length objectives) <= 2 ^ 53)%Z -> Forall between_extremes objectives ->
  0 <= distance_f objectives /\ distance_f objectives <= inject_Z (Z.of_nat (length objectives)).
Proof. exact distance_range. Qed.
Print Assumptions C112_crowding.

(** It is at least what each objective gives it; wider gaps give no less, and the whole range gives exactly 1. *)
Theorem C112_crowding_parts : forall objectives lo hi before after, Forall between_extremes objectives ->
  In (lo, hi, before, after) objectives -> gap_f lo hi before after <= distance_f objectives.
Proof. exact distance_parts. Qed.
Print Assumptions C112_crowding_parts.

Theorem C112_crowding_wider : forall f_min f_max a b a' b', between_extremes (f_min, f_max, a, b) ->
  (f_min < f_max -> a' <= a /\ b <= b') -> (f_max < f_min -> a <= a' /\ b' <= b) -> gap_f f_min f_max a b <= gap_f f_min f_max a' b'.
Proof. exact gap_wider. Qed.
Print Assumptions C112_crowding_wider.

Theorem C112_crowding_full : forall f_min f_max, binary64 f_min -> binary64 f_max -> ~ f_min == f_max -> gap_f f_min f_max f_min f_max == 1.
Proof. exact gap_full. Qed.
Print Assumptions C112_crowding_full.

(** ** The diversity metric is never negative, and zero for equal genomes of whole numbers ... *)
Theorem C112_diversity_nonneg : forall root by_row by_gene by_norm genomes d, diversity_f root by_row by_gene by_norm genomes = Ok d -> 0 <= d.
Proof. exact diversity_nonneg. Qed.
Print Assumptions C112_diversity_nonneg.

Theorem C112_diversity_converged : forall root by_row by_gene by_norm zs n, (1 <= n)%nat -> (Z.of_nat n <= 2 ^ 53)%Z -> covers by_row n ->
  Forall (fun z => (Z.abs z * Z.of_nat n <= 2 ^ 53)%Z) zs -> exact_root root ->
  exists d, diversity_f root by_row by_gene by_norm (repeat (map inject_Z zs) n) = Ok d /\ d == 0.
Proof. exact diversity_converged. Qed.
Print Assumptions C112_diversity_converged.

(** ... and exact for whole numbers whose column means and distances from the centroid are whole numbers ... *)
Theorem C112_diversity_exact : forall root by_row by_gene by_norm points means n, exact_root root ->
  length points = n -> (1 <= n)%nat -> (Z.of_nat n <= 2 ^ 52)%Z -> covers by_row n -> covers by_gene (length means) -> covers by_norm n ->
  Forall (fun p => length p = length means) points -> whole_means points means -> Forall (fun m => (Z.abs m <= 2 ^ 53)%Z) means ->
  (forall j, (j < length means)%nat -> (Zsum (map (fun p => Z.abs (nth j p 0%Z)) points) <= 2 ^ 53)%Z) ->
  Forall (fun p => exists s, (0 <= s)%Z /\ sq_dist p means = (s * s)%Z) points ->
  (2 * Z.of_nat n * Zsum (map (fun p => sq_dist p means) points) <= 2 ^ 53)%Z ->
  exists d, diversity_f root by_row by_gene by_norm (map (map inject_Z) points) = Ok d /\
            d == inject_Z (2 * Z.of_nat n * Zsum (map (fun p => sq_dist p means) points)).
Proof. exact diversity_exact. Qed.
Print Assumptions C112_diversity_exact.

(** ... but three equal genomes [0.1] have a positive diversity ... *)
Theorem C112_diversity_converged_refuted : exists g, Forall binary64 g /\
  match diversity_f square_root (from_left 3) (Item 0) (from_left 3) (repeat g 3) with Ok d => 0 < d | Err _ => False end.
Proof.
  exists [tenth]. split; [constructor; [exists 7205759403792794%Z, (-56)%Z; split; [lia|split; [lia|vm_compute; reflexivity]]|constructor]|]. vm_compute. reflexivity.
Qed.
Print Assumptions C112_diversity_converged_refuted.

(** ... and two different ones can have diversity zero. *)
Theorem C112_diversity_zero_refuted : exists x y, binary64 x /\ binary64 y /\ ~ x == y /\
  match diversity_f square_root (from_left 2) (Item 0) (from_left 2) [[x]; [y]] with Ok d => d == 0 | Err _ => False end.
Proof.
  exists (pow2 (-600)), 0. split; [apply b64_pow2; lia|]. split; [apply b64_0|]. split; [vm_compute; discriminate|]. vm_compute. reflexivity.
Qed.
Print Assumptions C112_diversity_zero_refuted.

(** [square_root] is a root as the theorems want it. *)
Theorem C112_root : exact_root square_root.
Proof. exact square_root_exact. Qed.
Print Assumptions C112_root.

Example C112_pop_min_example : pop_min_turn_f [1; 2; 3]%nat [tenth; minus_tenth; tenth] (from_left 3) top_draw = Ok 3%nat /\
  pop_min_turn_f [1; 2; 3]%nat [minus_tenth; tenth; minus_tenth] (from_left 3) 0 = Ok 2%nat.
Proof. split; vm_compute; reflexivity. Qed.
Example C112_crowding_example : Forall between_extremes [(0, 1, 0, 1); (1, minus_tenth, tenth, minus_tenth)] /\
  Qle_bool 1 (distance_f [(0, 1, 0, 1); (1, minus_tenth, tenth, minus_tenth)]) = true.
Proof.
  assert (B : binary64 minus_tenth) by (exists (-7205759403792794)%Z, (-56)%Z; split; [lia|split; [lia|vm_compute; reflexivity]]).
  split; [|vm_compute; reflexivity].
  constructor; [split; [apply b64_0|split; [apply (b64_int 1); lia|left; repeat split; vm_compute; discriminate || reflexivity]]|].
  constructor; [split; [apply (b64_int 1); lia|split; [exact B|right; repeat split; vm_compute; discriminate || reflexivity]]|constructor].
Qed.
Example C112_koza_example : Qeq_bool (koza_f true (1 # 2) 3 6) 0 = true /\ Qeq_bool (koza_f false (1 # 2) 3 2) (- (4)) = true /\
  Qeq_bool (table_fitness_f 3 2) (3 # 4) = true /\ Qeq_bool (offset_f (- (7 # 2)) 5) (3 # 2) = true.
Proof. repeat split; vm_compute; reflexivity. Qed.
Example C112_diversity_exact_example : whole_means [[0; 0]; [6; 8]]%Z [3; 4]%Z /\
  Forall (fun p => exists s, (0 <= s)%Z /\ sq_dist p [3; 4]%Z = (s * s)%Z) [[0; 0]; [6; 8]]%Z /\
  (2 * 2 * Zsum (map (fun p => sq_dist p [3; 4]%Z) [[0; 0]; [6; 8]]%Z) = 200)%Z.
Proof.
  split; [intros [|[|j]] H; [reflexivity|reflexivity|cbn in H; lia]|]. split; [|reflexivity].
  constructor; [exists 5%Z; split; [lia|reflexivity]|]. constructor; [exists 5%Z; split; [lia|reflexivity]|constructor].
Qed.
Example C112_diversity_example : match diversity_f square_root (from_left 2) (from_left 2) (from_left 2) [[0; 0]; [6; 8]] with Ok d => Qeq_bool d 200 = true | Err _ => False end.
Proof. vm_compute. reflexivity. Qed.
