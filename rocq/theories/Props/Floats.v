(** C107-C111: what IEEE 754 binary64 rounding does to selection, bounds, rates and means. *)
From Verif Require Import Model.Base Model.Variation Model.Proportional Model.Floats Spec.Floats Proofs.Floats Proofs.FloatUses Proofs.FloatChoices.
From Coq Require Import QArith Qabs SpecFloat Lia.
Local Open Scope Q_scope.

(** The model's rounding is rounding to a nearest float, and so leaves floats alone and keeps the order. *)
Theorem C107_rounding : forall q, nearest q (rnd q).
Proof. exact rnd_nearest. Qed.
Print Assumptions C107_rounding.

Theorem C107_order : forall p q, p <= q -> rnd p <= rnd q.
Proof. exact rnd_mono. Qed.
Print Assumptions C107_order.

Theorem C107_exact : forall q, binary64 q -> rnd q == q.
Proof. exact rnd_id. Qed.
Print Assumptions C107_exact.

(** Sums, products and quotients agree with the executable specification of IEEE 754 in the standard library (a test,
    with ties, subnormal numbers and carries among its cases). *)
Example C107_rounding_example :
  rnd (1 + Qpower 2 (-53)) == 1 /\ rnd (1 + 3 * Qpower 2 (-53)) == 1 + Qpower 2 (-51) /\ rnd (Qpower 2 (-1075)) == 0 /\
  forallb (fun x => forallb (fun y =>
    let a := inject_Z (fst x) * Qpower 2 (snd x) in let b := inject_Z (fst y) * Qpower 2 (snd y) in
    let p := sf_of (fst x) (snd x) in let q := sf_of (fst y) (snd y) in
    match sf_to_Q (SFadd 53 1024 p q), sf_to_Q (SFsub 53 1024 p q), sf_to_Q (SFmul 53 1024 p q), sf_to_Q (SFdiv 53 1024 p q) with
    | Some s, Some d, Some m, r =>
        Qeq_bool s (fadd a b) && Qeq_bool d (fsub a b) && Qeq_bool m (fmul a b) &&
        match r with Some r => Qeq_bool r (fdiv a b) | None => Qltb (Qpower 2 1023) (Qabs (fdiv a b)) end
    | _, _, _, _ => false
    end) samples) samples = true.
Proof. split; [vm_compute; reflexivity|]. split; [vm_compute; reflexivity|]. split; vm_compute; reflexivity. Qed.

(** ** C107 stochastic universal sampling *)

(** A pass of [n] selections runs past the end of the population exactly if the last point, as rounded, lies above the
    sum of the values, as rounded; otherwise it selects [n] members. *)
Theorem C107_pass : forall A (population : list A) values total n u,
  population <> [] -> length values = length population -> Forall (fun v => 0 <= v) values -> 0 <= total ->
  (1 <= n)%nat -> (Z.of_nat n <= 2 ^ 53)%Z ->
  (last_point total n u <= float_total values ->
     exists xs, sus_pass_f population values total n u = Ok xs /\ length xs = n /\ incl xs population) /\
  (float_total values < last_point total n u -> sus_pass_f population values total n u = Err IndexError).
Proof. exact @pass. Qed.
Print Assumptions C107_pass.

(** That happens: seven individuals with the fitnesses 5, 4, 4, 4, 4, 4, 4 and the largest draw. *)
Theorem C107_refuted : exists (population : list nat) zs u,
  length population = length zs /\ Forall (fun z => (0 < z)%Z) zs /\ unit_draw u /\
  sus_pass_f population (map inject_Z zs) (inject_Z (Zsum zs)) (length population) u = Err IndexError.
Proof.
  exists (seq 0 7), [5; 4; 4; 4; 4; 4; 4]%Z, top_draw. split; [reflexivity|]. split; [repeat constructor|].
  split; [exists (2 ^ 53 - 1)%Z; split; [lia|vm_compute; reflexivity]|vm_compute; reflexivity].
Qed.
Print Assumptions C107_refuted.

(** For whole-numbered values it cannot happen if the number of points is a power of two (the values times the points
    staying below 2^53) ... *)
Theorem C107_powers_partial : forall A (population : list A) zs n k u,
  population <> [] -> length zs = length population -> Forall (fun z => (0 <= z)%Z) zs ->
  (Z.of_nat n = 2 ^ Z.of_nat k)%Z -> (Zsum zs * Z.of_nat n <= 2 ^ 53)%Z -> (Zsum zs <= 2 ^ 53)%Z -> (Z.of_nat n <= 2 ^ 53)%Z -> unit_draw u ->
  exists xs, sus_pass_f population (map inject_Z zs) (inject_Z (Zsum zs)) n u = Ok xs /\ length xs = n /\ incl xs population.
Proof. exact @sus_powers. Qed.
Print Assumptions C107_powers_partial.

(** ... and for any other number only for some of the 3n largest of the 2^53 draws. *)
Theorem C107_rare_partial : forall A (population : list A) zs n u,
  population <> [] -> length zs = length population -> Forall (fun z => (0 <= z)%Z) zs -> (Zsum zs <= 2 ^ 53)%Z ->
  (1 <= n)%nat -> (Z.of_nat n <= 2 ^ 53)%Z -> unit_draw u -> u <= 1 - 3 * inject_Z (Z.of_nat n) * eps ->
  exists xs, sus_pass_f population (map inject_Z zs) (inject_Z (Zsum zs)) n u = Ok xs /\ length xs = n /\ incl xs population.
Proof. exact @sus_rare. Qed.
Print Assumptions C107_rare_partial.

(** eight points for the same values are safe, and so are seven with a draw further down *)
Example C107_example :
  sus_pass_f (seq 0 7) (map inject_Z [5; 4; 4; 4; 4; 4; 4]%Z) 29 8 top_draw = Ok [0; 1; 2; 3; 4; 5; 6; 6]%nat /\
  sus_pass_f (seq 0 7) (map inject_Z [5; 4; 4; 4; 4; 4; 4]%Z) 29 7 (Qred (1 - 21 * Qpower 2 (-53))) = Ok [0; 1; 2; 3; 4; 5; 6]%nat /\
  Qltb (float_total (map inject_Z [5; 4; 4; 4; 4; 4; 4]%Z)) (last_point 29 7 top_draw) = true.
Proof. split; [vm_compute; reflexivity|]. split; vm_compute; reflexivity. Qed.

(** ** C108 bounds *)

(** Genes drawn uniformly lie within their bounds, whatever the bounds. *)
Theorem C108_uniform : forall bounds us,
  Forall (fun b => binary64 (fst b) /\ binary64 (snd b) /\ fst b <= snd b) bounds -> Forall unit_draw us -> length us = length bounds ->
  Forall2 (fun b x => fst b <= x /\ x <= snd b) bounds (create_real_f bounds us).
Proof. exact create_range. Qed.
Print Assumptions C108_uniform.

(** Decoded genes start at the lower bound and grow with the number the bits stand for. *)
Theorem C108_decode_order_partial : forall bits lower upper code code', (1 <= bits)%nat -> binary64 lower -> lower <= upper -> (0 <= code <= code')%Z ->
  decode_f bits lower upper 0 == lower /\ lower <= decode_f bits lower upper code /\
  decode_f bits lower upper code <= decode_f bits lower upper code'.
Proof. exact decode_order. Qed.
Print Assumptions C108_decode_order_partial.

(** They miss the number they stand for by at most 2^-50 of the bounds' magnitude ... *)
Theorem C108_decode_error_partial : forall bits lower upper code, (1 <= bits <= 53)%nat -> binary64 lower -> binary64 upper -> lower <= upper ->
  (upper == lower \/ Qpower 2 (-900) <= upper - lower) -> (0 <= code < 2 ^ Z.of_nat bits)%Z ->
  Qabs (decode_f bits lower upper code - (lower + inject_Z code * (upper - lower) / inject_Z (2 ^ Z.of_nat bits - 1)))
    <= 8 * eps * (Qabs lower + Qabs upper).
Proof. exact decode_close. Qed.
Print Assumptions C108_decode_error_partial.

(** ... and stay within the bounds if the width and the step are floats. *)
Theorem C108_decode_partial : forall bits lower upper code, (1 <= bits <= 53)%nat -> binary64 lower -> binary64 upper -> lower <= upper ->
  binary64 (upper - lower) -> binary64 ((upper - lower) / inject_Z (2 ^ Z.of_nat bits - 1)) -> (0 <= code < 2 ^ Z.of_nat bits)%Z ->
  lower <= decode_f bits lower upper code /\ decode_f bits lower upper code <= upper.
Proof. exact decode_range. Qed.
Print Assumptions C108_decode_partial.

(** In general they do not: eight ones for the bounds -0.1 and 0.3. *)
Theorem C108_decode_refuted : exists bits lower upper code, (1 <= bits <= 53)%nat /\ binary64 lower /\ binary64 upper /\ lower <= upper /\
  (0 <= code < 2 ^ Z.of_nat bits)%Z /\ upper < decode_f bits lower upper code.
Proof.
  exists 8%nat, minus_tenth, three_tenths, 255%Z. split; [lia|]. split; [exists (-7205759403792794)%Z, (-56)%Z; split; [lia|split; [lia|vm_compute; reflexivity]]|].
  split; [exists 5404319552844595%Z, (-54)%Z; split; [lia|split; [lia|vm_compute; reflexivity]]|].
  split; [vm_compute; discriminate|]. split; [lia|]. vm_compute. reflexivity.
Qed.
Print Assumptions C108_decode_refuted.

(** ScaledProblem stays within the wrapped problem's bounds, and hits them at the ends, if their width is a float ... *)
Theorem C108_scaled_partial : forall o0 o1 b0 b1 x, binary64 o0 -> binary64 o1 -> o0 <= o1 -> binary64 (o1 - o0) ->
  binary64 b0 -> binary64 b1 -> b0 < b1 -> b0 <= x -> x <= b1 ->
  (o0 <= scaled_point_f (o0, o1) (b0, b1) x /\ scaled_point_f (o0, o1) (b0, b1) x <= o1) /\
  scaled_point_f (o0, o1) (b0, b1) b0 == o0 /\ scaled_point_f (o0, o1) (b0, b1) b1 == o1.
Proof. exact scaled_all. Qed.
Print Assumptions C108_scaled_partial.

(** ... which it is for bounds -a and a, as most problems have them. *)
Theorem C108_symmetric : forall a, binary64 a -> binary64 (a - - a).
Proof. exact double_b64. Qed.
Print Assumptions C108_symmetric.

Theorem C108_scaled_refuted : exists o0 o1 b0 b1, binary64 o0 /\ binary64 o1 /\ o0 <= o1 /\ binary64 b0 /\ binary64 b1 /\ b0 < b1 /\
  o1 < scaled_point_f (o0, o1) (b0, b1) b1.
Proof.
  exists minus_tenth, three_tenths, 0, 1. split; [exists (-7205759403792794)%Z, (-56)%Z; split; [lia|split; [lia|vm_compute; reflexivity]]|].
  split; [exists 5404319552844595%Z, (-54)%Z; split; [lia|split; [lia|vm_compute; reflexivity]]|].
  split; [vm_compute; discriminate|]. split; [exact b64_0|]. split; [exact (b64_int 1 ltac:(lia))|]. split; vm_compute; reflexivity.
Qed.
Print Assumptions C108_scaled_refuted.

(** -0.1 and 0.3 with the largest draw; four bits for 0 and 15; (-1, 1) carried over to (-5, 5) *)
Example C108_example :
  Qle_bool (uniform minus_tenth three_tenths top_draw) three_tenths = true /\
  Qeq_bool (decode_f 4 0 15 11) 11 = true /\
  Qeq_bool (scaled_point_f (-5, 5) (-1, 1) (1 # 2)) (5 # 2) = true.
Proof. split; [vm_compute; reflexivity|]. split; vm_compute; reflexivity. Qed.

(** ** C109 mutation rates *)

(** An expected number of mutations between none and all gives a probability: the assertion that it is one holds, and
    it is off by at most three half-steps. *)
Theorem C109_rate : forall expected len us, (1 <= len)%nat -> (Z.of_nat len <= 2 ^ 53)%Z -> 0 <= expected -> expected <= inject_Z (Z.of_nat len) ->
  exists p, expected_probability_f expected len = Ok p /\ random_bernoulli_vector us p = Ok (map (fun u => Qltb u p) us) /\
    0 <= p /\ p <= 1 /\
    (expected == 0 \/ Qpower 2 (-900) <= expected -> within (3 * eps) (expected / inject_Z (Z.of_nat len)) p).
Proof. exact rate_mask. Qed.
Print Assumptions C109_rate.

(** None means none; all means all if the length is a power of two ... *)
Theorem C109_none : forall len us, (1 <= len)%nat -> Forall unit_draw us ->
  exists p, expected_probability_f 0 len = Ok p /\ random_bernoulli_vector us p = Ok (map (fun _ => false) us).
Proof. exact rate_none. Qed.
Print Assumptions C109_none.

Theorem C109_all : forall k len us, (Z.of_nat len = 2 ^ Z.of_nat k)%Z -> (Z.of_nat len <= 2 ^ 53)%Z -> Forall unit_draw us ->
  exists p, expected_probability_f (inject_Z (Z.of_nat len)) len = Ok p /\ random_bernoulli_vector us p = Ok (map (fun _ => true) us).
Proof. exact rate_all_mask. Qed.
Print Assumptions C109_all.

(** ... but not always: of 49 genes, all to be mutated, the one with the largest draw is not. *)
Theorem C109_all_refuted : exists len u p, (1 <= len)%nat /\ unit_draw u /\
  expected_probability_f (inject_Z (Z.of_nat len)) len = Ok p /\ random_bernoulli_vector [u] p = Ok [false].
Proof.
  exists 49%nat, top_draw, top_draw. split; [lia|]. split; [exists (2 ^ 53 - 1)%Z; split; [lia|vm_compute; reflexivity]|].
  split; vm_compute; reflexivity.
Qed.
Print Assumptions C109_all_refuted.

Example C109_example : exists p, expected_probability_f 3 10 = Ok p /\ Qltb p (3 # 10) = false /\ Qeq_bool p three_tenths = false.
Proof. eexists. split; [vm_compute; reflexivity|]. split; vm_compute; reflexivity. Qed.

(** ** C110 proportional selection *)

(** Whatever the rounding of weights and their sums, a draw selects somebody whose value is positive.  (np.sum's result
    may be any positive number of which some value is not a vanishing part.) *)
Theorem C110_picks : forall A (population : list A) values total u,
  length values = length population -> Forall (fun v => 0 <= v) values -> 0 < total ->
  Exists (fun v => Qpower 2 (-1000) * total <= v) values -> unit_draw u ->
  exists i v x, nth_error values i = Some v /\ 0 < v /\ nth_error population i = Some x /\
                proportional_turn_f population values total u = Ok x.
Proof. exact @proportional_picks. Qed.
Print Assumptions C110_picks.

(** the largest draw, the last value being zero *)
Example C110_example : proportional_turn_f [1; 2; 3; 4]%nat [tenth; 0; three_tenths; 0] (fadd tenth three_tenths) top_draw = Ok 3%nat.
Proof. vm_compute. reflexivity. Qed.

(** ** C111 means *)

(** Averaging never turns round an order that all samples agree on ... *)
Theorem C111_order : forall l l', l <> [] -> Forall2 Qle l l' -> mean_f l <= mean_f l'.
Proof. exact mean_mono. Qed.
Print Assumptions C111_order.

(** ... and is right up to the last rounding for whole numbers ... *)
Theorem C111_whole : forall zs, zs <> [] -> Forall (fun z => (0 <= z)%Z) zs -> (Zsum zs <= 2 ^ 53)%Z -> (Z.of_nat (length zs) <= 2 ^ 53)%Z ->
  nearest (inject_Z (Zsum zs) / inject_Z (Z.of_nat (length zs))) (mean_f (map inject_Z zs)).
Proof. exact mean_nearest. Qed.
Print Assumptions C111_whole.

(** ... but the mean of equal numbers can be above all of them: three times 0.1. *)
Theorem C111_constant_refuted : exists x, binary64 x /\ x < mean_f [x; x; x].
Proof. exists tenth. split; [exists 7205759403792794%Z, (-56)%Z; split; [lia|split; [lia|vm_compute; reflexivity]]|vm_compute; reflexivity]. Qed.
Print Assumptions C111_constant_refuted.

Example C111_example : Qeq_bool (mean_f (map inject_Z [7; 7; 7]%Z)) 7 = true /\ Qle_bool (mean_f [tenth; tenth]) (mean_f [tenth; three_tenths]) = true.
Proof. split; vm_compute; reflexivity. Qed.
