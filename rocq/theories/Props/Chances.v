(** C96: exact chances of proportional selection and of mutation. *)
From Verif Require Import Model.Base Model.Proportional Model.Variation Spec.Proportional Spec.Variation Spec.Odds Spec.Chances
  Proofs.Chances.
From Coq Require Import Lqa.

(** The roulette wheel picks an individual for an interval of draws as long as its share of the total. *)
Theorem C96_roulette :
  forall A (population : list A) keys off exponent values i x v,
  NoDup population -> length population = length keys ->
  compute_population_values keys off exponent = Ok values ->
  Forall (fun v => 0 <= v)%Q values -> (0 < total values)%Q ->
  nth_error population i = Some x -> nth_error values i = Some v ->
  exists a b, exactly_between (fun u => proportional_turn population keys off exponent u = Ok x) a b /\
    (b - a == v / total values)%Q.
Proof. exact @roulette. Qed.
Print Assumptions C96_roulette.

(** Bit-flip mutation, each gene drawing one of N grid points: the flips over all draws average to the expected
    number asked for, up to the fineness of the grid; exactly if the rate is on the grid. *)
Theorem C96_mean_flips :
  forall expected probability p N g l,
  1 <= N -> rate_is expected probability (length g) p -> (0 <= p)%Q -> (p <= 1)%Q -> binary g ->
  all_draws N (length g) l ->
  exists total, adds_up (fun d m => exists h, genome_mutate_bitflip expected probability (grid N d) g = Ok h /\ m = differences g h) l total /\
    (p * inject_Z (Z.of_nat (length g)) * inject_Z (Z.of_nat (length l)) <= inject_Z (Z.of_nat total))%Q /\
    (inject_Z (Z.of_nat total) * inject_Z (Z.of_nat N) <=
       inject_Z (Z.of_nat (length g)) * (p * inject_Z (Z.of_nat N) + 1) * inject_Z (Z.of_nat (length l)))%Q /\
    ((exists a, p * inject_Z (Z.of_nat N) == inject_Z a)%Q ->
     (inject_Z (Z.of_nat total) == p * inject_Z (Z.of_nat (length g)) * inject_Z (Z.of_nat (length l)))%Q).
Proof. exact mean_flips. Qed.
Print Assumptions C96_mean_flips.

(** How many of the draws give a particular mutant: only the number of differing genes matters. *)
Theorem C96_mutants :
  forall expected probability p N c g h l,
  rate_is expected probability (length g) p -> (0 <= p)%Q -> (p <= 1)%Q -> binary g -> binary h -> length h = length g ->
  all_draws N (length g) l ->
  counts (fun k => inject_Z (Z.of_nat k) / inject_Z (Z.of_nat N) < p)%Q (seq 0 N) c ->
  counts (fun d => genome_mutate_bitflip expected probability (grid N d) g = Ok h) l
    (c ^ differences g h * (N - c) ^ (length g - differences g h)).
Proof. exact mutant_odds. Qed.
Print Assumptions C96_mutants.

(** A redrawn integer gene takes every value of its range, both ends included, equally often. *)
Theorem C96_randint :
  forall low high v M, (low <= v <= high)%Z ->
  counts (fun d => randint_gene (Z.of_nat d) low (high + 1) = Ok v) (seq 0 (M * Z.to_nat (high + 1 - low))) M.
Proof. exact randint_even. Qed.
Print Assumptions C96_randint.

(** Example: keys 1, 0, 3 with offset 1: shares 2/7, 1/7 and 4/7. *)
Example C96_roulette_ex :
  compute_population_values [1; 0; 3]%Q (OffVal 1) 1 = Ok [2; 1; 4]%Q /\
  map (fun u => proportional_turn [10; 11; 12] [1; 0; 3]%Q (OffVal 1) 1 u) [0; (27 # 100); (2 # 7); (42 # 100); (3 # 7); (99 # 100)]%Q
  = map Ok [10; 10; 11; 11; 12; 12].
Proof. split; vm_compute; reflexivity. Qed.

(** Example: two bits with rate 1/3 each: the nine draws flip six bits, 2/3 each on average. *)
Example C96_flips_ex :
  map (fun d => match genome_mutate_bitflip None (Some (1 # 3)%Q) (grid 3 d) [1; 0]%Z with
                | Ok h => differences [1; 0]%Z h | Err _ => 9 end) ex_pairs3
  = [2; 1; 1; 1; 0; 0; 1; 0; 0] /\
  ((1 # 3) * 2 * inject_Z (Z.of_nat (length ex_pairs3)) == 6)%Q.
Proof. split; vm_compute; reflexivity. Qed.
