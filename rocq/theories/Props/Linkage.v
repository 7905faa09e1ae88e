(** C106: exactly how often crossover parts two genes. *)
From Coq Require Import Permutation.
From Verif Require Import Model.Base Model.Variation Spec.Variation Spec.Odds Spec.Linkage Proofs.Linkage.
Local Open Scope nat_scope.
Local Open Scope list_scope.

(** The n different points below len can be drawn in len (len-1) ... (len-n+1) ways; their order does not matter. *)
Theorem C106_draws : forall len n,
  (exists l, all_distinct_draws len n l) /\ forall l, all_distinct_draws len n l -> length l = falling len n.
Proof. exact (fun len n => conj (distinct_exist len n) (distinct_total len n)). Qed.
Print Assumptions C106_draws.

Theorem C106_order : forall G n d d' (a b : list G), Permutation d d' -> length a = length b -> length d = n -> n <= length a ->
  Forall (fun p => p < length a) d -> nary_recombine n d a b = nary_recombine n d' a b.
Proof. exact @order_irrelevant. Qed.
Print Assumptions C106_order.

(** The first child takes its i-th gene from the second parent for exactly the draws with an odd number of points
    among 0..i. *)
Theorem C106_gene : forall G (a b : list G) n l, length b = length a -> n <= length a -> all_distinct_draws (length a) n l ->
  forall i x y, nth_error a i = Some x -> nth_error b i = Some y -> x <> y ->
  counts (fun d => exists c1 c2, nary_recombine n d a b = Ok (c1, c2) /\ nth_error c1 i = Some y) l
    (odd_ways n (S i) (length a - S i)).
Proof. exact @gene_odds. Qed.
Print Assumptions C106_gene.

(** Two genes are parted in a number of draws that depends only on their distance. *)
Theorem C106_linkage : forall G (a b : list G) n l, length b = length a -> n <= length a -> all_distinct_draws (length a) n l ->
  forall i j x y x' y', i < j -> nth_error a i = Some x -> nth_error b i = Some y -> x <> y ->
  nth_error a j = Some x' -> nth_error b j = Some y' -> x' <> y' ->
  counts (fun d => exists c1 c2, nary_recombine n d a b = Ok (c1, c2) /\ parted i j a b c1) l
    (odd_ways n (j - i) (length a - (j - i))).
Proof. exact @linkage. Qed.
Print Assumptions C106_linkage.

(** With one point at distance s that is s of the len draws; with two it is 2 s (len - s) of the len (len-1), as if
    the genome were a ring. *)
Theorem C106_few_points : forall s r, odd_ways 1 s r = s /\ odd_ways 2 s r = 2 * (s * r) /\ odd_ways 2 s r = odd_ways 2 r s.
Proof.
  exact (fun s r => conj (one_cut s r) (conj (two_cuts s r)
    (eq_trans (two_cuts s r) (eq_trans (f_equal (Nat.mul 2) (Nat.mul_comm s r)) (eq_sym (two_cuts r s)))))).
Qed.
Print Assumptions C106_few_points.

(** Nothing is random about the last gene: the first child has that of the second parent if the number of points is
    odd, otherwise its own parent's. *)
Theorem C106_last_gene : forall G (a b : list G) n l, length b = length a -> n <= length a -> all_distinct_draws (length a) n l ->
  forall d c1 c2 x y, In d l -> nary_recombine n d a b = Ok (c1, c2) ->
  nth_error a (length a - 1) = Some x -> nth_error b (length a - 1) = Some y ->
  nth_error c1 (length a - 1) = Some (if Nat.odd n then y else x).
Proof. exact @last_gene. Qed.
Print Assumptions C106_last_gene.

(** Uniform crossover parts any two genes with the same chance, whatever their distance. *)
Theorem C106_uniform : forall G p (a b : list G) l i j x y x' y', length b = length a -> all_masks (length a) l -> i < j ->
  nth_error a i = Some x -> nth_error b i = Some y -> x <> y ->
  nth_error a j = Some x' -> nth_error b j = Some y' -> x' <> y' ->
  chance_of (mask_chance p) (fun mask => exists c1 c2, uniform_recombine mask a b = Ok (c1, c2) /\ parted i j a b c1) l (2 * p * (1 - p))%Q.
Proof. exact @uniform_linkage. Qed.
Print Assumptions C106_uniform.

(** Genomes of four genes: two points out of four in twelve ways. The outer genes are parted by 6 of them (as often
    as neighbours), genes at distance two by 8. Of the 24 draws of three points 18, 12 and 6 part genes at distance 1, 2 and 3. A
    single point at 0 only swaps the parents. *)
Example C106_example :
  (falling 4 2, odd_ways 2 3 1, odd_ways 2 1 3, odd_ways 2 2 2) = (12, 6, 6, 8) /\
  (falling 4 3, odd_ways 3 1 3, odd_ways 3 2 2, odd_ways 3 3 1) = (24, 18, 12, 6) /\
  (nary_recombine 2 [2; 1] [1; 2; 3; 4] [5; 6; 7; 8], nary_recombine 1 [0] [1; 2; 3; 4] [5; 6; 7; 8]) =
  (Ok ([1; 6; 3; 4], [5; 2; 7; 8]), Ok ([5; 6; 7; 8], [1; 2; 3; 4])) /\
  parted 0 1 [1; 2; 3; 4] [5; 6; 7; 8] [1; 6; 3; 4].
Proof. repeat split. left. split; reflexivity. Qed.
