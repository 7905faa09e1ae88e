(** C22, C23: mutation. *)
From Verif Require Import Model.Base Model.Variation Model.Heap Spec.Variation Proofs.Variation Proofs.MutateInd.
From Coq Require Import Lqa.
Local Open Scope Q_scope.
Local Open Scope nat_scope.

(** C22. *)
Theorem C22_bitflip :
  forall expected probability us g p,
  length us = length g -> rate_is expected probability (length g) p -> (0 <= p)%Q -> (p <= 1)%Q -> binary g ->
  exists g', genome_mutate_bitflip expected probability us g = Ok g' /\ binary g' /\
    changed_where (drawn us p) (fun _ x x' => x' = 1 - x)%Z (fun _ x x' => x' = x) g g'.
Proof. exact bitflip_full. Qed.
Print Assumptions C22_bitflip.

Theorem C22_bitflip_all_or_none :
  forall us g, length us = length g -> unit_draws us -> binary g ->
  genome_mutate_bitflip None (Some 1%Q) us g = Ok (map (fun x => 1 - x)%Z g) /\
  genome_mutate_bitflip None (Some 0%Q) us g = Ok g.
Proof. exact bitflip_extremes. Qed.
Print Assumptions C22_bitflip_all_or_none.

Theorem C22_rate_parameters_checked :
  forall expected probability,
  check_rate ValueError expected probability = Err ValueError <->
  (expected = None /\ probability = None) \/
  (expected <> None /\ probability <> None) \/
  (expected = None /\ exists p, probability = Some p /\ ((p < 0)%Q \/ (1 < p)%Q)).
Proof. exact (check_rate_spec ValueError). Qed.
Print Assumptions C22_rate_parameters_checked.

(** the operator on an individual: in place, fitness cleared, everybody else untouched *)
Theorem C22_individual :
  forall P F expected probability us (w : world Z P F) i u w',
  mutate_ind (fun g => bind (genome_mutate_bitflip expected probability us g) (fun g' => Ok (g', None))) w i
    = (Ok u, w') ->
  genome_mutate_bitflip expected probability us (genes w i) = Ok (genes w' i) /\
  i_fitness (w_ind w' i) = None /\ i_parents (w_ind w' i) = i_parents (w_ind w i) /\
  (forall j, j <> i -> w_ind w' j = w_ind w j).
Proof. exact bitflip_individual. Qed.
Print Assumptions C22_individual.

Example C22_example :
  let us := [1 # 2; 1 # 10; 9 # 10; 2 # 10] in
  rate_is (Some 2%Q) None (length us) (1 # 2) /\ unit_draws us /\
  genome_mutate_bitflip (Some 2%Q) None us [1; 1; 0; 0]%Z = Ok [1; 0; 0; 1]%Z /\
  genome_mutate_bitflip None (Some 1%Q) us [1; 1; 0; 0]%Z = Ok [0; 0; 1; 1]%Z /\
  genome_mutate_bitflip (Some 2%Q) (Some (1 # 2)) us [1; 1; 0; 0]%Z = Err AssertionError.
Proof.
  split; [right; exists 2%Q; split; [reflexivity|split; [reflexivity|split; [discriminate|reflexivity]]]|].
  split; [repeat constructor; lra|]. vm_compute. auto.
Qed.

(** C23. *)
Theorem C23_gaussian :
  forall stds expected b slope intercept us noise g p,
  length us = length g -> bounds_fit b (length g) ->
  length noise = length (select_mask (map (fun u => Qltb u p) us) g) ->
  match stds with inl s => 0 <= s | inr l => length l = length g end%Q ->
  match expected with
  | None => p == 1
  | Some e => length g <> 0%nat /\ p * inject_Z (Z.of_nat (length g)) == e
  end%Q -> (0 <= p)%Q -> (p <= 1)%Q ->
  (forall i low high, bound_at b i = Some (low, high) -> ext_le low high) ->
  exists inplace g', genome_mutate_gaussian stds expected b slope intercept us noise g = Ok (inplace, g') /\
    in_bounds ext_le b g' /\
    changed_where (drawn us p)
      (fun i x x' => exists low high z s, bound_at b i = Some (low, high) /\
         nth_error noise (selected_before us p i) = Some z /\ std_at stds i = Some s /\
         clamped low (Fin (slope * (x + z * s) + intercept)%Q) high x')
      (fun i x x' => exists low high, bound_at b i = Some (low, high) /\ clamped low (Fin x) high x') g g'.
Proof. exact gaussian_in_bounds. Qed.
Print Assumptions C23_gaussian.

(** mutate_gaussian's parameters are checked, and otherwise it is the genome mutator *)
Theorem C23_gaussian_parameters :
  forall stds expected b slope intercept us noise g,
  (expected = None -> mutate_gaussian stds expected b slope intercept us noise g = Err ValueError) /\
  (forall e s, expected = Some e -> stds = inl s -> (s < 0)%Q ->
     mutate_gaussian stds expected b slope intercept us noise g = Err AssertionError) /\
  (forall l, expected = Some None -> stds = inr l -> length us = length g -> length l <> length g ->
     mutate_gaussian stds expected b slope intercept us noise g = Err IndexError) /\
  (forall e, expected = Some e ->
     mutate_gaussian stds expected b slope intercept us noise g = genome_mutate_gaussian stds e b slope intercept us noise g).
Proof. exact gaussian_parameters. Qed.
Print Assumptions C23_gaussian_parameters.

Theorem C23_binomial :
  forall b expected probability us ks fls g p,
  length us = length g -> bounds_fit b (length g) ->
  length ks = length (select_mask (map (fun u => Qltb u p) us) g) -> length fls = length ks ->
  rate_is expected probability (length g) p -> (0 <= p)%Q -> (p <= 1)%Q ->
  (forall i low high, bound_at b i = Some (low, high) -> low <= high)%Z ->
  exists inplace g', genome_mutate_binomial b expected probability us ks fls g = Ok (inplace, g') /\
    in_bounds Z.le b g' /\
    changed_where (drawn us p)
      (fun i x x' => exists low high k fl, bound_at b i = Some (low, high) /\
         nth_error ks (selected_before us p i) = Some k /\ nth_error fls (selected_before us p i) = Some fl /\
         Z_clamped low (x + k - fl) high x')%Z
      (fun i x x' => exists low high, bound_at b i = Some (low, high) /\ Z_clamped low x high x')%Z g g'.
Proof. exact binomial_in_bounds. Qed.
Print Assumptions C23_binomial.

Theorem C23_randint :
  forall bs expected probability us ds g p,
  length us = length g -> length bs = length g -> length g <= length ds ->
  rate_is expected probability (length g) p -> (0 <= p)%Q -> (p <= 1)%Q ->
  Forall (fun b => fst b <= snd b)%Z bs ->
  exists g', individual_mutate_randint bs expected probability us ds g = Ok g' /\
    (in_bounds Z.le (BEach bs) g -> in_bounds Z.le (BEach bs) g') /\
    changed_where (drawn us p)
      (fun i _ x' => exists low high, nth_error bs i = Some (low, high) /\ low <= x' <= high)%Z
      (fun _ x x' => x' = x) g g'.
Proof. exact randint_in_bounds. Qed.
Print Assumptions C23_randint.

(** both bounds are inclusive: every genome within the bounds can result *)
Theorem C23_randint_reaches_every_value :
  forall bs target us g, length us = length g -> length bs = length g ->
  length target = length g -> unit_draws us -> in_bounds Z.le (BEach bs) target ->
  exists ds, individual_mutate_randint bs None (Some 1%Q) us ds g = Ok target.
Proof. exact randint_reaches. Qed.
Print Assumptions C23_randint_reaches_every_value.

(** bounds that do not fit the genome are rejected *)
Theorem C23_misfitting_bounds :
  forall N (clip : N -> N -> N -> N) g b, ~ bounds_fit b (length g) -> clip_with clip g b = Err ValueError.
Proof. exact @clip_misfit. Qed.
Print Assumptions C23_misfitting_bounds.

(** asking for more mutations than genes is an error *)
Theorem C23_too_many_mutations :
  forall us e len, len <> 0 -> (inject_Z (Z.of_nat len) < e)%Q ->
  mutation_mask (Some e) None us len = Err AssertionError.
Proof. exact mask_too_many. Qed.
Print Assumptions C23_too_many_mutations.

(** the operators on an individual, for any of the genome mutators above *)
Theorem C23_individual :
  forall G P F (f : list G -> result (list G * option (list G))) (w : world G P F) i u w',
  mutate_ind f w i = (Ok u, w') ->
  i_fitness (w_ind w' i) = None /\
  (exists inplace fresh, f (genes w i) = Ok (inplace, fresh) /\
     genes w' i = match fresh with Some g => g | None => inplace end) /\
  (forall j, j <> i -> w_ind w' j = w_ind w j).
Proof. exact mutate_individual. Qed.
Print Assumptions C23_individual.

Example C23_example :
  let us := [1 # 10; 9 # 10; 2 # 10] in
  (genome_mutate_gaussian (inr [1; 1; 2]) (Some (3 # 2)) (BScalar (Fin 0) (Fin 5)) 1 0 us [-1; 3] [1 # 2; 7; 1])%Q
    = Ok ([-1 # 2; 7; 7], [Fin 0; Fin 5; Fin 5])%Q /\
  individual_mutate_randint [(0, 3); (0, 1); (5, 9)]%Z None (Some (1 # 2)) us [7; 13; 0]%Z [0; 1; 5]%Z
    = Ok [3; 1; 8]%Z /\
  option_map (fun r => snd r) (match genome_mutate_binomial (BEach [(0, 3); (0, 1); (5, 9)]%Z) None (Some (1 # 2)) us
    [3; 1]%Z [5; 0]%Z [0; 1; 5]%Z with Ok r => Some r | Err _ => None end) = Some [0; 1; 6]%Z.
Proof. vm_compute. auto. Qed.
