(** C95: what crossover alone can never make, and what one mutation can always make. *)
From Verif Require Import Model.Base Model.Scalar Model.Variation Model.Heap Model.Pipeline Model.HeapEa Model.Executable
  Spec.Variation Spec.Heap Spec.HeapEa Spec.HeapRuns Spec.Reach Proofs.Reach.
From Coq Require Import Lqa.

(** Whole runs with crossover but no mutation: no gene ever appears at a place where no starting individual had it. *)
Theorem C95_no_new_genes :
  forall G P (decoder_of : nat -> option (list G -> result P)) (problem_of : nat -> phen_value G P -> result num)
    n problem decoder robust maximize coin k_elites max_generations size operators pick stop initialize pop_size start
    (w : world G P num),
  (forall i, breeds_with (crossing n) (operators i)) ->
  robust = true \/ (forall g, length g = n -> exists f, score (decoder_of decoder) (problem_of problem) g = Ok f) ->
  (forall i w l k, l <> [] -> pick i w l k < length l) ->
  (forall k, k < pop_size -> length (initialize k) = n) -> 1 <= pop_size -> 1 <= size ->
  exists final w' earlier gc',
    heap_ea decoder_of problem_of maximize coin max_generations k_elites size operators pick stop
      initialize problem decoder robust pop_size start w = Some (Ok (final, w', earlier), gc') /\
    ((forall i w l, stop i w l = false) -> length earlier = Z.to_nat (max_generations - start)) /\
    forall p i, In p (earlier ++ [final]) -> In i p ->
      length (genes w' i) = n /\ stems_from pop_size initialize (genes w' i) /\
      i_fitness (w_ind w' i) = Some (outcome NNan (score (decoder_of decoder) (problem_of problem) (genes w' i))).
Proof. exact @crossover_run. Qed.
Print Assumptions C95_no_new_genes.

(** One bit-flip mutation can turn any bit string into any other, unless flipping is certain ... *)
Theorem C95_bitflip :
  forall expected probability p g h,
  rate_is expected probability (length g) p -> (0 < p)%Q -> (p < 1)%Q -> binary g -> binary h -> length h = length g ->
  exists us, length us = length g /\ unit_draws us /\ genome_mutate_bitflip expected probability us g = Ok h.
Proof. exact bitflip_reaches. Qed.
Print Assumptions C95_bitflip.

(** ... in which case only the complement is possible. *)
Theorem C95_certain_flip :
  forall expected probability p us g h,
  rate_is expected probability (length g) p -> (p == 1)%Q -> binary g -> length us = length g -> unit_draws us ->
  genome_mutate_bitflip expected probability us g = Ok h ->
  forall i x, nth_error g i = Some x -> nth_error h i = Some (1 - x)%Z.
Proof. exact bitflip_certain. Qed.
Print Assumptions C95_certain_flip.

(** One random-integer mutation can turn any genome into any genome within the bounds. *)
Theorem C95_randint :
  forall bs expected probability p g h,
  rate_is expected probability (length g) p -> (0 < p)%Q -> (p <= 1)%Q -> length g = length bs -> int_box bs h ->
  exists us ds, length us = length g /\ unit_draws us /\ length ds = length g /\
    individual_mutate_randint bs expected probability us ds g = Ok h.
Proof. exact randint_reaches. Qed.
Print Assumptions C95_randint.

(** One Gaussian mutation can turn any genome into any genome within the bounds. *)
Theorem C95_gaussian :
  forall stds expected b slope intercept g h p,
  bounds_fit b (length g) ->
  (forall i low high, bound_at b i = Some (low, high) -> ext_le low high) ->
  match stds with inl s => (0 < s)%Q | inr l => length l = length g /\ Forall (fun s => 0 < s)%Q l end ->
  ~ (slope == 0)%Q ->
  match expected with None => p == 1 | Some e => length g <> 0%nat /\ p * inject_Z (Z.of_nat (length g)) == e end%Q ->
  (0 < p)%Q -> (p <= 1)%Q -> length h = length g -> in_bounds ext_le b (map Fin h) ->
  exists us noise inplace g', length us = length g /\ unit_draws us /\ length noise = length g /\
    genome_mutate_gaussian stds expected b slope intercept us noise g = Ok (inplace, g') /\ Forall2 holds_value g' h.
Proof. exact gaussian_reaches. Qed.
Print Assumptions C95_gaussian.

Example C95_example :
  let ops := [OpEval; nary_op (fun _ => false) 1 (fun _ => [1]); ux_op (fun _ => false) (fun k => [false; Nat.even k; false]); OpClone] in
  breeds_with (crossing 3) ops /\
  match heap_ea no_decoder ex_sum_problem true (fun _ _ _ => true) 2 1 2 (fun _ => ops) (fun _ _ l k => k mod length l) (fun _ _ _ => false)
          ex_start 0 0 false 2 0 ex_world with
  | Some (Ok (final, w', _), _) => map (genes w') final = [[3; 1; 2]; [3; 1; 2]]%Z
  | _ => False
  end.
Proof.
  split; [|vm_compute; reflexivity].
  exists [nary_op (fun _ => false) 1 (fun _ => [1]); ux_op (fun _ => false) (fun k => [false; Nat.even k; false])].
  split; [reflexivity|]. constructor; [|constructor; [|constructor]].
  - apply crossing_points; [repeat constructor|]. intros k. split; [reflexivity|repeat constructor].
  - apply crossing_uniform. reflexivity.
Qed.

Example C95_mutation_example :
  genome_mutate_bitflip (Some 1%Q) None [(1 # 3); 0; (1 # 3)]%Q [1; 0; 0]%Z = Ok [1; 1; 0]%Z /\
  rate_is (Some 1%Q) None 3 (1 # 3) /\
  individual_mutate_randint ex_int_bounds (Some 1%Q) None [0; 0]%Q [7; 1]%Z [0; 0]%Z = Ok [7; -4]%Z /\
  int_box ex_int_bounds [7; -4]%Z.
Proof.
  split; [vm_compute; reflexivity|]. split; [right; exists 1%Q; repeat split; discriminate|].
  split; [vm_compute; reflexivity|]. repeat (apply Forall2_cons || apply Forall2_nil); split; discriminate.
Qed.
