(** C116: the odds that an elitist run is late. *)
From Verif Require Import Model.Base Model.Scalar Model.Counters Model.Heap Model.Pipeline Model.HeapEa Model.Variation
  Spec.Order Spec.Heap Spec.HeapEa Spec.Variation Spec.Problems Spec.Odds Spec.Chances Spec.Search Spec.Levels Proofs.Tails.
Local Open Scope nat_scope.
Local Open Scope list_scope.

(** Of all the ways T + 1 generations can turn out, the share that has not reached level m after T generations is at most
    the sum over the levels divided by T + 1. *)
Theorem C116_late :
  forall G P X (decoder_of : nat -> option (list G -> result P)) (problem_of : nat -> phen_value G P -> result num)
    (D : list G -> Prop) problem decoder robust (mutator : X -> list G -> result (list G * option (list G))) x0
    maximize coin k_elites size pop_size pick alphabet (level : list G -> nat) m (s : nat -> nat),
  NoDup alphabet -> In x0 alphabet ->
  (forall x g, In x alphabet -> D g -> exists r, mutator x g = Ok r /\ D (outcome_of r)) ->
  (forall g, D g -> level g < m -> 1 <= s (level g) /\
     exists c, counts (fun x => exists r, mutator x g = Ok r /\ level g < level (outcome_of r)) alphabet c /\ s (level g) <= c) ->
  robust = true \/ (forall g, D g -> exists f, score (decoder_of decoder) (problem_of problem) g = Ok f) ->
  (forall g g', D g -> D g' -> level g < level g' ->
     better maximize (outcome NNan (score (decoder_of decoder) (problem_of problem) g'))
       (outcome NNan (score (decoder_of decoder) (problem_of problem) g))) ->
  (forall g g' m, D g -> D g' ->
     let f := outcome NNan (score (decoder_of decoder) (problem_of problem) g) in
     let f' := outcome NNan (score (decoder_of decoder) (problem_of problem) g') in
     blurred f f' -> ~ better m f f') ->
  (forall i w l k, l <> [] -> pick i w l k < length l) ->
  (forall i w l p q, length l = pop_size \/ length l = size ->
     nth_error l (pick i w l 0) = Some p -> In q l -> level (genes w q) <= level (genes w p)) ->
  1 <= k_elites -> 1 <= size -> 1 <= pop_size ->
  forall initialize start (w : world G P num) T l i0,
  (forall k, D (initialize k)) -> (forall k, i0 <= level (initialize k)) -> all_tables alphabet size (S T) l ->
  exists late, counts (fun t => ~ reaches level m
      (heap_ea decoder_of problem_of maximize coin (start + Z.of_nat T) k_elites size
         (fun i => search_pipeline mutator x0 (nth i (firstn T t) [])) pick (fun _ _ _ => false)
         initialize problem decoder robust pop_size start w)) l late /\
    (inject_Z (Z.of_nat late) * inject_Z (Z.of_nat (S T)) <= inject_Z (Z.of_nat (length l)) * level_sum (length alphabet) s i0 m)%Q.
Proof. exact late_levels. Qed.
Print Assumptions C116_late.

Theorem C116_late_max_ones :
  forall coin k_elites pick n N c expected probability p alphabet x0,
  rate_is expected probability n p -> (0 <= p)%Q -> (p <= 1)%Q ->
  counts (fun k => inject_Z (Z.of_nat k) / inject_Z (Z.of_nat N) < p)%Q (seq 0 N) c -> 1 <= c -> c < N ->
  all_draws N n alphabet -> In x0 alphabet ->
  (forall i w l k, l <> [] -> pick i w l k < length l) -> 1 <= k_elites ->
  forall initialize start (w : world Z unit num) T l i0,
  (forall k, bit_string n (initialize k)) -> (forall k, i0 <= ones (initialize k)) -> all_tables alphabet 1 (S T) l ->
  exists late, counts (fun t => ~ reaches ones n
      (heap_ea no_decoder max_ones_problem true coin (start + Z.of_nat T) k_elites 1
         (fun i => search_pipeline (grid_flip expected probability N) x0 (nth i (firstn T t) [])) pick (fun _ _ _ => false)
         initialize 0 0 false 1 start w)) l late /\
    (inject_Z (Z.of_nat late) * inject_Z (Z.of_nat (S T)) <=
     inject_Z (Z.of_nat (length l)) * (inject_Z (Z.of_nat (N ^ n)) / inject_Z (Z.of_nat (c * (N - c) ^ (n - 1))) * harmonic (n - i0)))%Q.
Proof. exact late_max_ones. Qed.
Print Assumptions C116_late_max_ones.

(** Example (under the conditions of C116_conditions): from 01 the sum is 4, so of the 4^5 ways at most 4/5 are late after four
    generations; 324 of 1024 are. *)
Example C116_late_example :
  length ex_tables5 = 4 ^ 5 /\ forallb (fun t => length t =? 5) ex_tables5 = true /\
  (inject_Z (Z.of_nat (2 ^ 2)) / inject_Z (Z.of_nat (1 * (2 - 1) ^ (2 - 1))) * harmonic (2 - 1) == 4)%Q /\
  length (filter (fun t => match ex_last (ex_search 1 [0; 1]%Z (firstn 4 t)) with [Some (NInt 2)] => false | _ => true end) ex_tables5) = 324.
Proof. split; [vm_compute; reflexivity|]. split; [vm_compute; reflexivity|]. split; vm_compute; reflexivity. Qed.
