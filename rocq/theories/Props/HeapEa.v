(** C90: the generational algorithm as a whole, on mutable individuals. *)
From Verif Require Import Model.Base Model.Scalar Model.Counters Model.Heap Model.Pipeline Model.HeapEa
  Spec.Order Spec.Heap Spec.Problems Spec.HeapEa Proofs.HeapEa.

Theorem C90_whole_run :
  forall G P (decoder_of : nat -> option (list G -> result P)) (problem_of : nat -> phen_value G P -> result num)
    (D : list G -> Prop) problem decoder robust maximize coin k_elites max_generations size operators pick stop,
  (forall i, clone_vary_evaluate (operators i) /\ Forall (stays_within D) (operators i)) ->
  forall initialize pop_size start w final w' earlier gc',
  (forall k, D (initialize k)) ->
  heap_ea decoder_of problem_of maximize coin max_generations k_elites size operators pick stop
    initialize problem decoder robust pop_size start w = Some (Ok (final, w', earlier), gc') ->
  let pops := earlier ++ [final] in
  (exists init later, pops = init :: later /\ length init = pop_size /\ Forall (fun p => length p = size) later) /\
  gc_curr gc' = (start + Z.of_nat (length earlier))%Z /\ gc_ctx gc' = gc_curr gc' /\
  untouched w w' /\
  forall p, In p pops -> NoDup p /\ NoDup (map (fun i => i_genome (w_ind w' i)) p) /\
    forall i, In i p -> D (genes w' i) /\
      i_problem (w_ind w' i) = problem /\ i_decoder (w_ind w' i) = decoder /\
      i_fitness (w_ind w' i) = Some (outcome NNan (score (decoder_of decoder) (problem_of problem) (genes w' i))).
Proof. exact @run_good. Qed.
Print Assumptions C90_whole_run.

Theorem C90_best_never_gets_worse :
  forall G P (decoder_of : nat -> option (list G -> result P)) (problem_of : nat -> phen_value G P -> result num)
    (D : list G -> Prop) problem decoder robust maximize coin k_elites max_generations size operators pick stop,
  (forall i, clone_vary_evaluate (operators i) /\ Forall (stays_within D) (operators i)) ->
  forall initialize pop_size start w final w' earlier gc',
  (forall k, D (initialize k)) -> 1 <= k_elites -> 1 <= size ->
  (forall g h m, D g -> D h ->
     let f := outcome NNan (score (decoder_of decoder) (problem_of problem) g) in
     let f' := outcome NNan (score (decoder_of decoder) (problem_of problem) h) in
     blurred f f' -> ~ better m f f') ->
  heap_ea decoder_of problem_of maximize coin max_generations k_elites size operators pick stop
    initialize problem decoder robust pop_size start w = Some (Ok (final, w', earlier), gc') ->
  forall j1 j2 p1 p2, j1 <= j2 ->
  nth_error (earlier ++ [final]) j1 = Some p1 -> nth_error (earlier ++ [final]) j2 = Some p2 ->
  forall x, In x p1 -> exists y, In y p2 /\
    ~ better maximize (outcome NNan (score (decoder_of decoder) (problem_of problem) (genes w' x)))
                      (outcome NNan (score (decoder_of decoder) (problem_of problem) (genes w' y))).
Proof. exact @run_monotone. Qed.
Print Assumptions C90_best_never_gets_worse.

Theorem C90_run_completes :
  forall G P (decoder_of : nat -> option (list G -> result P)) (problem_of : nat -> phen_value G P -> result num)
    (D : list G -> Prop) problem decoder robust maximize coin k_elites max_generations size operators pick stop,
  (forall i, clone_vary_evaluate (operators i) /\ Forall (stays_within D) (operators i)) ->
  robust = true \/ (forall g, D g -> exists f, score (decoder_of decoder) (problem_of problem) g = Ok f) ->
  (forall i, Forall (works_on D) (operators i)) ->
  (forall i w l k, l <> [] -> pick i w l k < length l) ->
  forall initialize pop_size start w,
  (forall k, D (initialize k)) -> 1 <= pop_size -> 1 <= size ->
  exists final w' earlier gc',
    heap_ea decoder_of problem_of maximize coin max_generations k_elites size operators pick stop
      initialize problem decoder robust pop_size start w = Some (Ok (final, w', earlier), gc') /\
    ((forall i w l, stop i w l = false) -> length earlier = Z.to_nat (max_generations - start)).
Proof. exact @run_works. Qed.
Print Assumptions C90_run_completes.

Theorem C90_bit_string_runs :
  forall n expected us skip masks coin max_generations k_elites size pick stop initialize pop_size start
    (w : world Z unit num),
  1 <= n -> (0 <= expected)%Q -> (expected <= inject_Z (Z.of_nat n))%Q ->
  (forall i k, length (us i k) = n) -> (forall i k, length (masks i k) = n) ->
  (forall i w l k, l <> [] -> pick i w l k < length l) ->
  (forall k, bit_string n (initialize k)) -> 1 <= pop_size -> 1 <= size -> 1 <= k_elites ->
  exists final w' earlier gc',
    heap_ea no_decoder max_ones_problem true coin max_generations k_elites size
      (fun i => bit_pipeline expected (us i) (skip i) (masks i)) pick stop initialize 0 0 false pop_size start w
      = Some (Ok (final, w', earlier), gc') /\
    ((forall i w l, stop i w l = false) -> length earlier = Z.to_nat (max_generations - start)) /\
    (forall p i, In p (earlier ++ [final]) -> In i p ->
       bit_string n (genes w' i) /\ i_fitness (w_ind w' i) = Some (NInt (Z.of_nat (ones (genes w' i))))) /\
    forall j1 j2 p1 p2, j1 <= j2 ->
      nth_error (earlier ++ [final]) j1 = Some p1 -> nth_error (earlier ++ [final]) j2 = Some p2 ->
      forall x, In x p1 -> exists y, In y p2 /\ ones (genes w' x) <= ones (genes w' y).
Proof. exact bit_run. Qed.
Print Assumptions C90_bit_string_runs.

Example C90_example :
  match heap_ea no_decoder max_ones_problem true (fun _ _ _ => true) 2 1 2
          (fun i => bit_pipeline 1 (ex_us i) (fun _ => false) (ex_masks i)) ex_pick (fun _ _ _ => false)
          ex_init 0 0 false 2 0 ex_world with
  | Some (Ok (final, w', earlier), gc') =>
      map (map (genes w')) (earlier ++ [final]) = [[[0; 1; 0]; [0; 0; 1]]; [[1; 0; 1]; [0; 1; 0]]; [[1; 1; 0]; [1; 0; 1]]]%Z
      /\ map (fun i => i_fitness (w_ind w' i)) final = [Some (NInt 2); Some (NInt 2)] /\ gc_curr gc' = 2%Z
  | _ => False
  end.
Proof. vm_compute. repeat split. Qed.
