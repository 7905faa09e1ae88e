(** C91: whole runs in the standard representations never leave the search space. *)
From Verif Require Import Model.Base Model.Scalar Model.Counters Model.Variation Model.Heap Model.Pipeline Model.Executable Model.Transfer
  Model.Cgp Model.HeapEa Spec.Variation Spec.Heap Spec.HeapEa Spec.Executable Spec.HeapRuns Proofs.HeapRuns.
From Verif Require Spec.Cgp.

Theorem C91_integer_runs :
  forall P (decoder_of : nat -> option (list Z -> result P)) (problem_of : nat -> phen_value Z P -> result num)
    bs ds problem decoder robust maximize coin k_elites max_generations size operators pick stop initialize pop_size start
    (w : world Z P num),
  1 <= length bs -> Forall (fun b => fst b <= snd b)%Z bs ->
  (forall i, breeds_with (int_variation bs) (operators i)) ->
  robust = true \/ (forall g, int_box bs g -> exists f, score (decoder_of decoder) (problem_of problem) g = Ok f) ->
  (forall i w l k, l <> [] -> pick i w l k < length l) ->
  (forall k, length bs <= length (ds k) /\ create_int_vector bs (ds k) = Ok (initialize k)) -> 1 <= pop_size -> 1 <= size ->
  exists final w' earlier gc',
    heap_ea decoder_of problem_of maximize coin max_generations k_elites size operators pick stop
      initialize problem decoder robust pop_size start w = Some (Ok (final, w', earlier), gc') /\
    ((forall i w l, stop i w l = false) -> length earlier = Z.to_nat (max_generations - start)) /\
    forall p i, In p (earlier ++ [final]) -> In i p -> int_box bs (genes w' i) /\
      i_fitness (w_ind w' i) = Some (outcome NNan (score (decoder_of decoder) (problem_of problem) (genes w' i))).
Proof. exact @int_run. Qed.
Print Assumptions C91_integer_runs.

Theorem C91_real_runs :
  forall P (decoder_of : nat -> option (list Q -> result P)) (problem_of : nat -> phen_value Q P -> result num)
    bs us problem decoder robust maximize coin k_elites max_generations size operators pick stop pop_size start
    (w : world Q P num),
  1 <= length bs -> Forall (fun b => fst b <= snd b)%Q bs ->
  (forall i, breeds_with (real_variation bs) (operators i)) ->
  robust = true \/ (forall g, real_box bs g -> exists f, score (decoder_of decoder) (problem_of problem) g = Ok f) ->
  (forall i w l k, l <> [] -> pick i w l k < length l) ->
  (forall k, length (us k) = length bs /\ unit_draws (us k)) -> 1 <= pop_size -> 1 <= size ->
  exists final w' earlier gc',
    heap_ea decoder_of problem_of maximize coin max_generations k_elites size operators pick stop
      (fun k => create_real_vector bs (us k)) problem decoder robust pop_size start w = Some (Ok (final, w', earlier), gc') /\
    ((forall i w l, stop i w l = false) -> length earlier = Z.to_nat (max_generations - start)) /\
    forall p i, In p (earlier ++ [final]) -> In i p -> real_box bs (genes w' i) /\
      i_fitness (w_ind w' i) = Some (outcome NNan (score (decoder_of decoder) (problem_of problem) (genes w' i))).
Proof. exact @real_run. Qed.
Print Assumptions C91_real_runs.

Theorem C91_cgp_truth_table_runs :
  forall d : decoder Z, Spec.Cgp.proper d -> (1 <= c_back d)%Z ->
  (forall p, In p (c_prims d) -> forall args, exists v, p_call p args = Ok v) ->
  forall prune left function (pad : bool) n, 0 < n -> (if pad then n <= c_inputs d else n = c_inputs d) ->
  (forall i, bit_vector n i -> exists e, function i = Ok e /\ e <> []) ->
  forall ds maximize coin k_elites max_generations size operators pick stop initialize pop_size start
    (w : world Z (graph Z) num),
  (forall i, breeds_with (int_variation (bounds d)) (operators i)) ->
  (forall i w l k, l <> [] -> pick i w l k < length l) ->
  (forall k, num_genes d <= length (ds k) /\ create_cgp_vector d (ds k) = Ok (initialize k)) -> 1 <= pop_size -> 1 <= size ->
  exists final w' earlier gc',
    heap_ea (cgp_decoder d prune) (truth_table_problem (c_inputs d) (c_outputs d) left function pad n)
      maximize coin max_generations k_elites size operators pick stop
      initialize 0 0 false pop_size start w = Some (Ok (final, w', earlier), gc') /\
    ((forall i w l, stop i w l = false) -> length earlier = Z.to_nat (max_generations - start)) /\
    (forall p i, In p (earlier ++ [final]) -> In i p ->
       Spec.Cgp.within (genes w' i) (bounds d) /\
       exists k q, solves d function pad n (genes w' i) k /\ i_fitness (w_ind w' i) = Some (NFlt true (Fin q)) /\
         (q == inject_Z (Z.of_nat k) / inject_Z (Z.of_nat (2 ^ n)))%Q) /\
    (maximize = true -> 1 <= k_elites -> (Z.of_nat (2 ^ n) < 1000000000)%Z ->
     forall j1 j2 p1 p2, j1 <= j2 ->
       nth_error (earlier ++ [final]) j1 = Some p1 -> nth_error (earlier ++ [final]) j2 = Some p2 ->
       forall x k, In x p1 -> solves d function pad n (genes w' x) k ->
       exists y k', In y p2 /\ solves d function pad n (genes w' y) k' /\ k <= k').
Proof. exact @cgp_run. Qed.
Print Assumptions C91_cgp_truth_table_runs.

(** integers: two genes in 0..9 and -5..5 *)
Example C91_integer_example :
  let ops := [OpEval; nary_op (fun _ => false) 1 (fun _ => [1]);
              randint_op ex_int_bounds 1 (fun k => [(9 # 10); (1 # 10)]%Q) (fun k => [10 - Z.of_nat k; 8]%Z); OpClone] in
  breeds_with (int_variation ex_int_bounds) ops /\
  match heap_ea no_decoder ex_sum_problem true (fun _ _ _ => true) 2 1 2 (fun _ => ops) (fun _ _ l k => k mod length l) (fun _ _ _ => false)
          (fun k => [Z.of_nat k; 2]%Z) 0 0 false 2 0 ex_world with
  | Some (Ok (final, w', _), _) => map (genes w') final = [[1; 5]; [1; 4]]%Z /\ map (fun i => i_fitness (w_ind w' i)) final = [Some (NInt 6); Some (NInt 5)]
  | _ => False
  end.
Proof.
  split; [|vm_compute; split; reflexivity].
  exists [nary_op (fun _ => false) 1 (fun _ => [1]);
              randint_op ex_int_bounds 1 (fun k => [(9 # 10); (1 # 10)]%Q) (fun k => [10 - Z.of_nat k; 8]%Z)].
  split; [reflexivity|]. constructor; [|constructor; [|constructor]].
  - apply int_crossing, crossing_points; [cbn; repeat constructor|]. intros k. split; [reflexivity|repeat constructor].
  - apply int_randint; [discriminate|discriminate|]. intros k. split; [reflexivity|cbn; repeat constructor].
Qed.

(** reals: one gene in -1..1, moved by 3 and clipped *)
Example C91_real_example :
  let ops := [OpEval; gaussian_op (inl 1%Q) None [((-1)%Q, 1%Q)] 1 0 (fun _ => [0%Q]) (fun _ => [3%Q]); OpClone] in
  breeds_with (real_variation [((-1)%Q, 1%Q)]) ops /\
  match heap_ea (fun _ => None) ex_first_problem true (fun _ _ _ => true) 1 0 1 (fun _ => ops) (fun _ _ l k => k mod length l) (fun _ _ _ => false)
          (fun k => create_real_vector [((-1)%Q, 1%Q)] [(1 # 2)%Q]) 0 0 false 1 0 ex_real_world with
  | Some (Ok (final, w', earlier), _) => map (map (genes w')) (earlier ++ [final]) = [[[(0 # 2)%Q]]; [[1%Q]]]
  | _ => False
  end.
Proof.
  split; [|vm_compute; reflexivity].
  exists [gaussian_op (inl 1%Q) None [((-1)%Q, 1%Q)] 1 0 (fun _ => [0%Q]) (fun _ => [3%Q])].
  split; [reflexivity|]. constructor; [|constructor].
  apply real_gaussian with (p := 1%Q); [discriminate|reflexivity|]. intros k. split; reflexivity.
Qed.

(** one node, and/or/xor, learning xor: the initial or has three rows right, its mutated copy all four *)
Example C91_cgp_example :
  let ops := [OpEval; randint_op (bounds ex_logic) 1 (fun k => [(1 # 10); 1; 1; 1]%Q) (fun k => [2; 0; 0; 0]%Z); OpClone] in
  breeds_with (int_variation (bounds ex_logic)) ops /\
  match heap_ea (cgp_decoder ex_logic true) (truth_table_problem 2 1 (fun _ _ _ => None) ex_xor false 2)
          true (fun _ _ _ => true) 1 1 1 (fun _ => ops) (fun _ _ l k => k mod length l) (fun _ _ _ => false)
          (fun k => [1; 0; 1; 2]%Z) 0 0 false 1 0 ex_cgp_world with
  | Some (Ok (final, w', earlier), _) =>
      map (map (genes w')) (earlier ++ [final]) = [[[1; 0; 1; 2]]; [[2; 0; 1; 2]]]%Z /\
      map (map (fun i => i_fitness (w_ind w' i))) (earlier ++ [final]) = [[Some (NFlt true (Fin (3 # 4)))]; [Some (NFlt true (Fin (4 # 4)))]]
  | _ => False
  end.
Proof.
  split; [|vm_compute; split; reflexivity].
  exists [randint_op (bounds ex_logic) 1 (fun k => [(1 # 10); 1; 1; 1]%Q) (fun k => [2; 0; 0; 0]%Z)].
  split; [reflexivity|]. constructor; [|constructor].
  apply int_randint; [discriminate|discriminate|]. intros k. split; [reflexivity|cbn; repeat constructor].
Qed.
