(** C97: island runs as a whole, on mutable individuals. *)
From Verif Require Import Model.Base Model.Scalar Model.Counters Model.Heap Model.Pipeline Model.HeapIslands
  Spec.Heap Spec.HeapEa Spec.HeapIslands Proofs.HeapIslands.

Theorem C97_island_runs :
  forall G P (decoder_of : nat -> option (list G -> result P)) (problem_of : nat -> phen_value G P -> result num)
    direction (D : list G -> Prop) island_problem decoder robust initialize,
  (forall i k, D (initialize i k)) ->
  forall stamps, stamps = true \/ (forall i j, island_problem i = island_problem j) ->
  forall replace coin sponsor draw neighbors gap size operators pick,
  (forall g i, clone_vary_evaluate (operators g i) /\ Forall (stays_within D) (operators g i)) ->
  forall max_generations stop n pop_size w final w' earlier gc',
  heap_islands decoder_of problem_of direction island_problem decoder robust initialize stamps replace coin sponsor draw
    neighbors gap max_generations size operators pick stop n pop_size w = Some (Ok (final, w', earlier), gc') ->
  let recorded := earlier ++ [(w', final)] in
  gc_curr gc' = Z.of_nat (length earlier) /\ gc_ctx gc' = gc_curr gc' /\ untouched w w' /\
  (exists w1 init later, recorded = (w1, init) :: later /\ map (@length nat) init = repeat pop_size n /\
     Forall (fun s => map (@length nat) (snd s) = repeat size n) later) /\
  NoDup (everybody recorded) /\ NoDup (map (fun x => i_genome (w_ind w' x)) (everybody recorded)) /\
  forall ws pops i p x, In (ws, pops) recorded -> nth_error pops i = Some p -> In x p ->
    w_ind w' x = w_ind ws x /\ genes w' x = genes ws x /\ D (genes w' x) /\
    i_problem (w_ind w' x) = island_problem i /\ i_decoder (w_ind w' x) = decoder /\
    i_fitness (w_ind w' x) = Some (outcome NNan (score (decoder_of decoder) (problem_of (island_problem i)) (genes w' x))).
Proof. exact @island_run. Qed.
Print Assumptions C97_island_runs.

Theorem C97_run_completes :
  forall G P (decoder_of : nat -> option (list G -> result P)) (problem_of : nat -> phen_value G P -> result num)
    direction (D : list G -> Prop) island_problem decoder robust initialize,
  (forall i k, D (initialize i k)) ->
  forall stamps, stamps = true \/ (forall i j, island_problem i = island_problem j) ->
  forall replace coin sponsor draw neighbors gap size operators pick,
  (forall g i, clone_vary_evaluate (operators g i) /\ Forall (stays_within D) (operators g i)) ->
  forall max_generations stop,
  robust = true \/
    (forall i g, D g -> exists f, score (decoder_of decoder) (problem_of (island_problem i)) g = Ok f) ->
  (forall g i, Forall (works_on D) (operators g i)) ->
  (forall g i w l k, l <> [] -> pick g i w l k < length l) ->
  (forall g i k w l, l <> [] -> replace g i k w l < length l) ->
  (forall g i w l, l <> [] -> sponsor g i w l < length l) ->
  gap <> 0%Z -> 1 <= size ->
  forall n, (forall g i, i < n -> draw g i < length (neighbors i)) ->
  (forall i j, i < n -> In j (neighbors i) -> j < n) ->
  forall pop_size w, 1 <= pop_size ->
  exists final w' earlier gc',
    heap_islands decoder_of problem_of direction island_problem decoder robust initialize stamps replace coin sponsor draw
      neighbors gap max_generations size operators pick stop n pop_size w = Some (Ok (final, w', earlier), gc') /\
    ((forall i w l, stop i w l = false) -> length earlier = Z.to_nat max_generations).
Proof. exact @island_run_works. Qed.
Print Assumptions C97_run_completes.

Theorem C97_own_problem_refuted :
  exists island_problem stop final w' earlier gc' i p x,
    heap_islands no_decoder two_problems (fun _ => true) island_problem 0 false ex_island_init false
      (fun _ _ _ => ex_at 0) (fun _ _ _ => true) (fun _ _ => ex_at 0) (fun _ _ => 0) other_island 1 1 1 ex_island_ops
      (fun _ _ _ _ _ => 0) stop 2 1 ex_world = Some (Ok (final, w', earlier), gc') /\
    nth_error final i = Some p /\ In x p /\ i_problem (w_ind w' x) <> island_problem i /\
    i_fitness (w_ind w' x) = Some (NInt 3) /\
    score (no_decoder 0) (two_problems (island_problem i)) (genes w' x) = Ok (NInt 0).
Proof. exact foreign_problem. Qed.
Print Assumptions C97_own_problem_refuted.

Example C97_example :
  match heap_islands no_decoder max_ones_problem (fun _ => true) (fun _ => 0) 0 false ex_island_init false
          (fun _ _ _ => ex_at 0) (fun _ _ _ => true) (fun _ _ => ex_at 1) (fun _ _ => 0) other_island 1 2 2 ex_island_ops1
          (fun _ _ _ _ k => k mod 2) (fun _ _ _ => false) 2 2 ex_world with
  | Some (Ok (final, w', earlier), gc') =>
      map (fun s => map (map (genes w')) (snd s)) earlier =
        [[[[1; 1; 1]; [1; 1; 1]]; [[0; 0; 0]; [0; 0; 0]]]; [[[0; 1; 1]; [0; 1; 1]]; [[0; 1; 1]; [0; 0; 0]]]]%Z /\
      map (map (genes w')) final = [[[1; 1; 1]; [1; 1; 1]]; [[1; 1; 1]; [0; 0; 0]]]%Z /\
      map (map (fun i => i_fitness (w_ind w' i))) final = [[Some (NInt 3); Some (NInt 3)]; [Some (NInt 3); Some (NInt 0)]]
  | _ => False
  end.
Proof. vm_compute. repeat split. Qed.

Example C97_stamped_example :
  match heap_islands no_decoder two_problems (fun _ => true) (fun i => i) 0 false ex_island_init true
          (fun _ _ _ => ex_at 0) (fun _ _ _ => true) (fun _ _ => ex_at 0) (fun _ _ => 0) other_island 1 2 1 ex_island_ops
          (fun _ _ _ _ _ => 0) (fun _ _ _ => false) 2 1 ex_world with
  | Some (Ok (final, w', earlier), gc') =>
      map (map (genes w')) final = [[[1; 1; 1]]; [[0; 0; 0]]]%Z /\
      map (map (fun i => (i_problem (w_ind w' i), i_fitness (w_ind w' i)))) final = [[(0, Some (NInt 3))]; [(1, Some (NInt 3))]]
  | _ => False
  end.
Proof. vm_compute. repeat split. Qed.
