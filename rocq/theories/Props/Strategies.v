(** C117: the evolution programs of the examples whose parents compete with a brood, as wholes. *)
From Coq Require Import Permutation.
From Verif Require Import Model.Base Model.Scalar Model.Counters Model.Heap Model.Pipeline Model.HeapEa Model.Strategies
  Spec.Order Spec.Heap Spec.HeapEa Spec.Odds Spec.Search Spec.Strategies Proofs.Strategies Proofs.Broods.

Theorem C117_whole_run :
  forall G P (decoder_of : nat -> option (list G -> result P)) (problem_of : nat -> phen_value G P -> result num)
    (D : list G -> Prop) problem decoder maximize coin mode max_generation brood (operators : nat -> Q -> list (op G)) pick callbacks,
  (forall i s, clone_vary_evaluate (operators i s) /\ Forall (stays_within D) (operators i s)) ->
  forall initialize pop_size std w final w' earlier used gc',
  (forall k, D (initialize k)) ->
  strategy decoder_of problem_of maximize coin max_generation brood mode operators pick callbacks
    initialize problem decoder pop_size std w = Some (Ok (final, w', earlier, used), gc') ->
  let pops := earlier ++ [final] in
  length used = length earlier /\ gc_curr gc' = Z.of_nat (length earlier) /\ gc_ctx gc' = gc_curr gc' /\
  untouched w w' /\
  (forall p, In p pops -> length p = pop_size) /\
  (forall p, In p pops \/ In p (map snd used) -> NoDup p /\ NoDup (map (fun i => i_genome (w_ind w' i)) p) /\
    forall i, In i p -> D (genes w' i) /\
      i_problem (w_ind w' i) = problem /\ i_decoder (w_ind w' i) = decoder /\
      i_fitness (w_ind w' i) = Some (outcome NNan (score (decoder_of decoder) (problem_of problem) (genes w' i)))) /\
  (forall j s o p q, nth_error used j = Some (s, o) -> nth_error pops j = Some p -> nth_error pops (S j) = Some q ->
    length o = pop_size * brood /\ (forall x, In x o -> forall k p', k <= j -> nth_error pops k = Some p' -> ~ In x p') /\
    incl q (o ++ p)) /\
  (forall s o, nth_error used 0 = Some (s, o) -> s = std) /\
  (forall j s s' o o', nth_error used j = Some (s, o) -> nth_error used (S j) = Some (s', o') ->
    s' = fold_left (fun r f => f (Z.of_nat (S j)) r) callbacks s).
Proof. exact @whole_run. Qed.
Print Assumptions C117_whole_run.

(** parents and brood together, the best go on *)
Theorem C117_plus_generation :
  forall G P (decoder_of : nat -> option (list G -> result P)) (problem_of : nat -> phen_value G P -> result num)
    (D : list G -> Prop) problem decoder maximize coin max_generation brood (operators : nat -> Q -> list (op G)) pick callbacks,
  (forall i s, clone_vary_evaluate (operators i s) /\ Forall (stays_within D) (operators i s)) ->
  forall initialize pop_size std w final w' earlier used gc',
  (forall k, D (initialize k)) ->
  (forall g h m, D g -> D h ->
     let f := outcome NNan (score (decoder_of decoder) (problem_of problem) g) in
     let f' := outcome NNan (score (decoder_of decoder) (problem_of problem) h) in
     blurred f f' -> ~ better m f f') ->
  strategy decoder_of problem_of maximize coin max_generation brood Plus operators pick callbacks
    initialize problem decoder pop_size std w = Some (Ok (final, w', earlier, used), gc') ->
  forall j s o p q, nth_error used j = Some (s, o) ->
    nth_error (earlier ++ [final]) j = Some p -> nth_error (earlier ++ [final]) (S j) = Some q ->
  length q = length p /\ exists rest, Permutation (o ++ p) (q ++ rest) /\
    forall kept dropped, In kept q -> In dropped rest ->
      ~ better maximize (outcome NNan (score (decoder_of decoder) (problem_of problem) (genes w' dropped)))
                        (outcome NNan (score (decoder_of decoder) (problem_of problem) (genes w' kept))).
Proof. exact @plus_generation. Qed.
Print Assumptions C117_plus_generation.

(** however high the bar, the number of members that clear it never falls *)
Theorem C117_plus_never_falls :
  forall G P (decoder_of : nat -> option (list G -> result P)) (problem_of : nat -> phen_value G P -> result num)
    (D : list G -> Prop) problem decoder maximize coin max_generation brood (operators : nat -> Q -> list (op G)) pick callbacks,
  (forall i s, clone_vary_evaluate (operators i s) /\ Forall (stays_within D) (operators i s)) ->
  forall initialize pop_size std w final w' earlier used gc',
  (forall k, D (initialize k)) ->
  (forall g h m, D g -> D h ->
     let f := outcome NNan (score (decoder_of decoder) (problem_of problem) g) in
     let f' := outcome NNan (score (decoder_of decoder) (problem_of problem) h) in
     blurred f f' -> ~ better m f f') ->
  strategy decoder_of problem_of maximize coin max_generation brood Plus operators pick callbacks
    initialize problem decoder pop_size std w = Some (Ok (final, w', earlier, used), gc') ->
  forall f j1 j2 p1 p2 c1 c2, j1 <= j2 ->
  nth_error (earlier ++ [final]) j1 = Some p1 -> nth_error (earlier ++ [final]) j2 = Some p2 ->
  counts (fun i => ~ better maximize f (outcome NNan (score (decoder_of decoder) (problem_of problem) (genes w' i)))) p1 c1 ->
  counts (fun i => ~ better maximize f (outcome NNan (score (decoder_of decoder) (problem_of problem) (genes w' i)))) p2 c2 ->
  c1 <= c2.
Proof. exact @plus_never_falls. Qed.
Print Assumptions C117_plus_never_falls.

(** nobody that ever lived is better than the best of the last population *)
Theorem C117_plus_keeps_best :
  forall G P (decoder_of : nat -> option (list G -> result P)) (problem_of : nat -> phen_value G P -> result num)
    (D : list G -> Prop) problem decoder maximize coin max_generation brood (operators : nat -> Q -> list (op G)) pick callbacks,
  (forall i s, clone_vary_evaluate (operators i s) /\ Forall (stays_within D) (operators i s)) ->
  forall initialize pop_size std w final w' earlier used gc',
  (forall k, D (initialize k)) ->
  (forall g h m, D g -> D h ->
     let f := outcome NNan (score (decoder_of decoder) (problem_of problem) g) in
     let f' := outcome NNan (score (decoder_of decoder) (problem_of problem) h) in
     blurred f f' -> ~ better m f f') ->
  1 <= pop_size ->
  strategy decoder_of problem_of maximize coin max_generation brood Plus operators pick callbacks
    initialize problem decoder pop_size std w = Some (Ok (final, w', earlier, used), gc') ->
  forall x, (exists p, In p (earlier ++ [final]) /\ In x p) \/ (exists s o, In (s, o) used /\ In x o) ->
  exists y, In y final /\ ~ better maximize (outcome NNan (score (decoder_of decoder) (problem_of problem) (genes w' x)))
                                            (outcome NNan (score (decoder_of decoder) (problem_of problem) (genes w' y))).
Proof. exact @plus_keeps_best. Qed.
Print Assumptions C117_plus_keeps_best.

(** with insertion, one slot per generation and the first child only *)
Theorem C117_insert_generation :
  forall G P (decoder_of : nat -> option (list G -> result P)) (problem_of : nat -> phen_value G P -> result num)
    (D : list G -> Prop) problem decoder maximize coin draws max_generation brood (operators : nat -> Q -> list (op G)) pick callbacks,
  (forall i s, clone_vary_evaluate (operators i s) /\ Forall (stays_within D) (operators i s)) ->
  forall initialize pop_size std w final w' earlier used gc',
  (forall k, D (initialize k)) ->
  (forall g h m, D g -> D h ->
     let f := outcome NNan (score (decoder_of decoder) (problem_of problem) g) in
     let f' := outcome NNan (score (decoder_of decoder) (problem_of problem) h) in
     blurred f f' -> ~ better m f f') ->
  strategy decoder_of problem_of maximize coin max_generation brood (Insert draws) operators pick callbacks
    initialize problem decoder pop_size std w = Some (Ok (final, w', earlier, used), gc') ->
  forall j s o p q, nth_error used j = Some (s, o) ->
    nth_error (earlier ++ [final]) j = Some p -> nth_error (earlier ++ [final]) (S j) = Some q ->
  length q = length p /\ exists child, hd_error o = Some child /\
    let worth i := outcome NNan (score (decoder_of decoder) (problem_of problem) (genes w' i)) in
    forall k x, nth_error p k = Some x ->
      (nth_error q k = Some x \/ k = hd 0 (draws j) /\ nth_error q k = Some child) /\
      (k = hd 0 (draws j) -> viable (worth child) -> ~ better maximize (worth x) (worth child) -> nth_error q k = Some child) /\
      (better maximize (worth x) (worth child) -> nth_error q k = Some x).
Proof. exact @insert_generation. Qed.
Print Assumptions C117_insert_generation.

(** so the best of a brood can be lost: C117_plus_keeps_best does not hold for insertion *)
Theorem C117_insert_keeps_best_refuted :
  exists maximize coin brood draws operators pick initialize pop_size (w : world Z unit num),
  (forall i s, clone_vary_evaluate (operators i s) /\ Forall (stays_within (bit_string 2)) (operators i s)) /\
  (forall k, bit_string 2 (initialize k)) /\
  match strategy no_decoder max_ones_problem maximize coin 1 brood (Insert draws) operators pick [] initialize 0 0 pop_size 0 w with
  | Some (Ok (final, w', earlier, used), _) =>
      exists s o x f, In (s, o) used /\ In x o /\ i_fitness (w_ind w' x) = Some f /\
        forall p y f', In p (earlier ++ [final]) -> In y p -> i_fitness (w_ind w' y) = Some f' -> better maximize f f'
  | _ => False
  end.
Proof. exact insert_loses_best. Qed.
Print Assumptions C117_insert_keeps_best_refuted.

Theorem C117_run_completes :
  forall G P (decoder_of : nat -> option (list G -> result P)) (problem_of : nat -> phen_value G P -> result num)
    (D : list G -> Prop) problem decoder maximize coin mode max_generation brood (operators : nat -> Q -> list (op G)) pick callbacks,
  (forall i s, clone_vary_evaluate (operators i s) /\ Forall (stays_within D) (operators i s)) ->
  (forall g, D g -> exists f, score (decoder_of decoder) (problem_of problem) g = Ok f) ->
  forall fine : Q -> Prop,
  (forall f g s, In f callbacks -> fine s -> fine (f g s)) ->
  (forall i s, fine s -> Forall (works_on D) (operators i s)) ->
  (forall i w l k, l <> [] -> pick i w l k < length l) ->
  forall initialize pop_size std w,
  (forall k, D (initialize k)) -> fine std -> 1 <= pop_size -> 1 <= brood ->
  exists final w' earlier used gc',
    strategy decoder_of problem_of maximize coin max_generation brood mode operators pick callbacks
    initialize problem decoder pop_size std w = Some (Ok (final, w', earlier, used), gc') /\
    length earlier = Z.to_nat max_generation.
Proof. exact @run_completes. Qed.
Print Assumptions C117_run_completes.

(** in every generation the k-th child is the mutant of the k-th picked parent, made with that generation's step size *)
Theorem C117_children :
  forall G P (decoder_of : nat -> option (list G -> result P)) (problem_of : nat -> phen_value G P -> result num)
    (D : list G -> Prop) problem decoder maximize coin mode max_generation brood (operators : nat -> Q -> list (op G)) pick callbacks,
  (forall i s, clone_vary_evaluate (operators i s) /\ Forall (stays_within D) (operators i s)) ->
  forall f : nat -> Q -> nat -> list G -> result (list G * option (list G)),
  (forall i s, operators i s = [OpEval; OpMutate (f i s) false; OpClone]) ->
  forall initialize pop_size std w final w' earlier used gc', (forall k, D (initialize k)) ->
  strategy decoder_of problem_of maximize coin max_generation brood mode operators pick callbacks
     initialize problem decoder pop_size std w = Some (Ok (final, w', earlier, used), gc') ->
  forall j s o p, nth_error used j = Some (s, o) -> nth_error (earlier ++ [final]) j = Some p ->
  exists wj, forall k c, nth_error o k = Some c ->
    exists y r, nth_error p (pick j wj p k) = Some y /\ f j s k (genes w' y) = Ok r /\ genes w' c = outcome_of r.
Proof. exact @children_each. Qed.
Print Assumptions C117_children.

(** who goes on, generation by generation; nothing is assumed of the problem's values *)
Theorem C117_replacement :
  forall G P (decoder_of : nat -> option (list G -> result P)) (problem_of : nat -> phen_value G P -> result num)
    (D : list G -> Prop) problem decoder maximize coin mode max_generation brood (operators : nat -> Q -> list (op G)) pick callbacks,
  (forall i s, clone_vary_evaluate (operators i s) /\ Forall (stays_within D) (operators i s)) ->
  forall initialize pop_size std w, (forall k, D (initialize k)) ->
  each_generation (strategy decoder_of problem_of maximize coin max_generation brood mode operators pick callbacks
     initialize problem decoder pop_size std w) (fun w' j o p q =>
    match mode with
    | Plus => sharp (map (worth w') (o ++ p)) -> best_go_on maximize w' o p q
    | Insert draws => one_slot maximize (hd 0 (draws j)) w' o p q
    end).
Proof. exact @rule_each. Qed.
Print Assumptions C117_replacement.

(** the three programs, whatever is drawn *)
Theorem C117_simple_ep :
  forall (testing : bool) coin pick (init : nat -> list Q) (us noise : nat -> nat -> list Q) (w : world Q unit num),
  (forall k, uniform_four (init k)) -> (forall i k, fitting 1 (us i k) (noise i k)) ->
  (forall i w l k, l <> [] -> pick i w l k < length l) ->
  ran (if testing then 2 else 100) 5 (simple_ep testing coin pick init us noise w) (fun _ _ => True).
Proof. exact ep_runs. Qed.
Print Assumptions C117_simple_ep.

Theorem C117_simple_es :
  forall (testing : bool) coin pick (init : nat -> list Q) (us noise : nat -> nat -> list Q) (w : world Q unit num),
  (forall k, uniform_four (init k)) -> (forall i k, fitting (1 # 4) (us i k) (noise i k)) ->
  (forall i w l k, l <> [] -> pick i w l k < length l) ->
  ran (if testing then 2 else 10) 5 (simple_es testing coin pick init us noise w)
    (fun j s => s == 2 * (85 # 100) ^ Z.of_nat j)%Q.
Proof. exact es_runs. Qed.
Print Assumptions C117_simple_es.

Theorem C117_simple_ev :
  forall (testing : bool) coin pick draws (init : nat -> list Q) (us noise : nat -> nat -> list Q) (w : world Q unit num),
  (forall k, uniform_four (init k)) -> (forall i k, fitting (1 # 4) (us i k) (noise i k)) ->
  (forall i w l k, l <> [] -> pick i w l k < length l) ->
  ran (if testing then 2 else 5) 10 (simple_ev testing coin pick draws init us noise w) (fun _ _ => True).
Proof. exact ev_runs. Qed.
Print Assumptions C117_simple_ev.

(** and what each of their generations does *)
Theorem C117_simple_ep_generation :
  forall (testing : bool) coin pick (init : nat -> list Q) (us noise : nat -> nat -> list Q) (w : world Q unit num),
  (forall k, uniform_four (init k)) -> (forall i k, fitting 1 (us i k) (noise i k)) ->
  each_generation (simple_ep testing coin pick init us noise w) (fun w' j brood parents next =>
    bred_by 1 (fun _ => 1 # 10)%Q us noise pick w' j brood parents /\
    (sharp (map (worth w') (brood ++ parents)) -> best_go_on false w' brood parents next)).
Proof. exact ep_each. Qed.
Print Assumptions C117_simple_ep_generation.

Theorem C117_simple_es_generation :
  forall (testing : bool) coin pick (init : nat -> list Q) (us noise : nat -> nat -> list Q) (w : world Q unit num),
  (forall k, uniform_four (init k)) -> (forall i k, fitting (1 # 4) (us i k) (noise i k)) ->
  (forall i w l k, l <> [] -> pick i w l k < length l) ->
  each_generation (simple_es testing coin pick init us noise w) (fun w' j brood parents next =>
    bred_by (1 # 4) (fun j => 2 * (85 # 100) ^ Z.of_nat j)%Q us noise pick w' j brood parents /\
    (sharp (map (worth w') (brood ++ parents)) -> best_go_on false w' brood parents next)).
Proof. exact es_each. Qed.
Print Assumptions C117_simple_es_generation.

Theorem C117_simple_ev_generation :
  forall (testing : bool) coin pick draws (init : nat -> list Q) (us noise : nat -> nat -> list Q) (w : world Q unit num),
  (forall k, uniform_four (init k)) -> (forall i k, fitting (1 # 4) (us i k) (noise i k)) ->
  each_generation (simple_ev testing coin pick draws init us noise w) (fun w' j brood parents next =>
    bred_by (1 # 4) (fun _ => 1 # 10)%Q us noise pick w' j brood parents /\
    one_slot false (hd 0 (draws j)) w' brood parents next).
Proof. exact ev_each. Qed.
Print Assumptions C117_simple_ev_generation.

(** one individual of two bits, broods of two, two generations; the second child of each brood has both bits flipped.  Truncation
    keeps it and then keeps it against its own children, insertion never looks at it. *)
Example C117_example :
  let go mode := strategy no_decoder max_ones_problem true (fun _ _ _ => true) 2 2 mode ex_stages ex_pick [anneal_std]
                   (fun _ => [0; 0]%Z) 0 0 1 2 ex_world in
  match go Plus, go (Insert (fun _ => [0])) with
  | Some (Ok (final, w', earlier, used), gc'), Some (Ok (final2, w2, earlier2, used2), _) =>
      map (map (genes w')) (earlier ++ [final]) = [[[0; 0]]; [[1; 1]]; [[1; 1]]]%Z /\ gc_log gc' = [(0, 1%Z); (0, 2%Z)] /\
      map (fun u => Qred (fst u)) used = [2; 17 # 10]%Q /\ map (fun u => map (genes w') (snd u)) used = [[[0; 0]; [1; 1]]; [[1; 1]; [0; 0]]]%Z /\
      map (map (genes w2)) (earlier2 ++ [final2]) = [[[0; 0]]; [[0; 0]]; [[0; 0]]]%Z
  | _, _ => False
  end.
Proof. vm_compute. repeat split. Qed.
(** draws that the three programs ask for *)
Example C117_draws :
  uniform_four [0; 1 # 2; 1 # 3; 9 # 10]%Q /\ fitting 1 [0; 1 # 2; 1 # 3; 9 # 10]%Q [1; -(1); 0; 2]%Q /\
  fitting (1 # 4) [0; 1 # 2; 1 # 3; 9 # 10]%Q [1]%Q.
Proof. repeat split; repeat constructor; discriminate. Qed.
(** runs of the three: the first gene of each member, generation by generation *)
Example C117_programs :
  ex_heads (simple_ep true (fun _ _ _ => true) ex_cyclic ex_corner ex_real_us (fun _ k => repeat (ex_deviate k) 4) ex_real_world) =
    [repeat (64 # 25) 5; 123 # 50 :: repeat (64 # 25) 4; repeat (123 # 50) 3 ++ repeat (64 # 25) 2]%Q /\
  ex_heads (simple_es true (fun _ _ _ => true) ex_cyclic ex_corner ex_real_us (fun _ k => [ex_deviate k]) ex_real_world) =
    [repeat (64 # 25) 5; 14 # 25 :: repeat (64 # 25) 4; [14 # 25; 14 # 25; 43 # 50; 64 # 25; 64 # 25]]%Q /\
  ex_heads (simple_ev true (fun _ _ _ => true) ex_cyclic (fun _ => [3]) ex_corner ex_real_us (fun i k => [ex_deviate (k + 1 - i)]) ex_real_world) =
    let later := (repeat (64 # 25) 3 ++ 123 # 50 :: repeat (64 # 25) 6)%Q in [repeat (64 # 25)%Q 10; later; later].
Proof. vm_compute. repeat split. Qed.
(** the brood and the parents of the first generation have fitnesses that the tolerance tells apart *)
Example C117_told_apart :
  match simple_ep true (fun _ _ _ => true) ex_cyclic ex_corner ex_real_us (fun _ k => repeat (ex_deviate k) 4) ex_real_world with
  | Some (Ok (_, w', p :: _, (_, o) :: _), _) => sharp (map (worth w') (o ++ p))
  | _ => False
  end.
Proof. exact ep_sharp. Qed.
