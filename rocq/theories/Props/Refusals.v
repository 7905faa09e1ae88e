(** C104: exactly which arguments are refused, and with which exception. *)
From Verif Require Import Model.Base Model.PyList Model.Scalar Model.Selection Model.Distrib Model.Exploratory Model.ImageXY Model.Migration Model.Executable
  Model.ExecProbe Model.Rules Model.Pareto Model.Crowding Model.Problems Model.Analysis Model.Counters Model.Heap Model.HeapEa Model.HeapIslands
  Model.Algorithm Model.CoopRun Model.CsvProbe Model.CsvLog Model.CurvePlot Spec.Executable Spec.Refusals Proofs.Refusals.
Local Open Scope nat_scope.
Local Open Scope list_scope.

(** Inserting into an asynchronous population by tournament fails exactly when there is nobody to compete with and no room. *)
Theorem C104_tournament_insert :
  forall G (mx : bool) coin r (x : dind G) pop size e,
  tournament_insert mx coin r x pop size = Err e <-> pop = [] /\ size = 0 /\ e = ValueError.
Proof. exact tournament_insert_fails. Qed.
Print Assumptions C104_tournament_insert.

(** So does greedy insertion. *)
Theorem C104_greedy_insert :
  forall G (mx : bool) coin (x : dind G) pop size e,
  greedy_insert mx coin x pop size = Err e <-> pop = [] /\ size = 0 /\ e = ValueError.
Proof. exact greedy_insert_fails. Qed.
Print Assumptions C104_greedy_insert.

(** A truth-table problem raises exactly when there are no inputs to enumerate or at some row, in counting order,
    the target or the executable raises or the target gives no outputs; the first such row decides. *)
Theorem C104_truth_table :
  forall O eqb (function executable : list Z -> result (list O)) m pad n e,
  tt_evaluate eqb function executable m pad n = Err e <->
  n = 0 /\ e = AssertionError \/
  exists table, enumerate_tt n = Ok table /\ first_trouble (row_fine function executable m pad) (row_bad function executable m pad) table e.
Proof. exact truth_table_fails. Qed.
Print Assumptions C104_truth_table.

(** The landscape features need three points and one test. Beyond that the first test whose genomes differ in
    length or whose mixture cannot be scored decides. The draws are positions in the design. *)
Theorem C104_ela_constructor :
  forall score design draws e,
  (forall i j a, In (i, j, a) draws -> i < length design /\ j < length design) ->
  ela_init score design draws = Err e <->
  (length design <= 2 \/ draws = []) /\ e = AssertionError \/
  2 < length design /\ first_trouble (test_fine score design) (test_bad score design) draws e.
Proof. exact ela_fails. Qed.
Print Assumptions C104_ela_constructor.

(** A ratio of tests below a threshold refuses thresholds that are not negative and no tests; the final
    assertions that it lies between 0 and 1 never fail. *)
Theorem C104_ratio :
  forall test threshold (deltas : list Q) e,
  ratio_p test threshold deltas = Err e <->
  ~ (threshold < 0)%Q /\ e = AssertionError \/ (threshold < 0)%Q /\ deltas = [] /\ e = ZeroDivisionError.
Proof. exact ratio_fails. Qed.
Print Assumptions C104_ratio.

(** Columns of outputs are stacked unless there are none or two differ in length. *)
Theorem C104_stack :
  forall (columns : list (list Q)) e,
  stack_columns columns = Err e <-> (columns = [] \/ exists c d, In c columns /\ In d columns /\ length c <> length d) /\ e = ValueError.
Proof. exact stack_fails. Qed.
Print Assumptions C104_stack.

(** Arrays are combined entry by entry unless their lengths differ and neither is 1. *)
Theorem C104_broadcast :
  forall A B C (f : A -> B -> result C) a b e,
  (forall x y, exists z, f x y = Ok z) ->
  broadcast f a b = Err e <-> length a <> length b /\ length a <> 1 /\ length b <> 1 /\ e = ValueError.
Proof. exact broadcast_fails. Qed.
Print Assumptions C104_broadcast.

(** Migration, when the replacement selector finds a place and the emigrant selector an individual: it fails
    exactly for an island that does not exist, a gap of 0, or an emigrant due and no island to send it to. *)
Theorem C104_migration :
  forall G gap neighbors (c : mig_call G) st e,
  finds_a_place c ->
  (forall pop, length pop = length (c_pop c) -> exists s, c_sponsor c pop = Ok s) ->
  do_migrate gap neighbors st c = Err e <->
  length (g_waiting st) <= c_island c /\ e = IndexError \/
  c_island c < length (g_waiting st) /\
    (gap = 0%Z /\ e = ZeroDivisionError \/
     gap <> 0%Z /\ (gap | c_gen c)%Z /\ e = IndexError /\
       forall dest, nth_error (neighbors (c_island c)) (c_dest c) = Some dest -> length (g_waiting st) <= dest).
Proof. exact migration_fails. Qed.
Print Assumptions C104_migration.

(** A replacement selector that raises, finds nothing, or names a place that does not exist. *)
Theorem C104_no_place :
  forall G gap neighbors (c : mig_call G) st imm rest,
  nth_error (g_waiting st) (c_island c) = Some (imm :: rest) ->
  (forall e, c_replace c 0 (c_pop c) = Err e -> do_migrate gap neighbors st c = Err e) /\
  (forall x, c_replace c 0 (c_pop c) = Ok (x, []) -> do_migrate gap neighbors st c = Err IndexError) /\
  (forall x idx r, c_replace c 0 (c_pop c) = Ok (x, idx :: r) -> length (c_pop c) <= idx ->
     mind_ge (c_coin c 0) (c_stamp c 0 imm) x = true -> do_migrate gap neighbors st c = Err IndexError).
Proof. exact immigrant_without_place. Qed.
Print Assumptions C104_no_place.

(** The same for individuals in memory: emigration, *)
Theorem C104_heap_emigration :
  forall G P sponsor draw neighbors gap g i generation (w : world G P num) pop waiting e,
  emigration sponsor draw neighbors gap g i generation w pop waiting = Err e <->
  gap = 0%Z /\ e = ZeroDivisionError \/
  gap <> 0%Z /\ (gap | generation)%Z /\ e = IndexError /\
    (length pop <= sponsor g i w pop \/
     forall dest, nth_error (neighbors i) (draw g i) = Some dest -> length waiting <= dest).
Proof. exact heap_emigration_fails. Qed.
Print Assumptions C104_heap_emigration.

(** and the whole step: no such island; nobody waiting; the first who waits cannot be evaluated for the island,
    finds no place, or cannot be compared for want of a fitness. *)
Theorem C104_heap_migration :
  forall G P decoder_of problem_of direction island_problem stamps replace coin sponsor draw neighbors gap g i generation
    (w : world G P num) pop waiting,
  let run := migration decoder_of problem_of direction island_problem stamps replace coin sponsor draw neighbors gap g i generation w pop waiting in
  (length waiting <= i -> run = Err IndexError) /\
  (nth_error waiting i = Some [] -> forall e, run = Err e <->
     emigration sponsor draw neighbors gap g i generation w pop waiting = Err e) /\
  (forall imm rest, nth_error waiting i = Some (imm :: rest) ->
     let '(r, w1) := customs decoder_of problem_of island_problem stamps i w imm in
     (forall e, r = Err e -> run = Err e) /\
     (r = Ok tt -> length pop <= replace g i 0 w1 pop -> run = Err IndexError) /\
     (r = Ok tt -> forall x, nth_error pop (replace g i 0 w1 pop) = Some x ->
        i_fitness (w_ind w1 imm) = None \/ i_fitness (w_ind w1 x) = None -> run = Err TypeError)).
Proof. exact heap_migration_fails. Qed.
Print Assumptions C104_heap_migration.

(** Elitist survival fails exactly when somebody has not been evaluated. *)
Theorem C104_survival :
  forall G P (mx : bool) coin k i (w : world G P num) offspring parents e,
  survive mx coin k i w offspring parents = Err e <->
  (exists x, In x (offspring ++ parents) /\ i_fitness (w_ind w x) = None) /\ e = TypeError.
Proof. exact survive_fails. Qed.
Print Assumptions C104_survival.

(** The picture of a rule needs two conditions and an action. *)
Theorem C104_rule_box :
  forall xlim ylim (r : rule) e,
  rule_box xlim ylim r = Err e <->
  length (conditions r) < 2 /\ e = ValueError \/ 2 <= length (conditions r) /\ actions r = [] /\ e = IndexError.
Proof. exact box_fails. Qed.
Print Assumptions C104_rule_box.

(** Crowding distances refuse exactly an empty population, *)
Theorem C104_crowding :
  forall mx rank population d e,
  crowding_distance_calc mx rank population d = Err e <-> population = [] /\ e = IndexError.
Proof. exact crowding_fails. Qed.
Print Assumptions C104_crowding.

(** and so does the fast non-dominated sort, even when there are parents, *)
Theorem C104_fast_sort :
  forall gt fuel population parents before e,
  fast_nondominated_sort gt fuel population parents before = Some (Err e) <-> population = [] /\ e = IndexError.
Proof. exact fast_sort_fails. Qed.
Print Assumptions C104_fast_sort.

(** whereas rank ordinal sort refuses only when there are no parents either. *)
Theorem C104_ordinal_sort :
  forall mx population parents before e,
  rank_ordinal_sort mx population parents before = Err e <->
  population = [] /\ (parents = None \/ parents = Some []) /\ e = IndexError.
Proof. exact ordinal_sort_fails. Qed.
Print Assumptions C104_ordinal_sort.

(** An image is compared only with a bit string of its size. *)
Theorem C104_image :
  forall img l e,
  image_problem img l = Err e <-> length l <> length img /\ e = AssertionError.
Proof. exact image_fails. Qed.
Print Assumptions C104_image.

(** An external evaluation fails exactly when the program fails, or some line is not a number, or the number
    of lines is wrong. *)
Theorem C104_external :
  forall X show run parse (phenomes : list (list X)) e,
  external_multiple show run parse phenomes = Err e <->
  let '(code, out) := run (process_input show phenomes) in
  let lines := removelast (split 10 out) in
  code <> 0%Z /\ e = RuntimeError \/
  code = 0%Z /\ (exists l, In l lines /\ parse l = None) /\ e = ValueError \/
  code = 0%Z /\ (forall l, In l lines -> parse l <> None) /\ length lines <> length phenomes /\ e = RuntimeError.
Proof. exact external_fails. Qed.
Print Assumptions C104_external.

(** Concatenating result files needs a file. *)
Theorem C104_cat_files :
  forall files e,
  cat_csv_files files = Err e <-> files = [] /\ e = ValueError.
Proof. exact cat_fails. Qed.
Print Assumptions C104_cat_files.

(** Grouped evaluation needs an individual, then a positive chunk size; otherwise it raises what the
    evaluation of some chunk raises. *)
Theorem C104_grouped :
  forall G sel trials combine score chunk g (v : view (member G)) population,
  (population = [] -> grouped_coop sel trials combine score chunk g v population = Err IndexError) /\
  (population <> [] -> chunk = Some 0 -> grouped_coop sel trials combine score chunk g v population = Err ValueError) /\
  (population <> [] -> chunk <> Some 0 -> forall e, grouped_coop sel trials combine score chunk g v population = Err e ->
     exists j n, j < length population /\ 0 < n /\
       evaluate_multiple sel trials combine score j g v (firstn n (skipn j population)) = Err e).
Proof. exact grouped_fails. Qed.
Print Assumptions C104_grouped.

(** Cooperative evaluation in no trials has no mean, and writes nothing. *)
Theorem C104_no_trials :
  forall G sel generation subpopulation show_int show show_genome own_fitness (x : cind G) current subpops out,
  coop_op_logged sel generation subpopulation show_int show show_genome own_fitness 0 x current subpops out = (Err ValueError, out).
Proof. exact no_trials. Qed.
Print Assumptions C104_no_trials.

(** Calling by keywords fails exactly when a keyword is unknown or a required one is missing. *)
Theorem C104_keywords :
  forall required optional given e,
  bind_keywords required optional given = Err e <->
  e = TypeError /\ ((exists c, In c given /\ ~ In c (required ++ optional)) \/ exists c, In c required /\ ~ In c given).
Proof. exact keywords_fail. Qed.
Print Assumptions C104_keywords.

(** A rule system needs a rule and then rule order as its priority metric. *)
Theorem C104_rule_system :
  forall n rules m mem e,
  make_executable n rules m mem = Err e <-> rules = [] /\ e = AssertionError \/ rules <> [] /\ m <> Some RULE_ORDER /\ e = ValueError.
Proof. exact rules_fail. Qed.
Print Assumptions C104_rule_system.

(** Birth branding ends with RuntimeError exactly when a generator has nothing left, or a list nothing at all. *)
Theorem C104_branding_ends :
  forall len b l e,
  (fst (brand_pull len (SGen l) b) = Err e <-> l = [] /\ e = RuntimeError) /\
  (br_iter b = None -> (fst (brand_pull len (SList l) b) = Err e <-> l = [] /\ e = RuntimeError)).
Proof. exact branding_ends. Qed.
Print Assumptions C104_branding_ends.

(** A table of two inputs whose target raises at 1,0 and has no output at 1,1: the former decides. *)
Example C104_example_table :
  tt_evaluate (fun _ _ => true) x104_target (fun _ => Ok [0%Z]) 2 false 2 = Err (UserError 7) /\
  enumerate_tt 2 = Ok [[0; 0]; [0; 1]; [1; 0]; [1; 1]]%Z /\
  first_trouble (row_fine x104_target (fun _ => Ok [0%Z]) 2 false) (row_bad x104_target (fun _ => Ok [0%Z]) 2 false)
    [[0; 0]; [0; 1]; [1; 0]; [1; 1]]%Z (UserError 7).
Proof.
  split; [reflexivity|]. split; [reflexivity|]. exists [[0; 0]; [0; 1]]%Z, [1; 0]%Z, [[1; 1]]%Z. split; [reflexivity|]. split.
  - repeat constructor; eexists; try split; try reflexivity; discriminate.
  - left. reflexivity.
Qed.

(** Genomes of different lengths in the second of two tests; too small a design; a threshold of 0. *)
Example C104_example_ela :
  let design := [([1; 2]%Q, 3%Q); ([2; 2]%Q, 4%Q); ([1]%Q, 1%Q)] in
  ela_init (fun g => Ok (hd 0%Q g)) design [(0, 1, 1%Q); (0, 2, 1%Q)] = Err ValueError /\
  ela_init (fun g => Ok (hd 0%Q g)) (firstn 2 design) [(0, 1, 1%Q)] = Err AssertionError /\
  ratio_p (fun _ => true) 0%Q [1%Q] = Err AssertionError /\ ratio_p (fun _ => true) (- (1))%Q [] = Err ZeroDivisionError.
Proof. repeat split. Qed.

(** Island 0 of 2 with a neighbour 5 that is not an island: nothing happens until an emigrant is due. *)
Example C104_example_migration :
  finds_a_place (x104_call 4) /\
  do_migrate 2 (fun _ => [5]) (mk_mig [[]; []] 1) (x104_call 4) = Err IndexError /\
  match do_migrate 2 (fun _ => [5]) (mk_mig [[]; []] 1) (x104_call 5) with Ok _ => True | Err _ => False end /\
  do_migrate 0 (fun _ => [1]) (mk_mig [[]; []] 1) (x104_call 5) = Err ZeroDivisionError /\
  match do_migrate 2 (fun _ => [1]) (mk_mig [[]; []] 1) (x104_call 4) with Ok _ => True | Err _ => False end.
Proof.
  split; [|vm_compute; repeat split]. intros i pop H. cbn in H. eexists. eexists. eexists. split; [reflexivity|]. rewrite H. constructor.
Qed.

(** An external program that prints "1" and then what is not a number. *)
Example C104_example_external :
  let parse l := match l with [49] => Some (NInt 1) | _ => None end in
  external_multiple (fun x : nat => [x]) (fun _ => (0%Z, [49; 10; 120; 10])) parse [[1]; [2]] = Err ValueError /\
  external_multiple (fun x : nat => [x]) (fun _ => (0%Z, [49; 10])) parse [[1]; [2]] = Err RuntimeError /\
  external_multiple (fun x : nat => [x]) (fun _ => (1%Z, [49; 10; 49; 10])) parse [[1]; [2]] = Err RuntimeError /\
  external_multiple (fun x : nat => [x]) (fun _ => (0%Z, [49; 10; 49; 10])) parse [[1]; [2]] = Ok [NInt 1; NInt 1].
Proof. repeat split. Qed.

(** Two and three entries do not go together; one and three do. *)
Example C104_example_arrays :
  broadcast (fun a b : nat => Ok (a + b)) [1; 2] [1; 2; 3] = Err ValueError /\
  broadcast (fun a b : nat => Ok (a + b)) [1] [1; 2; 3] = Ok [2; 3; 4] /\
  stack_columns [[1]; [1; 2]]%Q = Err ValueError /\ stack_columns [[1; 2]; [3; 4]]%Q = Ok [[1; 3]; [2; 4]]%Q.
Proof. repeat split. Qed.
