(** C104, continued: selection from nobody, rule systems, quadratic families. *)
From Verif Require Import Model.Base Model.PyList Model.Selection Model.RealProblems Model.Pipeline Model.SegRun Model.Zdt Model.Rules
  Spec.Refusals Spec.Refusals3 Proofs.Refusals3.
Local Open Scope nat_scope.
Local Open Scope list_scope.

(** A tournament needs somebody to compete, then at least one competitor. *)
Theorem C104_tournament : forall A (lt gt : A -> A -> bool) population worst choices indices e,
  Forall (fun i => i < length population) choices \/ population = [] ->
  tournament_turn lt gt population worst choices indices = Err e <->
  population = [] /\ e = IndexError \/ population <> [] /\ choices = [] /\ e = ValueError.
Proof. exact tournament_fails. Qed.
Print Assumptions C104_tournament.

(** Random selection needs somebody. *)
Theorem C104_random : forall A (population : list A) i indices e,
  i < length population \/ population = [] ->
  random_turn population i indices = Err e <-> population = [] /\ e = IndexError.
Proof. exact random_fails. Qed.
Print Assumptions C104_random.

(** Insertion needs a child and a parent. *)
Theorem C104_insertion : forall A (gt : A -> A -> bool) offspring parents draws e,
  insertion_selection gt offspring parents draws = Err e <-> (offspring = [] \/ parents = []) /\ e = ValueError.
Proof. exact insertion_fails. Qed.
Print Assumptions C104_insertion.

(** Whatever operators follow: asked for individuals when there is nobody to select from, a pipeline raises the
    IndexError of its selection; at the end of its source it raises RuntimeError, unless all its operators are
    mutations that let the end through. *)
Theorem C104_empty_source : forall G P F (nan : F) decoder_of problem_of (w : Heap.world G P F) n ops pick,
  Forall downstream ops ->
  pool nan decoder_of problem_of (S n) (ops ++ [OpSelect [] pick]) (start (ops ++ [OpSelect [] pick])) w = Err IndexError /\
  pool nan decoder_of problem_of (S n) (ops ++ [OpIter []]) (start (ops ++ [OpIter []])) w =
    Err (if forallb lets_through ops then StopIteration else RuntimeError).
Proof. exact (@nobody_pool). Qed.
Print Assumptions C104_empty_source.

(** So do the pipelines of segmented genomes, with and without crossover. *)
Theorem C104_segmented_nobody : forall G score p plans pairs num_points (q : pair_plan G) (st : Segmented.store G),
  breed (G := G) score (p :: plans) [] st = Err IndexError /\
  breed_pairs (G := G) score num_points (q :: pairs) [] st = Err IndexError.
Proof. exact breed_nobody. Qed.
Print Assumptions C104_segmented_nobody.

(** A rule system that was made answers exactly when every rule has a condition for every input and register, it
    has no memory, and the rule that fires has as many actions as there are outputs, and some. *)
Theorem C104_rule_call : forall n rules m mem ex xs d, make_executable n rules m mem = Ok ex ->
  (~ Forall (reads_all (length xs) (length mem)) rules -> call ex xs d = Err IndexError) /\
  (Forall (reads_all (length xs) (length mem)) rules -> mem <> [] -> call ex xs d = Err ValueError) /\
  (Forall (reads_all (length xs) (length mem)) rules -> mem = [] ->
   exists rl, In rl rules /\
     (length (actions rl) <> n -> call ex xs d = Err AssertionError) /\
     (length (actions rl) = n -> n = 0 -> call ex xs d = Err IndexError) /\
     (length (actions rl) = n -> 0 < n -> exists out, call ex xs d = Ok out)).
Proof. exact rule_call. Qed.
Print Assumptions C104_rule_call.

(** Bounds for the genomes of rule systems exist exactly without memory and with a discrete output. *)
Theorem C104_rule_bounds : forall dc k e, bounds dc k = Err e <->
  0 < dec_memory dc /\ e = ValueError \/ dec_memory dc = 0 /\ (exists b, dec_out dc = OBox b) /\ e = AttributeError.
Proof. exact bounds_fail. Qed.
Print Assumptions C104_rule_bounds.

(** The same systems can be initialized, but the others are refused otherwise; no rules are always made. *)
Theorem C104_rule_genomes : forall dc samples e, Forall (fits_space (num_inputs dc)) samples ->
  create_rule_set dc samples = Err e <->
  samples <> [] /\ (0 < dec_memory dc \/ exists b, dec_out dc = OBox b) /\ e = ValueError.
Proof. exact rule_set_fails. Qed.
Print Assumptions C104_rule_genomes.

(** Quadratic families: as many of each argument; then the first basin with badly shaped matrices, or one that is
    not diagonal, decides. *)
Theorem C104_quadratic : forall ds rs offsets values e,
  quadratic_family ds rs offsets values = Err e <->
  ~ (length ds = length rs /\ length offsets = length rs /\ length values = length rs) /\ e = AssertionError \/
  length ds = length rs /\ length offsets = length rs /\ length values = length rs /\ first_trouble basin_fine basin_bad (combine ds rs) e.
Proof. exact quadratic_fails. Qed.
Print Assumptions C104_quadratic.

(** They are evaluated at points of the size of every offset and every matrix, given as arrays; a family without
    basins nowhere. *)
Theorem C104_quadratic_point : forall p is_array x e,
  quadratic_evaluate p is_array x = Err e <->
  p = [] /\ e = ValueError \/ first_trouble (point_fine is_array (length x)) (point_bad is_array (length x)) p e.
Proof. exact quadratic_evaluate_fails. Qed.
Print Assumptions C104_quadratic_point.

(** Selection from nobody, cloned, mutated quietly and evaluated; an ended source before two quiet mutations, and
    before one that is not. *)
Example C104_empty_source_example : forall (w : Heap.world nat nat nat),
  let quiet := OpMutate (fun _ g => Ok (g, None)) true in let loud := OpMutate (fun _ g => Ok (g, None)) false in
  let run stack := pool 0 (fun _ => None) (fun _ _ => Ok 0) 3 stack (start stack) w in
  Forall (@downstream nat) [OpEval; quiet; OpClone] /\
  (run [OpEval; quiet; OpClone; OpSelect [] (fun k => k)], run [quiet; quiet; OpIter []], run [quiet; loud; OpIter []]) =
  (Err IndexError, Err StopIteration, Err RuntimeError).
Proof. split; [repeat constructor|reflexivity]. Qed.

(** Two rules with one action each over one input: asked with one input it answers, with two it cannot. *)
Example C104_rule_call_example :
  let r := mk_rule [(Some 0%Q, Some 1%Q)] [Some 3%Q] in
  match make_executable 1 [r; r] (Some RULE_ORDER) [], make_executable 1 [mk_rule [(Some 0%Q, Some 1%Q); (Some 0%Q, Some 1%Q)] [Some 3%Q]] (Some RULE_ORDER) [Some 0%Q],
        make_executable 2 [r] (Some RULE_ORDER) [] with
  | Ok a, Ok b, Ok c =>
      (call a [Some (1 # 2)%Q] 0, call a [Some (1 # 2)%Q; None] 0, call b [Some (1 # 2)%Q] 0, call c [Some (1 # 2)%Q] 0) =
      (Ok (One 3), Err IndexError, Err ValueError, Err AssertionError)
  | _, _, _ => False
  end.
Proof. reflexivity. Qed.

(** The second basin is not diagonal, the third badly shaped: the second decides. *)
Example C104_quadratic_example :
  let one := [[1; 0]; [0; 1]]%Q in
  (quadratic_family [one; [[1; 1]; [0; 1]]%Q; [[1]]%Q] [one; one; one] [[]; []; []] [1; 1; 1]%Q,
   quadratic_family [one; [[1]]%Q; [[1; 1]; [0; 1]]%Q] [one; one; one] [[]; []; []] [1; 1; 1]%Q,
   quadratic_family [one] [one; one] [[]; []] [1; 1]%Q) =
  (Err AssertionError, Err ValueError, Err AssertionError).
Proof. reflexivity. Qed.
