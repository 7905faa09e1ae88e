(** leap_ec/algorithm.py generational_ea on segmented genomes: individuals whose genome is a Python list of
    references to arrays, bred by a lazy pipeline of clone, optionally NAryCrossover, operators of
    leap_ec/segmented_rep/ops.py, evaluate and pool.  The list objects themselves are not shared: clone, crossover
    and apply_mutation each make new ones, so an individual carries its list as a value; the arrays live in the
    store. *)
From Verif Require Import Model.Base Model.PyList Model.Variation Model.Segmented Model.SegMutate Model.Selection.
From Verif Require Model.Scalar Model.Pipeline.

Section SegRun.
Context {G : Type}.

(** the memo dictionary of copy.deepcopy, used by leap_ec/individual.py:145 *)
Fixpoint memo_get (a : nat) (memo : list (nat * nat)) : option nat :=
  match memo with
  | [] => None
  | (old, new) :: r => if a =? old then Some new else memo_get a r
  end.

(** deepcopy of a list of arrays: an array met before is not copied again *)
(** leap_ec/individual.py:145 *)
Fixpoint deepcopy (genome : list nat) (memo : list (nat * nat)) (st : store G) : list nat * store G :=
  match genome with
  | [] => ([], st)
  | a :: r =>
      match memo_get a memo with
      | Some b => let '(l, st') := deepcopy r memo st in (b :: l, st')
      | None =>
          let '(b, st1) := new_seg st (s_seg st a) in
          let '(l, st') := deepcopy r ((a, b) :: memo) st1 in (b :: l, st')
      end
  end.

(** leap_ec/individual.py:118-151 clone, as far as genome and fitness are concerned *)
Definition clone_seg (st : store G) (x : sind) : sind * store G :=
  let '(l, st') := deepcopy (sg_genome x) [] st in (mk_sind l None, st').

(** one call of an operator of leap_ec/segmented_rep/ops.py:18-220 together with its random draws *)
Inductive seg_op :=
| AddSeg (probability u : Q) (init : list G) (append : bool) (d : nat)
| RemoveSeg (probability u : Q) (d : nat)
| CopySeg (probability u : Q) (append : bool) (d1 d2 : nat)
| Mutate (mutator : Q -> nat -> list G -> result (list G)) (expected : Q)
| MutateEach (ms : list (smutator G)).

(** leap_ec/segmented_rep/ops.py:18-220 *)
Definition apply_op (op : seg_op) (st : store G) (x : sind) : result (sind * store G) :=
  match op with
  | AddSeg p u init append d => add_segment p u init append d st x
  | RemoveSeg p u d => remove_segment p u d st x
  | CopySeg p u append d1 d2 => copy_segment p u append d1 d2 st x
  | Mutate mutator expected => apply_mutation mutator expected st x
  | MutateEach ms =>
      match segmented_mutate ms st x with
      | (st', x', Ok _) => Ok (x', st')
      | (_, _, Err e) => Err e
      end
  end.

(** an individual pulled through the operators, upstream first; leap_ec/segmented_rep/ops.py:18-220 *)
Fixpoint apply_ops (ops : list seg_op) (st : store G) (x : sind) : result (sind * store G) :=
  match ops with
  | [] => Ok (x, st)
  | op :: r => bind (apply_op op st x) (fun '(x', st') => apply_ops r st' x')
  end.

(** decoder and problem together: from the segments to the fitness.  Neither keeps state nor changes the arrays. *)
Variable score : list (list G) -> result num.

(** leap_ec/individual.py:166-189 evaluate; leap_ec/ops.py:260-265 *)
Definition evaluate_seg (st : store G) (x : sind) : result sind :=
  bind (score (contents st x)) (fun f => Ok (mk_sind (sg_genome x) (Some f))).

(** the rest of the pipeline for an individual that was cloned (and recombined): operators, then evaluate, all of
    them generators *)
(** leap_ec/ops.py:260-265, leap_ec/segmented_rep/ops.py:18-220 *)
Definition finish (ops : list seg_op) (st : store G) (x : sind) : result (sind * store G) :=
  Pipeline.in_generator (bind (apply_ops ops st x) (fun '(x', st') => bind (evaluate_seg st' x') (fun y => Ok (y, st')))).

(** what selection yields: the parent at this position *)
(** leap_ec/ops.py:906-953 *)
Definition picked (parents : list sind) (k : nat) : result sind :=
  match nth_error parents k with Some x => Ok x | None => Err IndexError end.

(** the draws for one offspring of a pipeline without crossover: the parent selected, and the operators *)
(** leap_ec/algorithm.py:133-135 *)
Record plan := mk_plan { pl_pick : nat; pl_ops : list seg_op }.

(** pool of a pipeline without crossover, leap_ec/ops.py:1091-1117 *)
Fixpoint breed (plans : list plan) (parents : list sind) (st : store G) : result (list sind * store G) :=
  match plans with
  | [] => Ok ([], st)
  | p :: r =>
      bind (picked parents (pl_pick p)) (fun x =>
      let '(c, st1) := clone_seg st x in
      bind (finish (pl_ops p) st1 c) (fun '(y, st2) =>
      bind (breed r parents st2) (fun '(ys, st3) => Ok (y :: ys, st3))))
  end.

(** the draws for a pair: the two parents, the crossover points (None if crossover is skipped), and the
    operators for each child; no second list of operators if the pool is full before the second child *)
(** leap_ec/ops.py:389-412 *)
Record pair_plan := mk_pair {
  pp_first : nat; pp_second : nat; pp_points : option (list nat);
  pp_ops1 : list seg_op; pp_ops2 : option (list seg_op) }.

(** leap_ec/ops.py:392-400, 578-612 NAryCrossover on lists: the children hold the very arrays of the parents *)
Definition cross (num_points : nat) (points : option (list nat)) (x y : sind) : result (sind * sind) :=
  match points with
  | None => Ok (x, y)
  | Some draws =>
      bind (nary_recombine num_points draws (sg_genome x) (sg_genome y)) (fun '(l, r) =>
      Ok (mk_sind l None, mk_sind r None))
  end.

(** pool of a pipeline with crossover after clone: the first child passes through the rest of the pipeline
    before the second one does, leap_ec/ops.py:389-412, 1091-1117 *)
Fixpoint breed_pairs (num_points : nat) (plans : list pair_plan) (parents : list sind) (st : store G)
  : result (list sind * store G) :=
  match plans with
  | [] => Ok ([], st)
  | p :: r =>
      bind (picked parents (pp_first p)) (fun x1 =>
      let '(c1, st1) := clone_seg st x1 in
      bind (picked parents (pp_second p)) (fun x2 =>
      let '(c2, st2) := clone_seg st1 x2 in
      bind (cross num_points (pp_points p) c1 c2) (fun '(d1, d2) =>
      bind (finish (pp_ops1 p) st2 d1) (fun '(y1, st3) =>
      bind (match pp_ops2 p with
            | None => Ok ([], st3)
            | Some ops => bind (finish ops st3 d2) (fun '(y2, st4) => Ok ([y2], st4))
            end) (fun '(y2s, st4) =>
      bind (breed_pairs num_points r parents st4) (fun '(ys, st5) => Ok (y1 :: y2s ++ ys, st5)))))))
  end.

(** one generation: the pipeline with all its draws *)
(** leap_ec/algorithm.py:133-135 *)
Inductive breeding := Singly (plans : list plan) | InPairs (num_points : nat) (plans : list pair_plan).

(** leap_ec/algorithm.py:133-135 *)
Definition offspring_of (b : breeding) (parents : list sind) (st : store G) : result (list sind * store G) :=
  match b with
  | Singly plans => breed plans parents st
  | InPairs n plans => breed_pairs n plans parents st
  end.

(** what comparisons look at, leap_ec/individual.py:198-253; None when some fitness is missing *)
Fixpoint fitnesses (k : nat) (l : list sind) : option (list Scalar.sind) :=
  match l with
  | [] => Some []
  | x :: r =>
      match sg_fitness x, fitnesses (S k) r with
      | Some f, Some s => Some (Scalar.mk_sind k f :: s)
      | _, _ => None
      end
  end.

Variable maximize : bool.
(** coins of the i-th generation's comparisons of two NaN *)
Variable coin : nat -> Scalar.sind -> Scalar.sind -> bool.
Variable k_elites : nat.

(** leap_ec/ops.py:829-900 elitist_survival; individuals are numbered offspring first, then parents *)
Definition survivors (i : nat) (offspring parents : list sind) : result (list sind) :=
  match fitnesses 0 offspring, fitnesses (length offspring) parents with
  | Some o, Some p =>
      let kept := fst (elitist_survival (Scalar.ind_lt maximize (coin i)) (Scalar.ind_gt maximize (coin i))
                         Scalar.ind_eq o p k_elites) in
      Ok (flat_map (fun s => match nth_error (offspring ++ parents) (Scalar.si_id s) with Some x => [x] | None => [] end) kept)
  | _, _ => Err TypeError
  end.

(** leap_ec/algorithm.py:131-141, one element of [gens] per generation; [earlier]: the populations bred from,
    oldest first *)
Fixpoint seg_loop (gens : list breeding) (i : nat) (st : store G) (earlier : list (list sind)) (parents : list sind)
  : result (list sind * store G * list (list sind)) :=
  match gens with
  | [] => Ok (parents, st, earlier)
  | b :: r =>
      bind (offspring_of b parents st) (fun '(offspring, st1) =>
      bind (survivors i offspring parents) (fun next => seg_loop r (S i) st1 (earlier ++ [parents]) next))
  end.

(** leap_ec/segmented_rep/initializers.py:35-45 create_segmented_sequence: every segment a new array *)
Fixpoint new_segments (segments : list (list G)) (st : store G) : list nat * store G :=
  match segments with
  | [] => ([], st)
  | g :: r =>
      let '(a, st1) := new_seg st g in
      let '(l, st2) := new_segments r st1 in (a :: l, st2)
  end.

(** leap_ec/individual.py:91-104 create_population; [genomes]: what the initializer makes, call by call *)
Fixpoint create_segs (genomes : list (list (list G))) (st : store G) : list sind * store G :=
  match genomes with
  | [] => ([], st)
  | gs :: r =>
      let '(l, st1) := new_segments gs st in
      let '(xs, st2) := create_segs r st1 in (mk_sind l None :: xs, st2)
  end.

(** leap_ec/individual.py:106-116 evaluate_population *)
Fixpoint evaluate_segs (st : store G) (xs : list sind) : result (list sind) :=
  match xs with
  | [] => Ok []
  | x :: r => bind (evaluate_seg st x) (fun y => bind (evaluate_segs st r) (fun ys => Ok (y :: ys)))
  end.

(** leap_ec/algorithm.py:119-141 generational_ea *)
Definition seg_run (genomes : list (list (list G))) (gens : list breeding) (st : store G)
  : result (list sind * store G * list (list sind)) :=
  let '(xs, st1) := create_segs genomes st in
  bind (evaluate_segs st1 xs) (fun parents => seg_loop gens 0 st1 [] parents).
End SegRun.
Arguments seg_op : clear implicits.
Arguments plan : clear implicits.
Arguments pair_plan : clear implicits.
Arguments breeding : clear implicits.
