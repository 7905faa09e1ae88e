(** Distributed evaluation: leap_ec/distrib.  Dask is outside the model: [client.map] and
    [client.submit] hand tasks to workers, [client.gather] returns the results in the order of the
    futures, [as_completed] yields the futures in an order chosen by the environment (an oracle).
    Tasks and results are values: a worker evaluates its own copy (processes) or the client's object
    (threads); the code only uses what comes back. *)
From Verif Require Import Model.Base Model.PyList Model.Scalar Model.Selection Model.Counters.

Section Distrib.
Variable G : Type.

(** an unevaluated individual; the id stands for its uuid *)
(** leap_ec/distrib/individual.py:25-35, 37-40 *)
Record task := mk_task { t_id : nat; t_genome : G }.

(** an evaluated RobustIndividual/DistributedIndividual: fitness, genome, is_viable *)
(** leap_ec/distrib/individual.py:25-35, 37-40 *)
Record dind := mk_dind { d_ind : sind; d_genome : G; d_viable : bool }.

(** leap_ec/individual.py:281-304 RobustIndividual.evaluate, with the decoding and the problem in [outcome] *)
Definition robust_evaluate (outcome : G -> result num) (t : task) : dind :=
  match outcome (t_genome t) with
  | Ok f => mk_dind (mk_sind (t_id t) f) (t_genome t) true
  | Err _ => mk_dind (mk_sind (t_id t) NNan) (t_genome t) false
  end.

(** ** leap_ec/distrib/synchronous.py:27-48 eval_population
    [finish] lists the task positions in the order in which the workers finish them.  Each finished
    task stores its result; gather reads the results in task order (None: a task never finished). *)
Definition store (outcome : G -> result num) (tasks : list task) (finish : list nat) : nat -> option dind :=
  fold_left (fun m k => match nth_error tasks k with
                        | Some t => fun j => if j =? k then Some (robust_evaluate outcome t) else m j
                        | None => m
                        end) finish (fun _ => None).
(** leap_ec/distrib/synchronous.py:27-48, continued *)
Fixpoint gather (m : nat -> option dind) (k n : nat) : option (list dind) :=
  match n with
  | 0 => Some []
  | S n' => match m k, gather m (S k) n' with
            | Some x, Some r => Some (x :: r)
            | _, _ => None
            end
  end.
(** leap_ec/distrib/synchronous.py:27-48, continued *)
Definition eval_population (outcome : G -> result num) (tasks : list task) (finish : list nat) : option (list dind) :=
  gather (store outcome tasks finish) 0 (length tasks).

(** ** leap_ec/distrib/synchronous.py:51-83 eval_pool: draws [size] individuals from the stream, then evaluates
    them; an exhausted stream raises StopIteration (line 78) *)
Definition eval_pool (outcome : G -> result num) (stream : list task) (size : nat) (finish : list nat)
  : result (option (list dind)) :=
  if length stream <? size then Err StopIteration
  else Ok (eval_population outcome (firstn size stream) finish).

(** ** leap_ec/distrib/evaluate.py:52-56: the non-viable counter.
    [context['leap']['distrib']['non_viable'] += 1] reads the entry and then writes it back.  The
    actions of several worker threads of the client's process may interleave; workers in other
    processes change a copy of the context that came with the task. *)
Inductive action := ReadCounter (worker : nat) | WriteCounter (worker : nat).
(** (shared counter, what each worker has read) *)
(** leap_ec/distrib/evaluate.py:16-72 *)
Definition counter_step (s : Z * (nat -> Z)) (a : action) : Z * (nat -> Z) :=
  match a with
  | ReadCounter w => (fst s, fun v => if v =? w then fst s else snd s v)
  | WriteCounter w => ((snd s w + 1)%Z, snd s)
  end.
(** leap_ec/distrib/evaluate.py:16-72 *)
Definition counter_run (start : Z) (l : list action) : Z := fst (fold_left counter_step l (start, fun _ => 0%Z)).

(** the actions when failures are counted one after the other *)
(** leap_ec/distrib/evaluate.py:16-72 *)
Definition sequential (workers : list nat) : list action :=
  concat (map (fun w => [ReadCounter w; WriteCounter w]) workers).

(** ** leap_ec/distrib/asynchronous.py *)
Section Compare.
Variable maximize : bool.
Variable coin : sind -> sind -> bool.

(** leap_ec/distrib/asynchronous.py:58-79 replace_if; line 70 is_viable (leap_ec/distrib/evaluate.py:75-88): DistributedIndividual
    always has the attribute *)
Definition replace_if (new : dind) (pop : list dind) (index : nat) : result (list dind) :=
  match nth_error pop index with
  | None => Err IndexError
  | Some old =>
      if negb (d_viable old) then Ok (set_nth index new pop)
      else if ind_gt maximize coin (d_ind new) (d_ind old) then Ok (set_nth index new pop)
      else Ok pop
  end.

(** leap_ec/distrib/asynchronous.py:85-109; [r] is the source of random.randrange(len(pop)) *)
Definition tournament_insert (r : nat) (x : dind) (pop : list dind) (max_size : nat) : result (list dind) :=
  if length pop <? max_size then Ok (pop ++ [x])
  else match pop with
       | [] => Err ValueError
       | _ => replace_if x pop (r mod length pop)
       end.

(** leap_ec/distrib/asynchronous.py:133: position of the first smallest individual *)
Definition worst_index (pop : list dind) : option nat :=
  match pop with
  | [] => None
  | x :: rest =>
      Some (fst (pymin_from (fun a b : nat * dind => ind_lt maximize coin (d_ind (snd a)) (d_ind (snd b)))
                   (0, x) (combine (seq 1 (length rest)) rest)))
  end.

(** leap_ec/distrib/asynchronous.py:115-134 *)
Definition greedy_insert (x : dind) (pop : list dind) (max_size : nat) : result (list dind) :=
  if length pop <? max_size then Ok (pop ++ [x])
  else match worst_index pop with
       | None => Err ValueError
       | Some i => replace_if x pop i
       end.
End Compare.

(** ** leap_ec/distrib/asynchronous.py:140-233 steady_state *)
Record astate := mk_as {
  as_pending : list task;        (* submitted, not yet yielded by as_completed *)
  as_pop : list dind;
  as_births : birth_counter;
  as_next : nat;                 (* next id *)
  as_evaluated : list dind;      (* calls of evaluated_probe, line 193, in order *)
  as_submitted : list task }.    (* calls of client.submit, line 223, in order *)

(** new tasks for the genomes made by the pipeline *)
(** leap_ec/distrib/asynchronous.py:214-228 *)
Fixpoint make_tasks (next : nat) (gs : list G) : list task :=
  match gs with [] => [] | g :: r => mk_task next g :: make_tasks (S next) r end.

(** as_completed hands out each future once, leap_ec/distrib/asynchronous.py:184-186 *)
Fixpoint remove_at {A} (i : nat) (l : list A) : list A :=
  match l, i with
  | [], _ => []
  | _ :: r, 0 => r
  | x :: r, S i' => x :: remove_at i' r
  end.

Section Run.
Variable max_births : Z.
Variable pop_size : nat.
Variable count_nonviable : bool.
(** environment: which pending evaluation completes as number i, its outcome, the inserter (with its
    randomness), the offspring pipeline (with its randomness) *)
Variable choice : nat -> nat.
Variable outcome : nat -> G -> result num.
Variable inserter : nat -> dind -> list dind -> nat -> result (list dind).
Variable pipeline : nat -> list dind -> list G.

(** leap_ec/distrib/asynchronous.py:170-182 *)
Definition ss_init (genomes : list G) : astate :=
  mk_as (make_tasks 0 genomes) [] (inc_births 0) (length genomes) [] [].

(** leap_ec/distrib/asynchronous.py:184-231: the body of the loop for completion number [i]; None when nothing is pending, that
    is when the iteration ends *)
Definition ss_body (i : nat) (st : astate) : option (result astate) :=
  let k := choice i mod length (as_pending st) in
  match nth_error (as_pending st) k with
  | None => None
  | Some t =>
      let pending := remove_at k (as_pending st) in
      let x := robust_evaluate (outcome i) t in
      let births := if negb (d_viable x) && negb count_nonviable
                    then snd (bc_decrement (as_births st)) else as_births st in
      Some (bind (inserter i x (as_pop st) pop_size) (fun pop =>
        if (bc_curr births <? max_births)%Z then
          let children := make_tasks (as_next st) (pipeline i pop) in
          Ok (mk_as (pending ++ children) pop
                    (snd (bc_increment [] (Z.of_nat (length children)) births))
                    (as_next st + length children) (as_evaluated st ++ [x]) (as_submitted st ++ children))
        else Ok (mk_as pending pop births (as_next st) (as_evaluated st ++ [x]) (as_submitted st))))
  end.

(** the first [n] completions (fewer if the loop ends before), beginning with number [i] *)
(** leap_ec/distrib/asynchronous.py:184-231 *)
Fixpoint ss_iter (n i : nat) (st : astate) : result astate :=
  match n with
  | 0 => Ok st
  | S n' => match ss_body i st with
            | None => Ok st
            | Some (Err e) => Err e
            | Some (Ok st') => ss_iter n' (S i) st'
            end
  end.

(** the whole loop; None: not finished after [fuel] completions *)
(** leap_ec/distrib/asynchronous.py:184-231 *)
Fixpoint ss_loop (fuel i : nat) (st : astate) : option (result astate) :=
  match ss_body i st with
  | None => Some (Ok st)
  | Some (Err e) => Some (Err e)
  | Some (Ok st') => match fuel with 0 => None | S fuel' => ss_loop fuel' (S i) st' end
  end.
End Run.
End Distrib.

Arguments mk_task {G} _ _.
Arguments t_id {G} _.
Arguments t_genome {G} _.
Arguments mk_dind {G} _ _ _.
Arguments d_ind {G} _.
Arguments d_genome {G} _.
Arguments d_viable {G} _.
Arguments robust_evaluate {G} _ _.
Arguments eval_population {G} _ _ _.
Arguments eval_pool {G} _ _ _ _.
Arguments store {G} _ _ _ _.
Arguments gather {G} _ _ _.
Arguments replace_if {G} _ _ _ _ _.
Arguments tournament_insert {G} _ _ _ _ _ _.
Arguments worst_index {G} _ _ _.
Arguments greedy_insert {G} _ _ _ _ _.
Arguments as_pending {G} _.
Arguments as_pop {G} _.
Arguments as_births {G} _.
Arguments as_next {G} _.
Arguments as_evaluated {G} _.
Arguments as_submitted {G} _.
Arguments mk_as {G} _ _ _ _ _ _.
Arguments make_tasks {G} _ _.
Arguments ss_init {G} _.
Arguments ss_body {G} _ _ _ _ _ _ _ _ _.
Arguments ss_iter {G} _ _ _ _ _ _ _ _ _ _.
Arguments ss_loop {G} _ _ _ _ _ _ _ _ _ _.
