(** leap_ec/multiobjective/asynchronous.py:159-204 steady_state_nsga_2: steady_state (leap_ec/distrib/asynchronous.py:140-233)
    with one ENLUInserter, on DistributedIndividuals that share a multi-objective problem with directions [mx]; and
    sort_by_dominance (leap_ec/multiobjective/ops.py:26). *)
From Verif Require Import Model.Base Model.PyList Model.Selection Model.Pareto Model.Crowding Model.Enlu Model.Counters Model.Distrib.

(** A failing evaluation leaves the single number nan as fitness (leap_ec/individual.py:297-301), not a vector.  Compared with
    vectors it behaves like a vector of nan (nan * maximize, leap_ec/multiobjective/problems.py:95-96), but it has no elements
    to index. *)
Definition scalar_nan (mx : list bool) : list num := map (fun _ => NNan) mx.

(** leap_ec/multiobjective/asynchronous.py:133-156, for inserters that may meet individuals without a fitness vector:
    [scalar] tells which.  per_rank_crowding_calc of the changed layers (lines 137-140) evaluates i.fitness[objective]
    for each member (leap_ec/multiobjective/ops.py:196-207; there is at least one objective, leap_ec/multiobjective/problems.py:59):
    TypeError on a float. *)
Definition nsga_insert (mx : list bool) (pop_size : nat) (scalar : nat -> bool) (ind : mo) (st : inserter)
  : result (option mo * inserter) :=
  match enlu_inds_rank mx ind (ins_layers st) (at_rank (ins_attrs st)) with
  | None => Err RuntimeError
  | Some (layers, rank, (s, e)) =>
      if existsb (fun x => scalar (o_id x)) (concat (firstn (e - s) (skipn s layers))) then Err TypeError
      else match inserter_call mx pop_size ind st with
           | None => Err RuntimeError
           | Some r => Ok r
           end
  end.

Section Nsga.
Context {G : Type}.

(** leap_ec/distrib/asynchronous.py:170-182 with the inserter's state (leap_ec/multiobjective/asynchronous.py:129-133) *)
Record nstate := mk_ns {
  ns_pending : list (task G);      (* submitted, not yet yielded by as_completed *)
  ns_ins : inserter;
  ns_pop : list mo;                (* the flat population *)
  ns_births : birth_counter;
  ns_next : nat;                   (* next id *)
  ns_evaluated : list mo;          (* calls of evaluated_probe, in order *)
  ns_submitted : list (task G) }.  (* calls of client.submit, in order *)

Variable mx : list bool.
Variable max_births : Z.
Variable pop_size : nat.
Variable count_nonviable : bool.
(** environment: which pending evaluation completes as number i, its outcome, the offspring pipeline (with its randomness;
    it sees the ranks and distances as well) *)
Variable choice : nat -> nat.
Variable outcome : nat -> G -> result (list num).
Variable pipeline : nat -> attrs -> list mo -> list G.

(** leap_ec/distrib/asynchronous.py:170-182, leap_ec/multiobjective/asynchronous.py:201; [a]: attributes before the run *)
Definition ns_init (a : attrs) (genomes : list G) : nstate :=
  mk_ns (make_tasks 0 genomes) (mk_ins [] a) [] (inc_births 0) (length genomes) [] [].

(** leap_ec/distrib/asynchronous.py:184-231: the body of the loop for completion number [i]; None when nothing is pending *)
Definition ns_body (i : nat) (st : nstate) : option (result nstate) :=
  let k := choice i mod length (ns_pending st) in
  match nth_error (ns_pending st) k with
  | None => None
  | Some t =>
      let pending := remove_at k (ns_pending st) in
      let x := mk_mo (t_id t) (match outcome i (t_genome t) with Ok f => f | Err _ => scalar_nan mx end) in
      let viable := match outcome i (t_genome t) with Ok _ => true | Err _ => false end in
      let births := if negb viable && negb count_nonviable then snd (bc_decrement (ns_births st)) else ns_births st in
      Some (bind (nsga_insert mx pop_size (fun id => (id =? t_id t) && negb viable) x (ns_ins st)) (fun r =>
        let ins := snd r in
        let pop := concat (ins_layers ins) in
        if (bc_curr births <? max_births)%Z then
          let children := make_tasks (ns_next st) (pipeline i (ins_attrs ins) pop) in
          Ok (mk_ns (pending ++ children) ins pop
                    (snd (bc_increment [] (Z.of_nat (length children)) births))
                    (ns_next st + length children) (ns_evaluated st ++ [x]) (ns_submitted st ++ children))
        else Ok (mk_ns pending ins pop births (ns_next st) (ns_evaluated st ++ [x]) (ns_submitted st))))
  end.

(** leap_ec/distrib/asynchronous.py:184-231: the first [n] completions, beginning with number [i] *)
Fixpoint ns_iter (n i : nat) (st : nstate) : result nstate :=
  match n with
  | 0 => Ok st
  | S n' => match ns_body i st with
            | None => Ok st
            | Some (Err e) => Err e
            | Some (Ok st') => ns_iter n' (S i) st'
            end
  end.

(** leap_ec/distrib/asynchronous.py:184-233: the whole run, for its population; None: not finished after [fuel] completions *)
Fixpoint ns_loop (fuel i : nat) (st : nstate) : option (result nstate) :=
  match ns_body i st with
  | None => Some (Ok st)
  | Some (Err e) => Some (Err e)
  | Some (Ok st') => match fuel with 0 => None | S fuel' => ns_loop fuel' (S i) st' end
  end.
End Nsga.

(** leap_ec/multiobjective/ops.py:26-36 sort_by_dominance: sorted by the tuple (rank, -distance), stable.  Tuples compare by
    the first element that differs. *)
Definition before_key (rank : nat -> nat) (dist : nat -> val) (a b : mo) : bool :=
  if rank (o_id a) =? rank (o_id b) then vlt (vneg (dist (o_id a))) (vneg (dist (o_id b)))
  else rank (o_id a) <? rank (o_id b).
(** leap_ec/multiobjective/ops.py:26-36 *)
Definition sort_by_dominance (rank : nat -> nat) (dist : nat -> val) (population : list mo) : list mo :=
  sort_asc (before_key rank dist) population.
