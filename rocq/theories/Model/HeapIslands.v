(** leap_ec/algorithm.py multi_population_ea with a pipeline that ends in leap_ec/ops.py migrate, as a program on
    mutable individuals: all islands, the waiting immigrants and the earlier generations live on one heap. *)
From Verif Require Import Model.Base Model.PyList Model.Scalar Model.Selection Model.Counters Model.Heap Model.Pipeline Model.HeapEa.

Section Islands.
Context {G P : Type}.
Variable decoder_of : nat -> option (list G -> result P).
(** problems with scalar fitness *)
Variable problem_of : nat -> phen_value G P -> result num.
(** Problem.maximize of the scalar problems *)
Variable direction : nat -> bool.
Notation world := (world G P num).

(** the problem given for each island, leap_ec/algorithm.py:253-254; a single problem is the same for all *)
Variable island_problem : nat -> nat.
(** one decoder and individual class for all islands *)
Variable decoder : nat.
Variable robust : bool.
(** the k-th genome made for island i *)
Variable initialize : nat -> nat -> list G.

(** leap_ec/algorithm.py:262-263: a population for each island, created in order *)
Fixpoint create_islands (n i pop_size : nat) (w : world) : list (list nat) * world :=
  match n with
  | 0 => ([], w)
  | S n' =>
      let '(p, w1) := create_all (initialize i) (island_problem i) decoder robust pop_size 0 w in
      let '(r, w2) := create_islands n' (S i) pop_size w1 in
      (p :: r, w2)
  end.

(** leap_ec/algorithm.py:264 with the default init_evaluate *)
Fixpoint evaluate_islands (w : world) (pops : list (list nat)) : result unit * world :=
  match pops with
  | [] => (Ok tt, w)
  | p :: r =>
      match evaluate_population NNan decoder_of problem_of w p with
      | (Err e, w1) => (Err e, w1)
      | (Ok _, w1) => evaluate_islands w1 r
      end
  end.

(** leap_ec/ops.py:1207-1212 customs_stamp: the default returns its argument; [true]: the transformation the
    comment there describes, giving the immigrant the island's problem and evaluating it again *)
Variable stamps : bool.

(** leap_ec/ops.py:1212 *)
Definition customs (i : nat) (w : world) (imm : nat) : result unit * world :=
  if stamps then
    let w1 := upd_ind w imm (fun x => mk_indiv (i_genome x) (island_problem i) (i_decoder x) (i_fitness x) (i_phenome x)
                                        (i_uuid x) (i_parents x) (i_robust x) (i_viable x) (i_exc x)) in
    match evaluate NNan decoder_of problem_of w1 imm with
    | (Err e, w2) => (Err e, w2)
    | (Ok _, w2) => (Ok tt, w2)
    end
  else (Ok tt, w).

(** leap_ec/ops.py:1219, leap_ec/individual.py:211-253 and total_ordering: [imm >= contestant] is
    [not imm < contestant], decided by the immigrant's problem.  Comparing an individual without fitness is
    represented by TypeError. *)
Definition admitted (coin : bool) (w : world) (imm contestant : nat) : result bool :=
  match i_fitness (w_ind w imm), i_fitness (w_ind w contestant) with
  | Some f, Some f' => Ok (negb (worse_than (direction (i_problem (w_ind w imm))) coin f f'))
  | _, _ => Err TypeError
  end.

(** In generation g on island i: the member of the population that the replacement selector picks for its k-th
    immigrant, the coin of that comparison, the member that the emigrant selector picks, and the position
    drawn by random.choice *)
Variable replace : nat -> nat -> nat -> world -> list nat -> nat.
Variable coin : nat -> nat -> nat -> bool.
Variable sponsor : nat -> nat -> world -> list nat -> nat.
Variable draw : nat -> nat -> nat.
(** networkx: the neighbours of each island *)
Variable neighbors : nat -> list nat.
Variable gap : Z.

(** leap_ec/ops.py:1205-1225: the loop over the immigrants of island i *)
Fixpoint immigration (g i k : nat) (imms : list nat) (w : world) (pop : list nat) : result (list nat * world) :=
  match imms with
  | [] => Ok (pop, w)
  | imm :: rest =>
      match customs i w imm with
      | (Err e, _) => Err e
      | (Ok _, w1) =>
          let idx := replace g i k w1 pop in
          match nth_error pop idx with
          | None => Err IndexError
          | Some contestant =>
              bind (admitted (coin g i k) w1 imm contestant) (fun success =>
              immigration g i (S k) rest w1 (if success then set_nth idx imm pop else pop))
          end
      end
  end.

(** leap_ec/ops.py:1230-1246 *)
Definition emigration (g i : nat) (generation : Z) (w : world) (pop : list nat) (waiting : list (list nat))
  : result (list (list nat) * world) :=
  if (gap =? 0)%Z then Err ZeroDivisionError
  else if (generation mod gap =? 0)%Z then
    match nth_error pop (sponsor g i w pop) with
    | None => Err IndexError
    | Some s =>
        let '(emi, w1) := clone w s in
        let w2 := upd_ind w1 emi (set_fitness (i_fitness (w_ind w1 s))) in
        match nth_error (neighbors i) (draw g i) with
        | None => Err IndexError
        | Some dest =>
            match nth_error waiting dest with
            | None => Err IndexError
            | Some l => Ok (set_nth dest (l ++ [emi]) waiting, w2)
            end
        end
    end
  else Ok (waiting, w).

(** leap_ec/ops.py:1198-1248 do_migrate on island i *)
Definition migration (g i : nat) (generation : Z) (w : world) (pop : list nat) (waiting : list (list nat))
  : result (list nat * world * list (list nat)) :=
  match nth_error waiting i with
  | None => Err IndexError
  | Some imms =>
      bind (immigration g i 0 imms w pop) (fun '(pop', w1) =>
      bind (emigration g i generation w1 pop' (set_nth i [] waiting)) (fun '(waiting', w2) =>
      Ok (pop', w2, waiting')))
  end.

Variable max_generations : Z.
(** size argument of the ops.pool before the migration *)
Variable size : nat.
(** the operators between selection and pool, shared and island-specific, most downstream first, in generation g
    on island i; and the picks of the selection operator *)
Variable operators : nat -> nat -> list (op G).
Variable pick : nat -> nat -> world -> list nat -> nat -> nat.
(** the stop predicate, on its g-th call *)
Variable stop : nat -> world -> list (list nat) -> bool.

(** leap_ec/algorithm.py:277-288: for i, parents in enumerate(pops); [todo] islands are left *)
Fixpoint islands_loop (todo i g : nat) (generation : Z) (w : world) (pops waiting : list (list nat))
  : result (list (list nat) * list (list nat) * world) :=
  match todo with
  | 0 => Ok (pops, waiting, w)
  | S todo' =>
      match nth_error pops i with
      | None => Ok (pops, waiting, w)
      | Some parents =>
          let stack := operators g i ++ [OpSelect parents (pick g i w parents)] in
          bind (pool NNan decoder_of problem_of size stack (start stack) w) (fun '(offspring, _, w1) =>
          bind (migration g i generation w1 offspring waiting) (fun '(offspring', w2, waiting') =>
          islands_loop todo' (S i) g generation w2 (set_nth i offspring' pops) waiting'))
      end
  end.

(** leap_ec/algorithm.py:274-290; [earlier]: what the heap and the islands were at the start of each generation so
    far, oldest first.  The outcome of a run that raises shows only the exception. *)
Fixpoint generations (fuel g : nat) (gc : gen_counter) (w : world) (earlier : list (world * list (list nat)))
    (pops waiting : list (list nat))
  : option (result (list (list nat) * world * list (world * list (list nat))) * gen_counter) :=
  if Z.ltb (gc_generation gc) max_generations then
    if stop g w pops then Some (Ok (pops, w, earlier), gc)
    else
      match fuel with
      | 0 => None
      | S fuel' =>
          match islands_loop (length pops) 0 g (gc_ctx gc) w pops waiting with
          | Err e => Some (Err e, gc)
          | Ok (pops', waiting', w') =>
              generations fuel' (S g) (snd (gc_increment [] gc)) w' (earlier ++ [(w, pops)]) pops' waiting'
          end
      end
  else Some (Ok (pops, w, earlier), gc).

(** leap_ec/algorithm.py:251-292 multi_population_ea for [n] islands, with a migrate operator for a topology of
    [n] nodes (leap_ec/ops.py:1192-1196) *)
Definition heap_islands (n pop_size : nat) (w : world)
  : option (result (list (list nat) * world * list (world * list (list nat))) * gen_counter) :=
  let '(pops, w1) := create_islands n 0 pop_size w in
  let gc := inc_generation 0 in
  match evaluate_islands w1 pops with
  | (Err e, _) => Some (Err e, gc)
  | (Ok _, w2) => generations (Z.to_nat max_generations) 0 gc w2 [] pops (repeat [] n)
  end.
End Islands.
