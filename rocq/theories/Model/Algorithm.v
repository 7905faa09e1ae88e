(** The algorithm loops of leap_ec/algorithm.py. *)
From Verif Require Import Model.Base Model.PyList Model.Selection Model.Counters.

(** ** leap_ec/algorithm.py:21-141 generational_ea
    The i-th iteration's operators and randomness are an arbitrary function of the iteration number,
    so stateful pipelines are covered.  Operators are assumed not to change the parents (C51) nor
    the generation entry of the context.  [max_generations] is finite.  [init] is the evaluated
    initial population (lines 119-126). *)
Section Generational.
Context {A : Type}.
Variable lt gt eq : nat -> A -> A -> bool.      (* comparison answers during iteration i *)
Variable max_generations : Z.
Variable k_elites : nat.
(** i-th run of the user's pipeline: context generation seen, parents, result *)
Variable pipeline : nat -> Z -> list A -> result (list A).
(** i-th call of the stop predicate *)
Variable stop : nat -> Z -> list A -> bool.

(** what the caller's code can observe of leap_ec/algorithm.py:131-141 *)
Inductive gen_event :=
| EvStop (ctx : Z) (pop : list A)     (* stop predicate called *)
| EvPipe (ctx : Z) (pop : list A).    (* pipeline run *)

(** leap_ec/algorithm.py:131-141; [None] only when [fuel] iterations were not enough *)
Fixpoint gen_loop (fuel i : nat) (gc : gen_counter) (parents : list A)
  : option (result (list A) * gen_counter * list gen_event) :=
  if Z.ltb (gc_generation gc) max_generations then
    if stop i (gc_ctx gc) parents then Some (Ok parents, gc, [EvStop (gc_ctx gc) parents])
    else
      match fuel with
      | 0 => None
      | S fuel' =>
          let evs := [EvStop (gc_ctx gc) parents; EvPipe (gc_ctx gc) parents] in
          match pipeline i (gc_ctx gc) parents with
          | Err e => Some (Err e, gc, evs)
          | Ok offspring =>
              let survivors := fst (elitist_survival (lt i) (gt i) (eq i) offspring parents k_elites) in
              let gc' := snd (gc_increment [] gc) in
              match gen_loop fuel' (S i) gc' survivors with
              | None => None
              | Some (r, gc'', evs') => Some (r, gc'', evs ++ evs')
              end
          end
      end
  else Some (Ok parents, gc, []).

(** leap_ec/algorithm.py:120-141 *)
Definition generational_ea (start_generation : Z) (init : list A)
  : option (result (list A) * gen_counter * list gen_event) :=
  gen_loop (Z.to_nat (max_generations - start_generation)) 0 (inc_generation start_generation) init.
End Generational.

(** ** leap_ec/algorithm.py:147-292 multi_population_ea
    [view]: what an operator can read in the context.  context['leap']['subpopulations'] is the very
    list [pops] (line 268), so it always shows the latest populations. *)
Record view (A : Type) := mk_view { v_gen : Z; v_current : nat; v_pops : list (list A) }.
Arguments mk_view {A}. Arguments v_gen {A}. Arguments v_current {A}. Arguments v_pops {A}.

Section MultiPop.
Context {A : Type}.
(** an operator; the number counts the generations, for stateful operators and randomness *)
(** an element of the lists piped at leap_ec/algorithm.py:283-288 *)
Definition mop := nat -> view A -> list A -> result (list A).

Variable max_generations : Z.
Variable shared_pipeline : list mop.
Variable subpop_pipelines : list (list mop).
Variable stop : nat -> Z -> list (list A) -> bool.

(** toolz.pipe *)
(** leap_ec/algorithm.py:285 *)
Fixpoint run_ops (ops : list mop) (g : nat) (v : view A) (x : list A) : result (list A) :=
  match ops with
  | [] => Ok x
  | o :: r => bind (o g v x) (run_ops r g v)
  end.

(** leap_ec/algorithm.py:283-284: list(shared_pipeline) + (list(subpop_pipelines[i]) if subpop_pipelines else []) *)
Definition operators (i : nat) : result (list mop) :=
  match subpop_pipelines with
  | [] => Ok shared_pipeline
  | _ => match nth_error subpop_pipelines i with
         | Some p => Ok (shared_pipeline ++ p)
         | None => Err IndexError
         end
  end.

(** what the caller's code can observe of leap_ec/algorithm.py:272-292 *)
Inductive mp_event := MpRun (island : nat) (v : view A) (parents : list A).

(** leap_ec/algorithm.py:277-288: for i, parents in enumerate(pops); [todo] islands are left *)
Fixpoint island_loop (todo i g : nat) (gen : Z) (pops : list (list A))
  : result (list (list A)) * list mp_event :=
  match todo with
  | 0 => (Ok pops, [])
  | S todo' =>
      match nth_error pops i with
      | None => (Ok pops, [])
      | Some parents =>
          let v := mk_view gen i pops in
          match bind (operators i) (fun ops => run_ops ops g v parents) with
          | Err e => (Err e, [MpRun i v parents])
          | Ok offspring =>
              let '(r, evs) := island_loop todo' (S i) g gen (set_nth i offspring pops) in
              (r, MpRun i v parents :: evs)
          end
      end
  end.

(** leap_ec/algorithm.py:272-292; the events of each generation are kept together *)
Fixpoint mp_loop (fuel g : nat) (gc : gen_counter) (pops : list (list A))
  : option (result (list (list A)) * gen_counter * list (list mp_event)) :=
  if Z.ltb (gc_generation gc) max_generations then
    if stop g (gc_ctx gc) pops then Some (Ok pops, gc, [])
    else
      match fuel with
      | 0 => None
      | S fuel' =>
          let '(r, evs) := island_loop (length pops) 0 g (gc_ctx gc) pops in
          match r with
          | Err e => Some (Err e, gc, [evs])
          | Ok pops' =>
              match mp_loop fuel' (S g) (snd (gc_increment [] gc)) pops' with
              | None => None
              | Some (r', gc', evss) => Some (r', gc', evs :: evss)
              end
          end
      end
  else Some (Ok pops, gc, []).

(** [init]: the evaluated initial subpopulations (lines 260-264) *)
(** leap_ec/algorithm.py:255-292 *)
Definition multi_population_ea (init : list (list A))
  : option (result (list (list A)) * gen_counter * list (list mp_event)) :=
  mp_loop (Z.to_nat max_generations) 0 (inc_generation 0) init.
End MultiPop.

(** ** leap_ec/algorithm.py:298-377 random_search
    The counter is created with the default context (line 355: no [context] argument), which is
    LEAP's global context, not the caller's.  [caller]/[global]: the generation entry of the two
    contexts. *)
Record rs_ctx := mk_rs { rs_caller : option Z; rs_global : option Z }.

Section RandomSearch.
Context {A : Type}.
Variable evaluations : Z.
(** i-th run of the pipeline on the one-element list; sees both contexts *)
Variable pipeline : nat -> rs_ctx -> list A -> result (list A).

(** leap_ec/algorithm.py:354-374 *)
Fixpoint rs_loop (fuel i : nat) (curr : Z) (c : rs_ctx) (individual : A) (trajectory : list A)
  : option (result (list A) * rs_ctx) :=
  if Z.ltb curr evaluations then
    match fuel with
    | 0 => None
    | S fuel' =>
        match pipeline i c [individual] with
        | Err e => Some (Err e, c)
        | Ok out =>
            match out with
            | [] => Some (Err IndexError, c)                       (* individual[0] *)
            | x :: _ =>
                rs_loop fuel' (S i) (curr + 1)%Z (mk_rs (rs_caller c) (Some (curr + 1)%Z)) x
                  (trajectory ++ out)
            end
        end
    end
  else Some (Ok trajectory, c).

(** [first]: the created and evaluated first individual (lines 346-350) *)
(** leap_ec/algorithm.py:349-377 *)
Definition random_search (caller global : option Z) (first : A) : option (result (list A) * rs_ctx) :=
  rs_loop (Z.to_nat (evaluations - 1)) 0 1%Z (mk_rs caller (Some 1%Z)) first [first].
End RandomSearch.

(** leap_ec/algorithm.py:383-416 stop_at_generation (the assertions aside) *)
Definition stop_at_generation {A} (max_generation : Z) : nat -> Z -> A -> bool :=
  fun _ ctx _ => negb (Z.ltb ctx max_generation).
