(** Lazy pipelines: a stack of generators pulled by ops.pool (leap_ec/ops.py:1089-1117).  Python evaluates a
    generator only when its consumer asks for the next element; [pull] is that request. *)
From Verif Require Import Model.Base Model.Heap.

Section Pipeline.
Context {G P F : Type}.
Variable nan : F.
Variable decoder_of : nat -> option (list G -> result P).
Variable problem_of : nat -> phen_value G P -> result F.

(** Operators; oracle arguments are indexed by the number of individuals handed out before.
    - [OpIter]: a list iterator (a source that can run out).
    - [OpSelect]: any selection operator (the selection operators of leap_ec/ops.py yield members of the
      population); [pick k] is the position of the k-th pick.
    - [OpClone]: leap_ec/ops.py:326-352.
    - [OpMutate]: bit flip / gaussian / randint / binomial mutation; [quiet]: the operator catches
      StopIteration and returns (leap_ec/int_rep/ops.py:47-50, 217-220).
    - [OpXover]: leap_ec/ops.py:372-412 with an operator object of its own; [skip k]: the crossover started
      after k children is not performed.
    - [OpEval]: leap_ec/ops.py:236-264. *)
Inductive op :=
| OpIter (items : list nat)
| OpSelect (population : list nat) (pick : nat -> nat)
| OpClone
| OpMutate (f : nat -> list G -> result (list G * option (list G))) (quiet : bool)
| OpXover (skip : nat -> bool) (f : nat -> list G -> list G -> result (list G * list G)) (fresh : bool)
| OpEval.

(** Local state of a generator: how many individuals it has handed out, and a second child waiting. *)
(** the generators of leap_ec/ops.py:236-264, 326-352, 372-412 *)
Record ostate := mk_ostate { s_done : nat; s_second : option nat }.
(** the generators of leap_ec/ops.py:236-264, 326-352, 372-412 *)
Definition start (stack : list op) : list ostate := map (fun _ => mk_ostate 0 None) stack.

(** PEP 479: StopIteration escaping from a generator body becomes RuntimeError *)
(** the generators of leap_ec/ops.py:236-264, 326-352, 372-412 *)
Definition pep479 (e : exn) : exn := match e with StopIteration => RuntimeError | _ => e end.

(** what a step in the body of a generator comes to *)
(** the generators of leap_ec/ops.py:236-264, 326-352, 372-412 *)
Definition in_generator {A} (r : result A) : result A := match r with Ok a => Ok a | Err e => Err (pep479 e) end.

(** the generators of leap_ec/ops.py:236-264, 326-352, 372-412 *)
Definition tick (s : ostate) : ostate := mk_ostate (S (s_done s)) None.

(** One request for the next individual from a stack of generators, most downstream first.  The state
    list has one entry per operator (TypeError stands for the impossible mismatch). *)
(** leap_ec/ops.py:236-264, 326-352, 372-412 *)
Fixpoint pull (stack : list op) (sts : list ostate) (w : world G P F)
  : result (nat * list ostate * world G P F) :=
  match stack, sts with
  | OpIter items :: _, s :: ss =>
      match nth_error items (s_done s) with
      | None => Err StopIteration
      | Some i => Ok (i, tick s :: ss, w)
      end
  | OpSelect population pick :: _, s :: ss =>
      match nth_error population (pick (s_done s)) with
      | None => Err IndexError
      | Some i => Ok (i, tick s :: ss, w)
      end
  | OpClone :: up, s :: ss =>
      match pull up ss w with
      | Err e => Err (pep479 e)
      | Ok (i, ss', w1) => let '(c, w2) := clone w1 i in Ok (c, tick s :: ss', w2)
      end
  | OpMutate f quiet :: up, s :: ss =>
      match pull up ss w with
      | Err e => Err (if quiet then e else pep479 e)
      | Ok (i, ss', w1) =>
          match mutate_ind (f (s_done s)) w1 i with
          | (Err e, _) => Err (pep479 e)
          | (Ok _, w2) => Ok (i, tick s :: ss', w2)
          end
      end
  | OpXover skip f fresh :: up, s :: ss =>
      match s_second s with
      | Some j => Ok (j, tick s :: ss, w)
      | None =>
          match pull up ss w with
          | Err e => Err (pep479 e)
          | Ok (i, ss1, w1) =>
              match pull up ss1 w1 with
              | Err e => Err (pep479 e)
              | Ok (j, ss2, w2) =>
                  let s' := mk_ostate (S (s_done s)) (Some j) in
                  match xover_pair (skip (s_done s)) (f (s_done s)) fresh w2 i j with
                  | (Err e, _) => Err (pep479 e)
                  | (Ok _, w3) => Ok (i, s' :: ss2, w3)
                  end
              end
          end
      end
  | OpEval :: up, s :: ss =>
      match pull up ss w with
      | Err e => Err (pep479 e)
      | Ok (i, ss', w1) =>
          match evaluate nan decoder_of problem_of w1 i with
          | (Err e, _) => Err (pep479 e)
          | (Ok _, w2) => Ok (i, tick s :: ss', w2)
          end
      end
  | _, _ => Err TypeError
  end.

(** leap_ec/ops.py:1089-1117 pool: a list comprehension over range(size) *)
Fixpoint pool (size : nat) (stack : list op) (sts : list ostate) (w : world G P F)
  : result (list nat * list ostate * world G P F) :=
  match size with
  | 0 => Ok ([], sts, w)
  | S n =>
      match pull stack sts w with
      | Err e => Err e
      | Ok (i, sts1, w1) =>
          match pool n stack sts1 w1 with
          | Err e => Err e
          | Ok (r, sts2, w2) => Ok (i :: r, sts2, w2)
          end
      end
  end.
End Pipeline.
Arguments op : clear implicits.
