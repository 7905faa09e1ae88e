(** The crossover operator object shared by several generators: leap_ec/ops.py:360-363, 372-412.
    Individuals are named by numbers; what recombination does to them is Model/Heap.v's
    [recombine_ind].  Only the hand-out protocol is modelled here. *)
From Verif Require Import Model.Base.

(** where a generator made by Crossover.__call__ stands: not yet started; about to fetch a pair
    (line 390); suspended after yielding the first child (line 406); finished by an exception *)
(** leap_ec/ops.py:372-412 *)
Inductive pc := Fresh | Loop | Mid | Dead.
(** leap_ec/ops.py:372-412 *)
Record gen := mk_gen { g_pc : pc; g_up : list nat }.

(** what next(generator) does: yield a child, yield None, or raise *)
(** leap_ec/ops.py:372-412 *)
Inductive outcome := Yield (child : option nat) | Raise (e : exn).

Section Gen.
Variable persist : bool.
(** leap_ec/ops.py:392-400: the two children of a pair (the pair itself, recombined or not), or an exception *)
Variable breed : nat -> nat -> result (nat * nat).

(** leap_ec/ops.py:389-405: fetch a pair and yield the first child.  Returns also the pair produced.  The
    generator dies of any exception; upstream exhaustion becomes RuntimeError (PEP 479). *)
Definition loop_body (second : option nat) (up : list nat)
  : outcome * option nat * gen * list nat :=
  match up with
  | a :: b :: up' =>
      match breed a b with
      | Ok (c1, c2) => (Yield (Some c1), Some c2, mk_gen Mid up', [c1; c2])
      | Err e => (Raise (match e with StopIteration => RuntimeError | _ => e end), second, mk_gen Dead up', [])
      end
  | _ => (Raise RuntimeError, second, mk_gen Dead [], [])
  end.

(** next() on a generator, given self.second_child: outcome, new second_child, generator, children made *)
(** leap_ec/ops.py:372-412 *)
Definition gen_next (second : option nat) (g : gen) : outcome * option nat * gen * list nat :=
  match g_pc g with
  | Fresh =>
      match persist, second with
      | true, Some c => (Yield (Some c), None, mk_gen Loop (g_up g), [])
      | _, _ => loop_body second (g_up g)
      end
  | Loop => loop_body second (g_up g)
  | Mid => (Yield second, None, mk_gen Loop (g_up g), [])
  | Dead => (Raise StopIteration, second, g, [])
  end.

(** the operator object is called on an upstream, or an existing generator is pulled *)
(** leap_ec/ops.py:372-412 *)
Inductive event := New (upstream : list nat) | Next (k : nat).

(** leap_ec/ops.py:360-363 *)
Record xstate := mk_x { x_second : option nat; x_gens : list gen; x_out : list outcome; x_made : list nat }.
(** leap_ec/ops.py:360-363 *)
Definition x_init : xstate := mk_x None [] [] [].

(** bookkeeping for the generators of leap_ec/ops.py:372-412 *)
Fixpoint replace_at {A} (k : nat) (x : A) (l : list A) : list A :=
  match l, k with
  | [], _ => []
  | _ :: r, 0 => x :: r
  | y :: r, S k' => y :: replace_at k' x r
  end.

(** leap_ec/ops.py:372-412 *)
Definition x_step (s : xstate) (e : event) : xstate :=
  match e with
  | New up => mk_x (x_second s) (x_gens s ++ [mk_gen Fresh up]) (x_out s) (x_made s)
  | Next k =>
      match nth_error (x_gens s) k with
      | None => s
      | Some g =>
          let '(o, second, g', made) := gen_next (x_second s) g in
          mk_x second (replace_at k g' (x_gens s)) (x_out s ++ [o]) (x_made s ++ made)
      end
  end.
(** leap_ec/ops.py:372-412 *)
Definition x_run (es : list event) : xstate := fold_left x_step es x_init.
End Gen.
