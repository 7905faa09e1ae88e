(** A different mutator for each segment: leap_ec/segmented_rep/ops.py, segmented_mutate. *)
From Verif Require Import Model.Base Model.Segmented.

Section SegMutate.
Context {G : Type}.

(** One of mutator_functions as it behaves in one call (its random draws are part of the function): from the
    segment it is given, the contents it leaves in that array, and what it returns: None for the array it was
    given, Some for a newly made array, or an exception.  Mutators that touch arrays other than the one they
    are given are not modelled. *)
(** leap_ec/segmented_rep/ops.py:79-81 *)
Definition smutator := list G -> list G * result (option (list G)).

(** m(segment), leap_ec/segmented_rep/ops.py:80-81 *)
Definition call_mutator (m : smutator) (st : store G) (a : nat) : store G * result nat :=
  let '(written, r) := m (s_seg st a) in
  let st1 := write_seg st a written in
  match r with
  | Err e => (st1, Err e)
  | Ok None => (st1, Ok a)
  | Ok (Some g) => let '(b, st2) := new_seg st1 g in (st2, Ok b)
  end.

(** the loop of leap_ec/segmented_rep/ops.py:79-81; zip stops at the shorter list; [acc]: mutated_genome *)
Fixpoint mutate_each (segments : list nat) (ms : list smutator) (st : store G) (acc : list nat)
  : store G * result (list nat) :=
  match segments, ms with
  | a :: segments', m :: ms' =>
      match call_mutator m st a with
      | (st1, Err e) => (st1, Err e)
      | (st1, Ok b) => mutate_each segments' ms' st1 (acc ++ [b])
      end
  | _, _ => (st, Ok acc)
  end.

(** leap_ec/segmented_rep/ops.py:75-88 one turn of segmented_mutate, with the individual as it is left behind.
    When the assertion fails its message is built first, and that looks up a name [mutators] that does not
    exist. *)
Definition segmented_mutate (ms : list smutator) (st : store G) (x : sind) : store G * sind * result unit :=
  if length (sg_genome x) =? length ms then
    match mutate_each (sg_genome x) ms st [] with
    | (st1, Err e) => (st1, x, Err e)
    | (st1, Ok genome) => (st1, mk_sind genome None, Ok tt)
    end
  else (st, x, Err NameError).

(** leap_ec/segmented_rep/ops.py:74-88 the generator drained: every individual in turn, with the mutators as they
    behave on that turn *)
Fixpoint segmented_mutate_all (mss : list (list smutator)) (st : store G) (xs : list sind)
  : store G * list sind * result unit :=
  match mss, xs with
  | ms :: mss', x :: xs' =>
      match segmented_mutate ms st x with
      | (st1, y, Err e) => (st1, y :: xs', Err e)
      | (st1, y, Ok _) =>
          let '(st2, ys, r) := segmented_mutate_all mss' st1 xs' in (st2, y :: ys, r)
      end
  | _, _ => (st, xs, Ok tt)
  end.
End SegMutate.
Arguments smutator : clear implicits.
