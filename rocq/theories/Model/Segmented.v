(** Segmented (variable-length) genomes: leap_ec/segmented_rep/ops.py.  A genome is a Python list of references
    to segment arrays, so segments live in a store and two positions may hold the same array. *)
From Verif Require Import Model.Base Model.Variation.

Section Seg.
Context {G : Type}.
(** the arrays of leap_ec/segmented_rep/ops.py:44-62 *)
Record store := mk_store { s_seg : nat -> list G; s_next : nat }.
(** the individual's genome list and whether it has a fitness *)
(** leap_ec/segmented_rep/ops.py:57-60 *)
Record sind := mk_sind { sg_genome : list nat; sg_fitness : option num }.

(** leap_ec/segmented_rep/ops.py:53-55 *)
Definition write_seg (st : store) (a : nat) (genes : list G) : store :=
  mk_store (fun n => if n =? a then genes else s_seg st n) (s_next st).
(** leap_ec/segmented_rep/ops.py:126-128 *)
Definition new_seg (st : store) (genes : list G) : nat * store :=
  (s_next st, mk_store (fun n => if n =? s_next st then genes else s_seg st n) (S (s_next st))).

(** random.randrange(n): ValueError for an empty range; [d] decides which element *)
(** leap_ec/segmented_rep/ops.py:122-139, 165-177, 202-220 *)
Definition randrange (d n : nat) : result nat := if n =? 0 then Err ValueError else Ok (d mod n).

(** list.insert at a position not past the end *)
(** leap_ec/segmented_rep/ops.py:122-139, 202-220 *)
Definition insert_at {A} (k : nat) (x : A) (l : list A) : list A := firstn k l ++ x :: skipn k l.
(** leap_ec/segmented_rep/ops.py:165-177 *)
Definition delete_at {A} (k : nat) (l : list A) : list A := firstn k l ++ skipn (S k) l.

(** leap_ec/segmented_rep/ops.py:122-139 add_segment; [u]: random.random(); [init]: what seq_initializer returns *)
Definition add_segment (probability u : Q) (init : list G) (append : bool) (d : nat) (st : store) (x : sind)
  : result (sind * store) :=
  if Qltb u probability then
    let '(a, st') := new_seg st init in
    if append then Ok (mk_sind (sg_genome x ++ [a]) None, st')
    else bind (randrange d (length (sg_genome x) + 1)) (fun k =>
         Ok (mk_sind (insert_at k a (sg_genome x)) None, st'))
  else Ok (x, st).

(** leap_ec/segmented_rep/ops.py:165-177 remove_segment *)
Definition remove_segment (probability u : Q) (d : nat) (st : store) (x : sind) : result (sind * store) :=
  if 1 <? length (sg_genome x) then
    if Qltb u probability then
      bind (randrange d (length (sg_genome x))) (fun k =>
      Ok (mk_sind (delete_at k (sg_genome x)) None, st))
    else Ok (x, st)
  else Ok (x, st).

(** leap_ec/segmented_rep/ops.py:202-220 copy_segment: the segment reference itself is inserted *)
Definition copy_segment (probability u : Q) (append : bool) (d1 d2 : nat) (st : store) (x : sind)
  : result (sind * store) :=
  if Qltb u probability then
    bind (randrange d1 (length (sg_genome x))) (fun k =>
    match nth_error (sg_genome x) k with
    | None => Err IndexError
    | Some a =>
        if append then Ok (mk_sind (sg_genome x ++ [a]) None, st)
        else bind (randrange d2 (length (sg_genome x) + 1)) (fun p =>
             Ok (mk_sind (insert_at p a (sg_genome x)) None, st))
    end)
  else Ok (x, st).

(** leap_ec/segmented_rep/ops.py:53-55: mutate the segments one after another in place.  [mutator k expected g]:
    what the genome mutator writes into the k-th segment it is given (bit flip and randint mutation
    return the array they were given). *)
Fixpoint mutate_segments (mutator : nat -> list G -> result (list G)) (k : nat) (genome : list nat)
    (st : store) : result store :=
  match genome with
  | [] => Ok st
  | a :: r => bind (mutator k (s_seg st a)) (fun g => mutate_segments mutator (S k) r (write_seg st a g))
  end.

(** leap_ec/segmented_rep/ops.py:44-62 apply_mutation *)
Definition apply_mutation (mutator : Q -> nat -> list G -> result (list G)) (expected : Q)
    (st : store) (x : sind) : result (sind * store) :=
  bind (compute_expected_probability expected (length (sg_genome x))) (fun p =>
  bind (mutate_segments (mutator p) 0 (sg_genome x) st) (fun st' =>
  Ok (mk_sind (sg_genome x) None, st'))).

(** what the genome looks like *)
(** leap_ec/segmented_rep/ops.py:44-62 *)
Definition contents (st : store) (x : sind) : list (list G) := map (s_seg st) (sg_genome x).
End Seg.
Arguments store : clear implicits.
