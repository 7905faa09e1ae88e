(** What can go wrong, in the words of the caller. *)
From Verif Require Import Model.Base Model.Migration Spec.Executable.

(** the first element of a list at which something goes wrong, in the way [bad] says; all before are fine *)
Definition first_trouble {A} (fine : A -> Prop) (bad : A -> exn -> Prop) (l : list A) (e : exn) : Prop :=
  exists l1 x l2, l = l1 ++ x :: l2 /\ Forall fine l1 /\ bad x e.

(** one row of a truth table *)
Definition row_fine {O} (function executable : list Z -> result (list O)) (n : nat) (pad : bool) (i : list Z) : Prop :=
  (exists expected, function i = Ok expected /\ expected <> []) /\ exists observed, executable (filled pad n i) = Ok observed.
Definition row_bad {O} (function executable : list Z -> result (list O)) (n : nat) (pad : bool) (i : list Z) (e : exn) : Prop :=
  function i = Err e \/
  (function i = Ok [] /\ e = AssertionError) \/
  (exists expected, function i = Ok expected /\ expected <> [] /\ executable (filled pad n i) = Err e).

(** one convexity test: two members of the design with genomes of one length whose mixture can be scored *)
Definition test_point (x y : list Q) (a : Q) : list Q := map (fun p => a * fst p + (1 - a) * snd p)%Q (combine x y).
Definition test_fine (score : list Q -> result Q) (design : list (list Q * Q)) (draw : nat * nat * Q) : Prop :=
  let '(i, j, a) := draw in
  exists x fx y fy v, nth_error design i = Some (x, fx) /\ nth_error design j = Some (y, fy) /\ length x = length y /\
    score (test_point x y a) = Ok v.
Definition test_bad (score : list Q -> result Q) (design : list (list Q * Q)) (draw : nat * nat * Q) (e : exn) : Prop :=
  let '(i, j, a) := draw in
  exists x fx y fy, nth_error design i = Some (x, fx) /\ nth_error design j = Some (y, fy) /\
    (length x <> length y /\ e = ValueError \/ length x = length y /\ score (test_point x y a) = Err e).

(** a replacement selector that works: some position of the population *)
Definition finds_a_place {G} (c : mig_call G) : Prop :=
  forall i pop, length pop = length (c_pop c) -> exists x idx r, c_replace c i pop = Ok (x, idx :: r) /\ idx < length pop.
