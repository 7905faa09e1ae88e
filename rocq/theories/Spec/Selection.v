(** What it means to select the best members of a list, independent of any algorithm. *)
From Coq Require Export List Permutation Sorted.
Export ListNotations.

Section Spec.
Context {A : Type}.
(** [nb x y]: x is not better than y *)
Variable nb : A -> A -> Prop.

(** [r] is a best-[k] selection from [l]: it has [min k |l|] members, taken from [l] with
    multiplicity, listed best first, and nothing left out is better than anything kept. *)
Definition best_selection (k : nat) (l r : list A) : Prop :=
  length r = Nat.min k (length l) /\
  StronglySorted (fun x y => nb y x) r /\
  exists rest, Permutation l (r ++ rest) /\
    forall kept dropped, In kept r -> In dropped rest -> nb dropped kept.

(** Ties go to the earlier element: within each group of tied elements, the kept ones are an
    initial run of that group in input order. *)
Definition ties_favor_earlier (tie : A -> A -> Prop) (l r : list A) : Prop :=
  forall x (f : A -> bool), (forall y, f y = true <-> tie x y) ->
  exists later, filter f l = filter f r ++ later.

(** [r] is [l] with the element at position [i] replaced by [x]. *)
Definition replaced_at (i : nat) (x : A) (l r : list A) : Prop :=
  exists l1 old l2, l = l1 ++ old :: l2 /\ r = l1 ++ x :: l2 /\ length l1 = i.

(** Each child in turn meets the member at its drawn position and takes its place unless that
    member is better. *)
Inductive each_competes : list A -> list nat -> list A -> list A -> Prop :=
| ec_done : forall members, each_competes [] [] members members
| ec_child : forall child children i draws members incumbent members' r,
    nth_error members i = Some incumbent ->
    (nb incumbent child -> replaced_at i child members members') ->
    (~ nb incumbent child -> members' = members) ->
    each_competes children draws members' r ->
    each_competes (child :: children) (i :: draws) members r.

(** A sequence of draws made of complete tours of the population. *)
Definition complete_tours (m : nat) (population draws : list A) : Prop :=
  exists tours, length tours = m /\ Forall (Permutation population) tours /\ draws = concat tours.
End Spec.
