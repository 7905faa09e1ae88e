(** What a steady-state NSGA-II run is expected to keep. *)
From Coq Require Import Permutation.
From Verif Require Import Model.Base Model.Pareto Model.Crowding Model.Enlu Model.Distrib Model.SteadyNsga Spec.Order Spec.Pareto Spec.Crowding.

(** An evaluation that succeeds: a finite number for each objective. *)
Definition full_fitness (mx : list bool) (r : result (list num)) : Prop :=
  exists f, r = Ok f /\ length f = length mx /\ Forall (fun v => exists q, num_val v = Some (Fin q)) f.

(** [pop] are those of [evaluated] who stayed, at most [pop_size], with all who were ever dropped accounted for. *)
Definition survivors (pop_size : nat) (evaluated dropped pop : list mo) : Prop :=
  Permutation evaluated (dropped ++ pop) /\ length pop = Nat.min pop_size (length evaluated).

(** Every individual of the initial population and of the offspring is evaluated or waiting, once; completion number i has
    the fitness of its own genome. *)
Definition fates {G} (outcome : nat -> G -> result (list num)) (genomes : list G) (st : @nstate G) : Prop :=
  let tasks := make_tasks 0 genomes ++ ns_submitted st in
  Permutation (map t_id tasks) (map o_id (ns_evaluated st) ++ map t_id (ns_pending st)) /\
  (forall t, In t (ns_pending st) -> In t tasks) /\
  (forall i x, nth_error (ns_evaluated st) i = Some x ->
     exists t, In t tasks /\ t_id t = o_id x /\ outcome i (t_genome t) = Ok (o_fit x)).

(** a stable sort by a strict order: a rearrangement without inversions, in which those who are not ordered among each
    other stand as they stood *)
Definition sorted_stably {A} (lt : A -> A -> Prop) (l r : list A) : Prop :=
  Permutation l r /\
  (forall i j x y, i < j -> nth_error r i = Some x -> nth_error r j = Some y -> ~ lt y x) /\
  (forall p : A -> bool, (forall x y, In x l -> In y l -> p x = true -> p y = true -> ~ lt x y) -> filter p r = filter p l).

(** better by rank, or by distance within a rank *)
Definition crowded_before (rank : nat -> nat) (dist : nat -> val) (a b : mo) : Prop :=
  rank (o_id a) < rank (o_id b) \/
  rank (o_id a) = rank (o_id b) /\ exists d e, dist (o_id a) = Some d /\ dist (o_id b) = Some e /\ ext_lt e d.

(** example data: two objectives, genome g has fitness (g, 7 - g) with both maximised except that multiples of three lose one *)
Definition ex_fitness (g : nat) : result (list num) :=
  Ok [NInt (Z.of_nat g); NInt (7 - Z.of_nat g - (if g mod 3 =? 0 then 1 else 0))].
Definition ex_offspring (i : nat) (a : attrs) (pop : list mo) : list nat := [i + 1].
