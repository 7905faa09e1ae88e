(** Specifications for whole runs of NSGA-II. *)
From Verif Require Import Model.Base Model.Pareto Model.Crowding Spec.Order Spec.Pareto.

(** the finite value of an individual in objective k *)
Definition value_at (k : nat) (x : mo) : Q := match num_val (nth k (o_fit x) NNan) with Some (Fin q) => q | _ => 0%Q end.
Definition beats_in (mx : list bool) (y x : mo) : Prop := dominates mx (o_fit y) (o_fit x).
Definition undominated (mx : list bool) (pool : list mo) (x : mo) : Prop := In x pool /\ forall z, In z pool -> ~ beats_in mx z x.
(** y is at least as good as x in objective k *)
Definition as_good_at (mx : list bool) (k : nat) (y x : mo) : Prop :=
  as_good (nth k mx true) (nth k (o_fit y) NNan) (nth k (o_fit x) NNan).

(** different objects with full vectors of finite numbers, every front of which varies in some objective *)
Record good_pool (mx : list bool) (pool : list mo) : Prop := {
  gp_some : pool <> [];
  gp_ids : NoDup (map o_id pool);
  gp_full : forall x, In x pool -> length (o_fit x) = length mx /\
              forall k, k < length mx -> exists q, num_val (nth k (o_fit x) NNan) = Some (Fin q);
  gp_varied : forall r, front_numbers (beats_in mx) pool r ->
     forall x, In x pool -> exists y z k, In y pool /\ In z pool /\ k < length mx /\
       r y = r x /\ r z = r x /\ ~ (value_at k y == value_at k z)%Q }.
(** at most n individuals of the pool are undominated *)
Definition front_fits (mx : list bool) (n : nat) (pool : list mo) : Prop :=
  forall l, NoDup l -> (forall x, In x l -> undominated mx pool x) -> length l <= n.

(** a run from [parents] to [final]: in each generation the parents, what the pipeline made of them, and survivors taken
    from both *)
Fixpoint journey (pipeline : nat -> list mo -> list mo) (g : nat) (parents : list mo) (h : list (list mo * list mo)) (final : list mo) : Prop :=
  match h with
  | [] => final = parents
  | (ps, os) :: t => ps = parents /\ os = pipeline g ps /\ exists next, incl next (os ++ ps) /\ journey pipeline (S g) next t final
  end.
Definition pool_of (s : list mo * list mo) : list mo := snd s ++ fst s.
(** everyone who was ever evaluated *)
Definition everyone (parents : list mo) (h : list (list mo * list mo)) : list mo := parents ++ concat (map snd h).

(** examples, both objectives minimised *)
Definition pt (i : nat) (a b : Z) : mo := mk_mo i [NInt a; NInt b].
(** a front of five around (50,50), of whom one must go; then an individual worse than the one lost *)
Definition lossy_parents : list mo := [pt 0 0 100; pt 1 40 60; pt 2 60 40; pt 3 100 0].
Definition lossy_pipeline (g : nat) (parents : list mo) : list mo :=
  match g with 0 => [pt 4 50 50] | _ => [pt 5 55 50; pt 6 59 (-10)] end.
(** a population of one: the best in the first objective is replaced *)
Definition single_pipeline (g : nat) (parents : list mo) : list mo := [pt 1 1 0].
(** a run whose fronts always fit *)
Definition steady_parents : list mo := [pt 0 0 100; pt 1 40 60; pt 2 60 40; pt 3 100 0].
Definition steady_pipeline (g : nat) (parents : list mo) : list mo :=
  match g with 0 => [pt 4 30 30; pt 5 70 70; pt 6 75 65] | _ => [pt 7 0 90; pt 8 10 80] end.
Definition blank : attrs := mk_attrs (fun _ => 0) (fun _ => None).
