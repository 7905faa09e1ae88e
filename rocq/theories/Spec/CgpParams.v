(** The life of a two-segment CGP genome. *)
From Verif Require Import Model.Base Model.Variation Model.Segmented Model.SegMutate Model.Cgp Model.CgpParams.
From Verif Require Import Spec.Variation Spec.Segmented Spec.Cgp.

(** One turn's mutators: a circuit mutator with a proper rate and a parameter mutator with bounds [low, high], with as many
    draws as they ask for; [n]: how many parameters there are. *)
Definition sound_turn {V} (d : decoder V) (n : nat) (low high : Q) (ms : list (smutator cell)) : Prop :=
  exists expected probability us ds p stds expected' slope intercept us' noise p',
    ms = [circuit_mutator d expected probability us ds; parameter_mutator stds expected' low high slope intercept us' noise] /\
    rate_is expected probability (num_genes d) p /\ (0 <= p)%Q /\ (p <= 1)%Q /\
    length us = num_genes d /\ num_genes d <= length ds /\
    match stds with inl s => 0 <= s | inr l => length l = n end%Q /\
    match expected' with None => p' == 1 | Some e => n <> 0%nat /\ p' * inject_Z (Z.of_nat n) == e end%Q /\
    (0 <= p')%Q /\ (p' <= 1)%Q /\ length us' = n /\ length noise = length (filter (fun u => Qltb u p') us').

(** Any number of turns of segmented_mutate, between which the rest of the store may change and the individual may be
    replaced by a copy. *)
Inductive life {V} (d : decoder V) (n : nat) (low high : Q) (st : store cell) (x : sind) : store cell -> sind -> Prop :=
| life_start : life d n low high st x st x
| life_mutate st1 x1 ms st2 x2 : life d n low high st x st1 x1 -> sound_turn d n low high ms ->
    segmented_mutate ms st1 x1 = (st2, x2, Ok tt) -> life d n low high st x st2 x2
| life_copied st1 x1 st2 x2 : life d n low high st x st1 x1 ->
    seg_sane st2 x2 -> NoDup (sg_genome x2) -> contents st2 x2 = contents st1 x1 -> life d n low high st x st2 x2.

(** the parameters of node [j] *)
Definition params_of {A} (np : nat) (pars : list A) (j : nat) : list A := firstn np (skipn (j * np) pars).

(** the parameters of all nodes that the outputs depend on are the same *)
Definition same_where_needed {V A} (ni np : nat) (prog : list (pnode V)) (outs : list Z) (pars pars' : list A) : Prop :=
  forall j, j < length prog -> needed ni prog outs (Z.of_nat (ni + j)) -> params_of np pars j = params_of np pars' j.
