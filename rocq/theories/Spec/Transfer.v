(** Specifications for making populations *)
From Verif Require Import Model.Base Model.Transfer.

(** [calls f s gs s']: calling f again and again from state s returns exactly gs and ends in s' *)
Inductive calls {S G} (f : S -> result G * S) : S -> list G -> S -> Prop :=
| calls_nil s : calls f s [] s
| calls_cons s g s1 gs s2 : f s = (Ok g, s1) -> calls f s1 gs s2 -> calls f s (g :: gs) s2.

(** a new population with the given genomes *)
Definition fresh_population {G D P} (decoder : D) (problem : P) (gs : list G) (l : list (made G D P)) : Prop :=
  map m_genome l = gs /\ Forall (fun x => m_decoder x = decoder /\ m_problem x = problem /\ m_fitness x = None) l.

(** a run ends with the pair of a step and an individual of genome g *)
Definition ends_with {G} (run : list (run_item G)) (g : G) : Prop := exists before step, run = before ++ [Pair step g].
(** a run that is empty, or ends with a bare individual, and the exception this leads to *)
Definition ends_badly {G} (run : list (run_item G)) (e : exn) : Prop :=
  (run = [] /\ e = IndexError) \/
  (exists before n g, run = before ++ [Bare n g] /\ ((n <> 2 /\ e = ValueError) \/ (n = 2 /\ e = AttributeError))).
