(** What a mutator makes of a segment. *)
From Verif Require Import Model.Base Model.Segmented Model.SegMutate.

(** the mutator succeeds on [g], and the array it returns then holds [g'] *)
Definition turns_into {G} (m : smutator G) (g g' : list G) : Prop :=
  exists written r, m g = (written, Ok r) /\ g' = match r with None => written | Some fresh => fresh end.

(** the j-th mutator turns the j-th segment into the j-th new segment *)
Inductive segment_wise {G} : list (smutator G) -> list (list G) -> list (list G) -> Prop :=
| sw_nil : segment_wise [] [] []
| sw_cons : forall m ms g gs g' gs',
    turns_into m g g' -> segment_wise ms gs gs' -> segment_wise (m :: ms) (g :: gs) (g' :: gs').

(** what the mutators leave in the arrays they were given, whatever they return *)
Definition left_behind {G} (ms : list (smutator G)) (gs : list (list G)) : list (list G) :=
  map (fun p => fst (fst p (snd p))) (combine ms gs).

(** all segments of a population *)
Definition all_segments (xs : list sind) : list nat := flat_map sg_genome xs.

(** *** data for the examples *)
(** a mutator that writes into its array and returns it (bit flip), one that returns a new array (gaussian),
    one that writes and then fails *)
Definition flip_first : smutator nat := fun g => (1 :: tl g, Ok None).
Definition shifted : smutator nat := fun g => (g, Ok (Some (map S g))).
Definition breaks : smutator nat := fun g => (0 :: g, Err ValueError).
Definition seg_start : store nat := mk_store (fun n => [n + 5; n + 20]) 4.
