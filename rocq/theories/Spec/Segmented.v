(** Allowed changes of a list of segments. *)
From Verif Require Import Model.Base Model.Segmented.

(** [l'] is [l] with [x] inserted somewhere, everything else in place and order *)
Definition one_inserted {A} (x : A) (l l' : list A) : Prop :=
  exists l1 l2, l = l1 ++ l2 /\ l' = l1 ++ x :: l2.
Definition one_removed {A} (l l' : list A) : Prop :=
  exists l1 x l2, l = l1 ++ x :: l2 /\ l' = l1 ++ l2.

(** every segment of the genome exists *)
Definition seg_sane {G} (st : store G) (x : sind) : Prop := Forall (fun a => a < s_next st) (sg_genome x).
