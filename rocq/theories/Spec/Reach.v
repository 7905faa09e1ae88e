(** Which genomes search can and cannot produce. *)
From Verif Require Import Model.Base Model.Variation Spec.Variation Spec.HeapRuns.

(** Every gene of [g] is the gene of one of the first [n] starting genomes at the same place. *)
Definition stems_from {G} (n : nat) (initialize : nat -> list G) (g : list G) : Prop :=
  forall p x, nth_error g p = Some x -> exists k, k < n /\ nth_error (initialize k) p = Some x.

(** The array cell [e] holds the number [t]. *)
Definition holds_value (e : ext) (t : Q) : Prop := exists q, e = Fin q /\ (q == t)%Q.

(** example: starting genomes over the letters 0-3 *)
Definition ex_start (k : nat) : list Z := match k with 0 => [0; 1; 2]%Z | 1 => [3; 1; 0]%Z | _ => [2; 1; 2]%Z end.
