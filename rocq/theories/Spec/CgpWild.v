(** CGP genomes made of any integers: what can be read when. *)
From Verif Require Import Model.Base Model.Cgp Spec.Cgp.

(** the gene that names the function of node j *)
Definition function_gene {V} (d : decoder V) (genome : list Z) (j : nat) : Z := nth (j * (c_arity d + 1)) genome 0%Z.
(** a gene that names a function, counted from the front or from the back *)
Definition names_function {V} (d : decoder V) (z : Z) : Prop :=
  (- Z.of_nat (length (c_prims d)) <= z < Z.of_nat (length (c_prims d)))%Z.

(** every node reads inputs and nodes before it, every output also the outputs before it *)
Definition readable {V} (ni : nat) (prog : list (pnode V)) (outs : list Z) : Prop :=
  (forall j p srcs par, nth_error prog j = Some (p, srcs, par) -> Forall (fun s => 0 <= s < Z.of_nat (ni + j))%Z srcs) /\
  (forall k s, nth_error outs k = Some s -> (0 <= s < Z.of_nat (ni + length prog + k))%Z).

(** primitives that accept any arguments *)
Definition never_raise {V} (prims : list (prim V)) : Prop := forall p, In p prims -> forall args, exists v, p_call p args = Ok v.
