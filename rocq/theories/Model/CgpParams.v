(** Genomes of two segments - a CGP circuit and the parameters of its nodes - and what makes, mutates and decodes them:
    leap_ec/executable_rep/cgp.py CGPWithParametersDecoder with leap_ec/segmented_rep/ops.py segmented_mutate, as they are
    put together in examples/advanced/cgp_images.py. *)
From Verif Require Import Model.Base Model.Variation Model.Segmented Model.SegMutate Model.Cgp.

(** a gene: of an array of integers (the circuit) or of one of floats (the parameters) *)
(** leap_ec/executable_rep/cgp.py:567-568 *)
Definition cell := (Z + Q)%type.

(** the genes of an integer array; a circuit of floats is not modelled further (list indices must be integers) *)
(** leap_ec/executable_rep/cgp.py:571 *)
Fixpoint int_genes (l : list cell) : result (list Z) :=
  match l with
  | [] => Ok []
  | inl z :: r => bind (int_genes r) (fun r' => Ok (z :: r'))
  | inr _ :: _ => Err TypeError
  end.
(** the genes of a float array; gaussian mutation of integer arrays, which truncates, is not modelled *)
(** leap_ec/real_rep/ops.py:129-134 *)
Fixpoint real_genes (l : list cell) : result (list Q) :=
  match l with
  | [] => Ok []
  | inr q :: r => bind (real_genes r) (fun r' => Ok (q :: r'))
  | inl _ :: _ => Err TypeError
  end.
(** genes clipped by finite bounds are finite, leap_ec/real_rep/ops.py:181 *)
Fixpoint finite_cells (l : list ext) : result (list cell) :=
  match l with
  | [] => Ok []
  | Fin x :: r => bind (finite_cells r) (fun r' => Ok (inr x :: r'))
  | _ :: _ => Err OverflowError
  end.

(** leap_ec/executable_rep/cgp.py:584-599 CGPWithParametersDecoder.initialize, one call of create; [ds]: the draws for the
    circuit; [parameters]: what parameters_initializer() returns *)
Definition initialize_with_parameters {V} (d : decoder V) (ds : list Z) (parameters : result (list Q)) : result (list (list cell)) :=
  bind (create_cgp_vector d ds) (fun circuit =>
  bind parameters (fun pars => Ok [map inl circuit; map inr pars])).

(** leap_ec/executable_rep/cgp.py:538-582 CGPWithParametersDecoder.decode on the whole genome; [val]: a parameter as a value
    that the primitives work on *)
Definition decode_segments {V} (val : cell -> V) (d : decoder V) (np : nat) (prune : bool) (segments : list (list cell)) : result (graph V) :=
  match segments with
  | [circuit; pars] => bind (int_genes circuit) (fun g => decode_with_parameters d np prune g (map val pars))
  | _ => Err AssertionError
  end.

(** leap_ec/executable_rep/cgp.py:631-642 cgp_genome_mutate as one of mutator_functions: it writes into the array it is given
    and returns it (leap_ec/int_rep/ops.py:103-108); all its exceptions come before the assignment *)
Definition circuit_mutator {V} (d : decoder V) (expected probability : option Q) (us : list Q) (ds : list Z) : smutator cell :=
  fun seg => match bind (int_genes seg) (cgp_genome_mutate d expected probability us ds) with
             | Ok g => (map inl g, Ok None)
             | Err e => (seg, Err e)
             end.
(** leap_ec/real_rep/ops.py:79-139 genome_mutate_gaussian with one pair of finite bounds as one of mutator_functions: it
    writes into the array it is given and returns a new, clipped one *)
Definition parameter_mutator (stds : Q + list Q) (expected : option Q) (low high slope intercept : Q) (us noise : list Q) : smutator cell :=
  fun seg => match bind (real_genes seg) (genome_mutate_gaussian stds expected (BScalar (Fin low) (Fin high)) slope intercept us noise) with
             | Ok (inplace, out) => (map inr inplace, bind (finite_cells out) (fun g => Ok (Some g)))
             | Err e => (seg, Err e)
             end.
