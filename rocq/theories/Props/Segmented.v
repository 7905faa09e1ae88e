(** C24: segmented genomes. *)
From Verif Require Import Model.Base Model.Segmented Spec.Segmented Proofs.Segmented.
From Coq Require Import Lqa.
Local Open Scope Q_scope.
Local Open Scope nat_scope.

(** Missing from the full claim: independence of a copied segment (see the refutation); in-place
    mutation is shown segment-wise only when no segment is shared. *)
Theorem C24_add_segment_partial :
  forall G probability u init append d (st : store G) x, seg_sane st x ->
  exists x' st', add_segment probability u init append d st x = Ok (x', st') /\
    ((u < probability)%Q -> one_inserted init (contents st x) (contents st' x') /\ sg_fitness x' = None /\
       (append = true -> contents st' x' = contents st x ++ [init])) /\
    (~ (u < probability)%Q -> x' = x /\ st' = st).
Proof. exact @add_spec. Qed.
Print Assumptions C24_add_segment_partial.

Theorem C24_remove_segment_partial :
  forall G probability u d (st : store G) x,
  exists x', remove_segment probability u d st x = Ok (x', st) /\
    ((u < probability)%Q -> 1 < length (sg_genome x) ->
       one_removed (contents st x) (contents st x') /\ sg_fitness x' = None) /\
    (~ (u < probability)%Q \/ length (sg_genome x) <= 1 -> x' = x).
Proof. exact @remove_spec. Qed.
Print Assumptions C24_remove_segment_partial.

Theorem C24_copy_segment_partial :
  forall G probability u append d1 d2 (st : store G) x, sg_genome x <> [] ->
  exists x', copy_segment probability u append d1 d2 st x = Ok (x', st) /\
    ((u < probability)%Q -> exists seg, In seg (contents st x) /\
       one_inserted seg (contents st x) (contents st x') /\ sg_fitness x' = None /\
       (append = true -> contents st x' = contents st x ++ [seg])) /\
    (~ (u < probability)%Q -> x' = x).
Proof. exact @copy_spec. Qed.
Print Assumptions C24_copy_segment_partial.

Theorem C24_add_and_remove_share_nothing :
  forall G probability u init append d (st : store G) x, seg_sane st x -> NoDup (sg_genome x) ->
  (forall x' st', add_segment probability u init append d st x = Ok (x', st') ->
     seg_sane st' x' /\ NoDup (sg_genome x')) /\
  (forall x' st', remove_segment probability u d st x = Ok (x', st') ->
     seg_sane st' x' /\ NoDup (sg_genome x')).
Proof. exact @unshared_kept. Qed.
Print Assumptions C24_add_and_remove_share_nothing.

Theorem C24_mutation_is_segment_wise_partial :
  forall G (mutator : Q -> nat -> list G -> result (list G)) expected (st : store G) x,
  NoDup (sg_genome x) -> sg_genome x <> [] ->
  (forall p j g, exists g', mutator p j g = Ok g') ->
  exists x' st' p, apply_mutation mutator expected st x = Ok (x', st') /\
    sg_fitness x' = None /\ length (contents st' x') = length (contents st x) /\
    (p * inject_Z (Z.of_nat (length (contents st x))) == expected)%Q /\
    forall j g, nth_error (contents st x) j = Some g ->
      exists g', nth_error (contents st' x') j = Some g' /\ mutator p j g = Ok g'.
Proof. exact @apply_mutation_unshared. Qed.
Print Assumptions C24_mutation_is_segment_wise_partial.

Definition seg_demo : store nat := mk_store (fun n => [n; n + 10]) 2.
Definition ind_demo : sind := mk_sind [0; 1] (Some (NInt 1)).

Example C24_example :
  seg_sane seg_demo ind_demo /\ NoDup (sg_genome ind_demo) /\
  (exists x st, add_segment (1 # 2) (1 # 4) [7] false 1 seg_demo ind_demo = Ok (x, st) /\
                contents st x = [[0; 10]; [7]; [1; 11]]) /\
  (exists x st, remove_segment (1 # 2) (1 # 4) 0 seg_demo ind_demo = Ok (x, st) /\ contents st x = [[1; 11]]) /\
  (exists x st, copy_segment (1 # 2) (1 # 4) true 0 0 seg_demo ind_demo = Ok (x, st) /\
                contents st x = [[0; 10]; [1; 11]; [0; 10]]).
Proof.
  split; [repeat constructor|]. split; [repeat constructor; cbn; intuition discriminate|].
  split; [eexists _, _; split; reflexivity|]. split; eexists _, _; split; reflexivity.
Qed.

(** A copied segment is the same array: a mutation that changes only the first segment it is given
    changes the copy as well. *)
Theorem C24_copied_segment_is_shared_refuted :
  exists (st : store nat) x x1 st1 x2 st2,
  copy_segment 1 (1 # 4) true 0 0 st x = Ok (x1, st1) /\
  contents st1 x1 = [[0; 10]; [1; 11]; [0; 10]] /\
  apply_mutation (fun _ j g => Ok (if j =? 0 then 99 :: tl g else g)) 1 st1 x1 = Ok (x2, st2) /\
  contents st2 x2 = [[99; 10]; [1; 11]; [99; 10]].
Proof.
  exists seg_demo, ind_demo. eexists _, _, _, _.
  split; [vm_compute; reflexivity|]. split; [reflexivity|]. split; vm_compute; reflexivity.
Qed.
Print Assumptions C24_copied_segment_is_shared_refuted.

(** copying from an empty genome raises *)
Theorem C24_copy_from_empty_genome_raises :
  forall G probability u append d1 d2 (st : store G) x, sg_genome x = [] -> (u < probability)%Q ->
  copy_segment probability u append d1 d2 st x = Err ValueError.
Proof. exact @copy_empty. Qed.
Print Assumptions C24_copy_from_empty_genome_raises.
