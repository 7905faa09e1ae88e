From Verif Require Import Model.Base Model.Variation Model.Heap Spec.Heap Proofs.Heap.

Lemma mutate_individual G P F (f : list G -> result (list G * option (list G))) (w : world G P F) i u w' :
  mutate_ind f w i = (Ok u, w') ->
  i_fitness (w_ind w' i) = None /\
  (exists inplace fresh, f (genes w i) = Ok (inplace, fresh) /\
     genes w' i = match fresh with Some g => g | None => inplace end) /\
  (forall j, j <> i -> w_ind w' j = w_ind w j).
Proof.
  intros H. apply mutate_ind_spec in H. destruct H as (ip & fr & E & E1 & E2 & E3 & _).
  split; auto. split; eauto.
Qed.

Lemma bitflip_individual P F expected probability us (w : world Z P F) i u w' :
  mutate_ind (fun g => bind (genome_mutate_bitflip expected probability us g) (fun g' => Ok (g', None))) w i
    = (Ok u, w') ->
  genome_mutate_bitflip expected probability us (genes w i) = Ok (genes w' i) /\
  i_fitness (w_ind w' i) = None /\ i_parents (w_ind w' i) = i_parents (w_ind w i) /\
  (forall j, j <> i -> w_ind w' j = w_ind w j).
Proof.
  intros H. apply mutate_ind_spec in H.
  destruct H as (ip & fr & E & E1 & E2 & E3 & _ & _ & _ & E4 & _).
  destruct (genome_mutate_bitflip expected probability us (genes w i)) as [g'|e]; cbn in E; [|discriminate].
  injection E as <- <-. rewrite E2. auto.
Qed.
