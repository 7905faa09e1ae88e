From Verif Require Import Model.Base Model.Heap Spec.Heap Proofs.Heap Proofs.Variation.
From Coq Require Import Lqa.

Lemma pair_performed G P F (f : list G -> list G -> result (list G * list G)) fresh (w : world G P F) i j w' u :
  i <> j -> xover_pair false f fresh w i j = (Ok u, w') ->
  i_fitness (w_ind w' i) = None /\ i_fitness (w_ind w' j) = None /\
  (forall k p, k = i \/ k = j ->
     (In p (i_parents (w_ind w' k)) <-> In p (i_parents (w_ind w i)) \/ In p (i_parents (w_ind w j)))) /\
  (fresh = true \/ i_genome (w_ind w i) <> i_genome (w_ind w j) ->
     f (genes w i) (genes w j) = Ok (genes w' i, genes w' j)) /\
  (forall k, k <> i -> k <> j -> w_ind w' k = w_ind w k).
Proof.
  intros Hij H. cbn in H.
  apply recombine_ind_spec in H; auto.
  destruct H as (g1 & g2 & E & F1 & F2 & HG & P1 & P2 & _ & HO & _).
  split; auto. split; auto. split; [intros k p [-> | ->]; auto|]. split; auto.
  intros Hf. destruct (HG Hf). congruence.
Qed.

Lemma pair_skipped G P F (f : list G -> list G -> result (list G * list G)) fresh (w : world G P F) i j p_xover u :
  (u <= 1)%Q ->
  (xover_pair (xover_skipped p_xover u) f fresh w i j = (Ok tt, w) \/
   xover_pair (xover_skipped p_xover u) f fresh w i j = recombine_ind f fresh w i j) /\
  ((u > p_xover)%Q -> xover_pair (xover_skipped p_xover u) f fresh w i j = (Ok tt, w)) /\
  ((1 <= p_xover)%Q -> xover_pair (xover_skipped p_xover u) f fresh w i j = recombine_ind f fresh w i j).
Proof.
  intros Hu. unfold xover_pair, xover_skipped. destruct (Qltb p_xover u) eqn:E.
  - apply Qltb_lt in E. split; auto. split; auto. intros H. lra.
  - split; auto. split; auto. intros H. assert (Qltb p_xover u = true) by (apply Qltb_lt; exact H). congruence.
Qed.
