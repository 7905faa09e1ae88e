(** Assembly of the statements of C33 and C34. *)
From Coq Require Import Lia.
From Verif Require Import Model.Base Model.Pareto Spec.Order Spec.Pareto Proofs.Pareto.

Lemma comparison_is_dominance mx a b :
  (mo_lt mx a b = true <-> dominates mx (o_fit b) (o_fit a)) /\
  (mo_gt mx a b = true <-> dominates mx (o_fit a) (o_fit b)) /\
  (mo_gt mx a b = mo_lt mx b a) /\
  (mo_eq mx a b = true <-> ~ dominates mx (o_fit a) (o_fit b) /\ ~ dominates mx (o_fit b) (o_fit a)).
Proof. split; [apply mo_lt_spec|]. split; [apply mo_gt_spec|]. split; [apply mo_gt_lt|apply mo_eq_spec]. Qed.

Lemma strict_partial_order mx :
  (forall a, mo_lt mx a a = false) /\
  (forall a b, mo_lt mx a b = true -> mo_lt mx b a = false) /\
  (forall a b c, length (o_fit a) = length mx -> length (o_fit b) = length mx -> length (o_fit c) = length mx ->
     mo_lt mx a b = true -> mo_lt mx b c = true -> mo_lt mx a c = true).
Proof.
  split; [|split].
  - intros a. destruct (mo_lt mx a a) eqn:E; [|reflexivity]. apply mo_lt_spec in E. destruct (dominates_irrefl _ _ E).
  - intros a b H. destruct (mo_lt mx b a) eqn:E; [|reflexivity]. apply mo_lt_spec in H, E.
    destruct (dominates_asym _ _ _ H E).
  - intros a b c La Lb Lc H1 H2. apply mo_lt_spec in H1, H2. apply mo_lt_spec.
    exact (dominates_trans mx _ _ _ Lb La H2 H1).
Qed.

Lemma front_numbers_determined A (dom : A -> A -> Prop) pop r1 r2 : front_numbers dom pop r1 ->
  (forall x, In x pop -> (r1 x = 1 <-> forall y, In y pop -> ~ dom y x)) /\
  (front_numbers dom pop r2 -> forall x, In x pop -> r1 x = r2 x).
Proof.
  intros H1. split.
  - intros x Hx. destruct (H1 x Hx) as (P1 & P2 & P3). split.
    + intros E y Hy Hd. specialize (P2 y Hy Hd). destruct (H1 y Hy). lia.
    + intros Hn. destruct P3 as [P3|(y & Hy & Hd & _)]; [exact P3|destruct (Hn y Hy Hd)].
  - intros H2. exact (front_numbers_unique dom pop r1 r2 H1 H2).
Qed.

Lemma repeated_object : exists mx population before fuel st, vectors_ok mx population /\
  fast_nondominated_sort (mo_gt mx) fuel population None before = Some (Ok (population, st)) /\
  ~ front_numbers (fun y x => dominates mx (o_fit y) (o_fit x)) population (fun x => f_rank st (o_id x)).
Proof.
  pose (x := mk_mo 0 [NInt 6; NInt 6]). pose (y := mk_mo 1 [NInt 5; NInt 5]). pose (z := mk_mo 2 [NInt 1; NInt 1]).
  destruct (fast_nondominated_sort (mo_gt [true; true]) 9 [x; y; y; z] None (mk_fns (fun _ => []) (fun _ => 0%Z) (fun _ => 0)))
    as [[[w st]|]|] eqn:E; [|vm_compute in E; discriminate|vm_compute in E; discriminate].
  exists [true; true], [x; y; y; z], (mk_fns (fun _ => []) (fun _ => 0%Z) (fun _ => 0)), 9, st.
  split; [|split].
  - intros v [<-|[<-|[<-|[<-|[]]]]]; reflexivity.
  - rewrite E. vm_compute in E. injection E as <- _. reflexivity.
  - intros F. destruct (F z) as [G _]; [simpl; auto|].
    assert (Hz : f_rank st (o_id z) = 0) by (vm_compute in E; injection E as _ <-; vm_compute; reflexivity). lia.
Qed.

Lemma le_and_ge mx a b :
  (mo_le mx a b = true <-> ~ dominates mx (o_fit a) (o_fit b)) /\
  (mo_ge mx a b = true <-> ~ dominates mx (o_fit b) (o_fit a)).
Proof.
  destruct (comparison_is_dominance mx a b) as (L & Gt & E & Q). destruct (comparison_is_dominance mx b a) as (L' & _ & _ & _).
  unfold mo_le, mo_ge. split.
  - rewrite orb_true_iff, L, Q. split.
    + intros [H | H]; [|tauto]. intros H'. apply L in H. apply L' in H'. pose proof (proj1 (proj2 (strict_partial_order mx)) a b H). congruence.
    + intros H. destruct (mo_lt mx a b) eqn:E1; [left; apply L; reflexivity|right; split; [exact H|]]. intros K. apply L in K. congruence.
  - rewrite negb_true_iff. split; [intros H K; apply L in K; congruence|]. intros H. destruct (mo_lt mx a b) eqn:E1; [|reflexivity]. exfalso. apply H, L. reflexivity.
Qed.
