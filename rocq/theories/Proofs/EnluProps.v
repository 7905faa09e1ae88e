From Coq Require Import Lia Permutation.
From Verif Require Import Model.Base Model.Pareto Model.Crowding Model.Enlu
  Spec.Order Spec.Pareto Spec.Crowding Proofs.Pareto Proofs.Crowding Proofs.CrowdingProps Proofs.Enlu Proofs.EnluInserter.

Lemma wf_nil rank : wf [] rank.
Proof. split; [constructor|]. split; [constructor|]. intros [|k] l x H; discriminate. Qed.

Lemma contents mx inds rank0 : NoDup (map o_id inds) ->
  exists layers rank, enlu_all mx inds [] rank0 = Some (layers, rank) /\
    Permutation inds (concat layers) /\
    (forall l, In l layers -> l <> []) /\
    (forall k l x, nth_error layers k = Some l -> In x l -> rank (o_id x) = S k).
Proof.
  intros HN. destruct (enlu_all_any mx inds [] rank0 (wf_nil rank0)) as (layers & rank & E & (_ & F & R) & P).
  - simpl. rewrite app_nil_r. exact HN.
  - simpl in P. rewrite app_nil_r in P. exists layers, rank. split; [exact E|]. split; [exact P|].
    rewrite Forall_forall in F. split; [exact F|exact R].
Qed.

Lemma true_layers_two mx inds rank0 : length mx <= 2 -> NoDup (map o_id inds) ->
  (forall x, In x inds -> length (o_fit x) = length mx /\ Forall viable (o_fit x)) ->
  exists layers rank, enlu_all mx inds [] rank0 = Some (layers, rank) /\
    Permutation inds (concat layers) /\
    (forall k l x, nth_error layers k = Some l -> In x l -> rank (o_id x) = S k) /\
    front_numbers (fun y x => dominates mx (o_fit y) (o_fit x)) inds (fun x => rank (o_id x)).
Proof.
  intros Hmx HN Hok. destruct (contents mx inds rank0 HN) as (layers & rank & E & P & _ & R).
  exists layers, rank. split; [exact E|]. split; [exact P|]. split; [exact R|].
  assert (HT : TL mx None layers).
  { apply (enlu_all_TL mx Hmx inds [] rank0 layers rank (wf_nil rank0)); simpl; try rewrite app_nil_r; auto. }
  intros x Hx. apply (Permutation_in _ P) in Hx. destruct (TL_fronts mx layers rank HT R x Hx) as (A & B & C).
  split; [exact A|]. split.
  - intros y Hy. apply B. exact (Permutation_in _ P Hy).
  - destruct C as [C|(y & Hy & C)]; [left; exact C|right]. exists y. split; [|exact C].
    exact (Permutation_in _ (Permutation_sym P) Hy).
Qed.

Definition bad_points : list mo :=
  let v i a b c := mk_mo i [NInt a; NInt b; NInt c] in
  [v 0 0%Z 3%Z 0%Z; v 1 3%Z 0%Z 0%Z; v 2 1%Z 1%Z 5%Z; v 3 1%Z 1%Z 0%Z; v 4 3%Z 3%Z 1%Z].

Lemma three_objectives :
  exists mx inds rank0 layers rank,
    NoDup (map o_id inds) /\
    (forall x, In x inds -> length (o_fit x) = length mx /\ Forall viable (o_fit x)) /\
    enlu_all mx inds [] rank0 = Some (layers, rank) /\
    ~ front_numbers (fun y x => dominates mx (o_fit y) (o_fit x)) inds (fun x => rank (o_id x)).
Proof.
  exists [true; true; true], bad_points, (fun _ => 0).
  destruct (enlu_all [true; true; true] bad_points [] (fun _ => 0)) as [[layers rank]|] eqn:E; [|vm_compute in E; discriminate].
  exists layers, rank. split; [|split; [|split; [reflexivity|]]].
  - unfold bad_points. simpl. repeat constructor; simpl; intuition discriminate.
  - intros x Hx. unfold bad_points in Hx. simpl in Hx.
    repeat (destruct Hx as [<-|Hx]; [split; [reflexivity|repeat constructor; unfold viable; discriminate]|]). destruct Hx.
  - assert (ER : map rank [0; 1; 2; 3; 4] = [2; 2; 1; 3; 1]).
    { assert (G : option_map (fun p => map (snd p) [0; 1; 2; 3; 4]) (enlu_all [true; true; true] bad_points [] (fun _ => 0)) = Some [2; 2; 1; 3; 1])
        by (vm_compute; reflexivity).
      rewrite E in G. injection G as G. simpl. congruence. }
    simpl in ER. injection ER as E0 E1 E2 E3 E4.
    intros HF. destruct (HF (nth 3 bad_points (mk_mo 0 []))) as (_ & _ & [H|(y & Hy & Hd & Hr)]).
    { unfold bad_points. simpl. auto 6. }
    { simpl in H. rewrite E3 in H. discriminate. }
    simpl in Hr. unfold bad_points in Hy. simpl in Hy. apply mo_gt_spec in Hd.
    repeat (destruct Hy as [<-|Hy]; [simpl in Hr; try lia; vm_compute in Hd; discriminate|]). destruct Hy.
Qed.

Lemma example_points :
  let v i a b := mk_mo i [NInt a; NInt b] in
  let inds := [v 0 0%Z 10%Z; v 1 10%Z 0%Z; v 2 1%Z 9%Z; v 3 5%Z 4%Z] in
  NoDup (map o_id inds) /\ finite_vectors [true; true] inds.
Proof.
  simpl. split; [repeat constructor; simpl; intuition discriminate|].
  apply finite_ints. intros x Hx. simpl in Hx.
  repeat (destruct Hx as [<-|Hx]; [split; [reflexivity|]|]); [| | | |destruct Hx].
  - exists [0; 10]%Z. reflexivity.
  - exists [10; 0]%Z. reflexivity.
  - exists [1; 9]%Z. reflexivity.
  - exists [5; 4]%Z. reflexivity.
Qed.
