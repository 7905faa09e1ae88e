(** Statements and witnesses for C36 and C37. *)
From Coq Require Import Lia Lqa Permutation.
From Verif Require Import Model.Base Model.Pareto Model.Crowding Spec.Order Spec.Pareto Spec.Crowding
  Proofs.Pareto Proofs.Crowding Proofs.Nsga2.

Lemma crowding_distances mx rank pop d out d' : pop <> [] -> NoDup (map o_id pop) -> finite_vectors mx pop ->
  crowding_distance_calc mx rank pop d = Ok (out, d') ->
  (forall x, In x pop -> d' (o_id x) = Some PInf \/ exists q, d' (o_id x) = Some (Fin q) /\ (0 <= q)%Q) /\
  (forall r k, k < length mx -> varies fval k (same_rank rank pop r) ->
     exists lo hi, In lo (same_rank rank pop r) /\ In hi (same_rank rank pop r) /\
       d' (o_id lo) = Some PInf /\ d' (o_id hi) = Some PInf /\
       forall z, In z (same_rank rank pop r) -> (fval k lo <= fval k z <= fval k hi)%Q).
Proof.
  intros Hne Hid HF E. destruct (crowding_calc_ok mx rank pop d Hne Hid HF) as (out0 & d0 & E0 & C & _ & _).
  rewrite E0 in E. injection E as <- <-. split.
  - intros x Hx. apply (crowding_nonneg (length mx) (same_rank rank pop (rank (o_id x))) (fun y => d0 (o_id y))).
    + intros k Hk. apply (varies_dec_list mx); [|exact Hk]. intros y Hy. apply in_same_rank in Hy. apply HF. tauto.
    + apply C, Hx.
    + apply in_same_rank. auto.
  - intros r k Hk Hv. destruct Hv as (u & v & Hu & Hv & Huv). pose proof Hu as Hu'. apply in_same_rank in Hu'. destruct Hu' as [Hup <-].
    apply (crowding_extremes (length mx) _ (fun y => d0 (o_id y)) k (C u Hup) Hk). exists u, v. auto.
Qed.

Lemma dominates_by mx g f : mo_worse_than mx f g = true -> dominates mx g f.
Proof. apply mo_worse_than_spec. Qed.

(** maximise two objectives *)
Definition w_best : mo := mk_mo 0 [NInt 5; NInt 5].
Definition w_pop : list mo :=
  [w_best; mk_mo 1 [NInt 1; NInt 3]; mk_mo 2 [NInt 3; NInt 1]; mk_mo 3 [NInt 0; NInt 2]; mk_mo 4 [NInt 2; NInt 0]].

Lemma finite_ints mx l : (forall x, In x l -> length (o_fit x) = length mx /\ exists zs, o_fit x = map NInt zs) -> finite_vectors mx l.
Proof.
  intros H x Hx. destruct (H x Hx) as [L (zs & E)]. split; [exact L|]. intros k Hk. unfold finite_at, fit_at.
  rewrite E in *. rewrite map_length in L. 
  assert (G : forall zs k, k < length zs -> exists q, num_val (nth k (map NInt zs) NNan) = Some (Fin q)).
  { clear. induction zs as [|z zs IH]; intros k Hk; simpl in Hk; [lia|]. destruct k as [|k]; simpl; [eauto|]. apply IH. lia. }
  apply G. lia.
Qed.

Lemma w_pop_ok : NoDup (map o_id w_pop) /\ finite_vectors [true; true] w_pop.
Proof.
  split; [repeat constructor; simpl; intuition discriminate|]. apply finite_ints. intros x Hx. simpl in Hx.
  repeat (destruct Hx as [<-|Hx]; [split; [reflexivity|]|]); [| | | | |destruct Hx].
  - exists [5; 5]%Z. reflexivity.
  - exists [1; 3]%Z. reflexivity.
  - exists [3; 1]%Z. reflexivity.
  - exists [0; 2]%Z. reflexivity.
  - exists [2; 0]%Z. reflexivity.
Qed.

Lemma w_best_dominates x : In x w_pop -> x = w_best \/ dominates [true; true] (o_fit w_best) (o_fit x).
Proof.
  intros Hx. simpl in Hx. destruct Hx as [<-|Hx]; [left; reflexivity|right].
  repeat (destruct Hx as [<-|Hx]; [apply dominates_by; vm_compute; reflexivity|]). destruct Hx.
Qed.

Lemma crowding_loses_best : exists mx rank pop d out d', NoDup (map o_id pop) /\ finite_vectors mx pop /\
  crowding_distance_calc mx rank pop d = Ok (out, d') /\ length pop = 5 /\
  (exists best, In best pop /\ ~ In best out /\
     forall x, In x pop -> x = best \/ dominates mx (o_fit best) (o_fit x)).
Proof.
  destruct (crowding_distance_calc [true; true] (fun i => if i =? 0 then 1 else if i <? 3 then 2 else 3) w_pop (fun _ => None))
    as [[out d']|] eqn:E; [|vm_compute in E; discriminate].
  exists [true; true], (fun i => if i =? 0 then 1 else if i <? 3 then 2 else 3), w_pop, (fun _ => None), out, d'.
  split; [apply w_pop_ok|]. split; [apply w_pop_ok|]. split; [exact E|]. split; [reflexivity|].
  exists w_best. split; [left; reflexivity|]. split; [|apply w_best_dominates].
  vm_compute in E. injection E as <- _. intros H. repeat (destruct H as [H|H]; [discriminate|]). destruct H.
Qed.

Definition a0 : attrs := mk_attrs (fun _ => 0) (fun _ => None).

Lemma population_vanishes : exists mx parents offspring a a', finite_pool mx (offspring ++ parents) /\ length parents = 1 /\
  nsga2_survival mx parents offspring a = Ok ([], a').
Proof.
  destruct (nsga2_survival [true; true] [mk_mo 0 [NInt 1; NInt 1]] [mk_mo 1 [NInt 0; NInt 0]] a0) as [[n a']|] eqn:E;
    [|vm_compute in E; discriminate].
  exists [true; true], [mk_mo 0 [NInt 1; NInt 1]], [mk_mo 1 [NInt 0; NInt 0]], a0, a'. split; [|split; [reflexivity|]].
  - split; [repeat constructor; simpl; intuition discriminate|]. apply finite_ints. intros x Hx. simpl in Hx.
    destruct Hx as [<-|[<-|[]]]; (split; [reflexivity|]); [exists [0; 0]%Z|exists [1; 1]%Z]; reflexivity.
  - rewrite E. vm_compute in E. injection E as <- _. reflexivity.
Qed.

Lemma best_is_lost : exists mx parents offspring a next a' best x, finite_pool mx (offspring ++ parents) /\
  nsga2_survival mx parents offspring a = Ok (next, a') /\ length next = length parents /\
  In best parents /\ (forall y, In y (offspring ++ parents) -> y = best \/ dominates mx (o_fit best) (o_fit y)) /\
  ~ In best next /\ In x next /\ dominates mx (o_fit best) (o_fit x).
Proof.
  destruct (nsga2_survival [true; true] (firstn 2 w_pop) (skipn 2 w_pop) a0) as [[next a']|] eqn:E; [|vm_compute in E; discriminate].
  exists [true; true], (firstn 2 w_pop), (skipn 2 w_pop), a0, next, a', w_best, (mk_mo 1 [NInt 1; NInt 3]).
  assert (En : next = [mk_mo 2 [NInt 3; NInt 1]; mk_mo 1 [NInt 1; NInt 3]]).
  { vm_compute in E. injection E as <- _. reflexivity. }
  assert (P : Permutation w_pop (skipn 2 w_pop ++ firstn 2 w_pop)) by apply (Permutation_app_comm (firstn 2 w_pop) (skipn 2 w_pop)).
  split; [|split; [exact E|]].
  - destruct w_pop_ok as [H1 H2]. split; [exact (Permutation_NoDup (Permutation_map o_id P) H1)|].
    intros x Hx. apply H2. apply (Permutation_in _ (Permutation_sym P)), Hx.
  - subst next. split; [reflexivity|]. split; [left; reflexivity|]. split.
    + intros y Hy. apply w_best_dominates. apply (Permutation_in _ (Permutation_sym P)), Hy.
    + split; [intros H; repeat (destruct H as [H|H]; [discriminate|]); destruct H|].
      split; [right; left; reflexivity|]. apply dominates_by. vm_compute. reflexivity.
Qed.

Definition ex_pop : list mo :=
  [mk_mo 0 [NInt 1; NInt 1; NInt 0]; mk_mo 1 [NInt 4; NInt 4; NInt 0]; mk_mo 2 [NInt 3; NInt 2; NInt 0];
   mk_mo 3 [NInt 0; NInt 6; NInt 0]; mk_mo 4 [NInt 1; NInt 9; NInt 0]].
Lemma example_pool_ok : finite_pool [true; false; true] ex_pop.
Proof.
  split; [repeat constructor; simpl; intuition discriminate|]. apply finite_ints. intros x Hx. simpl in Hx.
  repeat (destruct Hx as [<-|Hx]; [split; [reflexivity|]|]); [| | | | |destruct Hx].
  - exists [1; 1; 0]%Z. reflexivity.
  - exists [4; 4; 0]%Z. reflexivity.
  - exists [3; 2; 0]%Z. reflexivity.
  - exists [0; 6; 0]%Z. reflexivity.
  - exists [1; 9; 0]%Z. reflexivity.
Qed.
