From Coq Require Import Lia Permutation.
From Verif Require Import Model.Base Model.PyList Model.Scalar Model.Selection Model.Counters Model.Heap Model.Pipeline Model.HeapEa
  Model.Strategies Spec.Order Spec.Selection Spec.Heap Spec.HeapEa Spec.Odds
  Proofs.Order Proofs.PyList Proofs.ScalarSel Proofs.Algorithm Proofs.Heap Proofs.Pipeline Proofs.HeapEa.

Lemma topk_length {A} (lt gt eq : A -> A -> bool) sized k l : length (topk lt gt eq sized k l) = Nat.min k (length l).
Proof.
  destruct k as [|[|k]]; cbn [topk]; [reflexivity|destruct l; cbn; lia|].
  destruct (topk_part lt gt eq sized (S (S k)) l) as [r H]. cbn [topk] in H.
  destruct (sized && _); rewrite firstn_length, <- (Permutation_length (sort_desc_perm _ l)); reflexivity.
Qed.

Lemma set_nth_part {A} (x : A) rest par i d y : y = x \/ y = nth i par d -> part_of (set_nth i y par) ((x :: rest) ++ par).
Proof.
  intros Hy. destruct (lt_dec i (length par)) as [Hi|Hi].
  - destruct Hy as [->| ->].
    + destruct (nth_error par i) as [z|] eqn:E; [|apply nth_error_None in E; lia].
      apply nth_error_split in E. destruct E as (l1 & l2 & -> & <-).
      assert (Es : set_nth (length l1) x (l1 ++ z :: l2) = l1 ++ x :: l2).
      { clear. induction l1 as [|a l1 IH]; cbn; [reflexivity|]. rewrite IH. reflexivity. }
      rewrite Es. exists (z :: rest). rewrite <- !app_assoc. cbn [app].
      apply Permutation_trans with (x :: (l1 ++ z :: l2) ++ rest).
      { constructor. apply Permutation_app_comm. }
      rewrite <- app_assoc. cbn [app].
      transitivity (l1 ++ x :: z :: l2 ++ rest); [apply Permutation_middle|].
      apply Permutation_app_head. constructor. apply Permutation_middle.
    + assert (Es : set_nth i (nth i par d) par = par).
      { clear Hi. revert i. induction par as [|a par IH]; intros [|i]; cbn; auto. rewrite IH. reflexivity. }
      rewrite Es. exists (x :: rest). apply Permutation_app_comm.
  - assert (Es : set_nth i y par = par).
    { clear Hy. revert par Hi. induction i as [|i IH]; intros [|a par] Hi; cbn in *; auto; try lia. rewrite IH by lia. reflexivity. }
    rewrite Es. exists (x :: rest). apply Permutation_app_comm.
Qed.

Lemma slots (f : nat -> sind) k y : forall par, (forall j, si_id (f j) = j) ->
  (forall j, j <> k -> nth_error (map si_id (set_nth k y (map f par))) j = nth_error par j) /\
  (forall x, nth_error par k = Some x -> nth_error (map si_id (set_nth k y (map f par))) k = Some (si_id y)).
Proof.
  intros par Hf. revert k. induction par as [|a par IH]; intros [|k]; split.
  - intros [|j] Hj; reflexivity.
  - discriminate.
  - intros [|j] Hj; reflexivity.
  - discriminate.
  - intros [|j] Hj; [congruence|]. cbn. rewrite map_map. rewrite (map_ext _ (fun j => j)), map_id by exact Hf. reflexivity.
  - reflexivity.
  - intros [|j] Hj; cbn; [rewrite Hf; reflexivity|]. destruct (IH k) as [H _]. apply H. congruence.
  - intros x Hx. cbn in *. destruct (IH k) as [_ H]. eapply H; eauto.
Qed.

Section Run.
Context {G P : Type}.
Variable decoder_of : nat -> option (list G -> result P).
Variable problem_of : nat -> phen_value G P -> result num.
Implicit Types w : world G P num.
Variable D : list G -> Prop.
Variable problem decoder : nat.
Notation good := (good decoder_of problem_of D problem decoder false).
Notation value := (value decoder_of problem_of problem decoder).
Variable maximize : bool.
Variable coin : nat -> sind -> sind -> bool.
Variable mode : replacement.
Notation replaced := (replaced maximize coin mode).
Notation seen w l := (map (fun j => mk_sind j (value w j)) l).

(** a brood: separate, evaluated, new *)
Definition new_since w w1 (o : list nat) : Prop :=
  forall j, In j o -> w_nind w <= j /\ w_narr w <= i_genome (w_ind w1 j).

Lemma brood_new w parents ops pk n offspring sts w1 :
  good w parents -> clone_vary_evaluate ops ->
  let stack := ops ++ [OpSelect parents pk] in
  pool NNan decoder_of problem_of n stack (start stack) w = Ok (offspring, sts, w1) -> new_since w w1 offspring.
Proof.
  intros HG HC stack HP.
  destruct (stack_breeding w ops parents pk HC) as [HB _]; [intros j Hj; apply HG; auto|]. fold stack in HB.
  assert (I0 : inv w w ([] ++ held (start stack))) by (rewrite held_start; apply inv_init).
  destruct (pool_inv NNan decoder_of problem_of w n stack HB _ _ _ _ _ [] I0 HP) as [I1 _]. cbn [app] in I1.
  intros j Hj. destruct I1 as (_ & _ & _ & _ & _ & HI). destruct (HI j) as [A B]; [apply in_or_app; auto|]. lia.
Qed.

Lemma replaced_part w o p i survivors : good w o -> good w p -> replaced i w o p = Ok survivors ->
  length survivors = length p /\ part_of survivors (o ++ p).
Proof.
  intros Ho Hp H. unfold Strategies.replaced in H.
  rewrite (compared_good _ _ _ _ _ _ _ _ Ho), (compared_good _ _ _ _ _ _ _ _ Hp) in H.
  assert (Hid : map si_id (seen w o ++ seen w p) = o ++ p).
  { rewrite map_app, !map_map. cbn. rewrite !map_id. reflexivity. }
  destruct mode as [|draws].
  - injection H as <-. unfold truncation_selection. split.
    + rewrite map_length, topk_length, app_length, !map_length. lia.
    + rewrite <- Hid. apply part_map, topk_part.
  - destruct (insertion_selection _ _ _ _) as [r|e] eqn:E; [|discriminate]. cbn [bind] in H. injection H as <-.
    destruct (insertion_slots _ _ _ _ _ _ E) as [L _]. rewrite map_length in L.
    split; [rewrite map_length; auto|]. rewrite <- Hid. apply part_map.
    unfold insertion_selection in E. destruct (seen w o) as [|child rest]; [discriminate|].
    destruct (seen w p) as [|d ps] eqn:Ep; [discriminate|]. injection E as <-.
    apply (set_nth_part child rest (d :: ps) _ d). destruct (ind_gt _ _ _ _); auto.
Qed.

Lemma survivors_good w w1 o p s : good w p -> grows w w1 -> good w1 o -> new_since w w1 o -> part_of s (o ++ p) -> good w1 s.
Proof.
  intros Hp Hg Ho Hn Hs.
  assert (Hp1 : good w1 p) by (eapply good_grows; eauto).
  assert (Hdis : forall j, In j o -> ~ In j p).
  { intros j Hj C. destruct (Hn j Hj). destruct Hp as (_ & _ & Hp). destruct (Hp j C). lia. }
  split; [|split].
  - eapply part_NoDup; eauto. apply NoDup_join; auto; [apply Ho|apply Hp1].
  - eapply part_NoDup; [apply part_map; exact Hs|]. rewrite map_app. apply NoDup_join; [apply Ho|apply Hp1|].
    intros a Ha Hb. apply in_map_iff in Ha, Hb. destruct Ha as (j1 & <- & H1), Hb as (j2 & E & H2).
    destruct (Hn j1 H1) as [_ A]. destruct Hp as (_ & _ & Hp). destruct (Hp j2 H2) as (B1 & B2 & _).
    destruct Hg as (_ & _ & U1 & _). rewrite U1 in E by auto. lia.
  - intros j Hj. assert (Hin : In j (o ++ p)) by (eapply part_in; eauto).
    apply in_app_or in Hin. destruct Hin; [apply Ho|apply Hp1]; auto.
Qed.

(** what one generation does, in terms of worths *)
Definition plus_step w (o p q : list nat) : Prop :=
  length q = length p /\ exists rest, Permutation (o ++ p) (q ++ rest) /\
    forall kept dropped, In kept q -> In dropped rest -> ~ better maximize (value w dropped) (value w kept).
Definition insert_step w (k : nat) (o p q : list nat) : Prop :=
  length q = length p /\ exists child, hd_error o = Some child /\
    forall j x, nth_error p j = Some x ->
      (nth_error q j = Some x \/ j = k /\ nth_error q j = Some child) /\
      (j = k -> viable (value w child) -> ~ better maximize (value w x) (value w child) -> nth_error q j = Some child) /\
      (better maximize (value w x) (value w child) -> nth_error q j = Some x).

Definition distinct_scores : Prop :=
  forall g h m, D g -> D h ->
    let f := outcome NNan (score (decoder_of decoder) (problem_of problem) g) in
    let f' := outcome NNan (score (decoder_of decoder) (problem_of problem) h) in
    blurred f f' -> ~ better m f f'.

Lemma seen_sharp w o p : distinct_scores -> good w o -> good w p -> sharp (map si_fit (seen w o ++ seen w p)).
Proof.
  intros Hb Go Gp.
  assert (HD : forall f, In f (map si_fit (seen w o ++ seen w p)) -> exists g, D g /\
              f = outcome NNan (score (decoder_of decoder) (problem_of problem) g)).
  { intros f Hf. rewrite <- map_app, map_map in Hf. cbn in Hf. apply in_map_iff in Hf.
    destruct Hf as (j1 & <- & Hj1). exists (genes w j1). split; [|reflexivity]. apply in_app_or in Hj1.
    destruct Hj1 as [Hj1|Hj1]; [destruct Go as (_ & _ & Gm)|destruct Gp as (_ & _ & Gm)];
      destruct (Gm j1 Hj1) as (_ & _ & (K & _) & _); auto. }
  intros f f' m Hf Hf'. destruct (HD f Hf) as (g & Dg & ->), (HD f' Hf') as (h & Dh & ->). apply Hb; auto.
Qed.

Lemma seen_perm w l s x : Permutation (seen w l) s -> In x s -> si_fit x = value w (si_id x).
Proof.
  intros H Hx. apply (Permutation_in _ (Permutation_sym H)) in Hx. apply in_map_iff in Hx.
  destruct Hx as (j & <- & _). reflexivity.
Qed.

Lemma plus_ok w o p i q : mode = Plus -> distinct_scores -> good w o -> good w p -> replaced i w o p = Ok q -> plus_step w o p q.
Proof.
  intros Hm Hb Ho Hp H. destruct (replaced_part _ _ _ _ _ Ho Hp H) as [L _]. split; auto.
  unfold Strategies.replaced in H. rewrite (compared_good _ _ _ _ _ _ _ _ Ho), (compared_good _ _ _ _ _ _ _ _ Hp), Hm in H.
  assert (Hq : map si_id (truncation_selection (ind_lt maximize (coin i)) (ind_gt maximize (coin i)) ind_eq
                            (seen w o) (length p) (Some (seen w p))) = q) by (injection H; auto).
  destruct (truncation_best maximize (coin i) (seen w o) (length p) (Some (seen w p))) as (_ & _ & rest & HP & HB).
  { apply seen_sharp; auto. }
  unfold pool_of in HP. set (s := truncation_selection _ _ _ _ _ _) in *. clearbody s.
  rewrite <- map_app in HP. pose proof (fun x => seen_perm _ _ _ x HP) as E. rewrite <- Hq.
  exists (map si_id rest). split.
  - apply (Permutation_map si_id) in HP. rewrite map_map in HP. cbn in HP. rewrite map_id in HP. rewrite map_app in HP. exact HP.
  - intros kept dropped Hk Hd. apply in_map_iff in Hk, Hd. destruct Hk as (x & <- & Hx), Hd as (y & <- & Hy).
    rewrite <- !E by (apply in_or_app; auto). exact (HB x y Hx Hy).
Qed.

Lemma insert_ok w o p i q draws : mode = Insert draws -> distinct_scores -> good w o -> good w p -> replaced i w o p = Ok q ->
  insert_step w (hd 0 (draws i)) o p q.
Proof.
  intros Hm Hb Ho Hp H. destruct (replaced_part _ _ _ _ _ Ho Hp H) as [L _]. split; auto.
  unfold Strategies.replaced in H. rewrite (compared_good _ _ _ _ _ _ _ _ Ho), (compared_good _ _ _ _ _ _ _ _ Hp), Hm in H.
  assert (Hsh := seen_sharp w o p Hb Ho Hp).
  destruct o as [|child o']; [discriminate|]. exists child. split; [reflexivity|].
  unfold insertion_selection in H. cbn [map] in H. destruct p as [|d ps]; [discriminate|]. cbn [map] in H.
  set (par := d :: ps) in *. change (mk_sind d (value w d) :: seen w ps) with (seen w par) in H.
  cbn [bind] in H. match type of H with Ok ?t = Ok _ => assert (Hq : t = q) by (injection H; auto); rewrite <- Hq end.
  set (k := hd 0 (draws i)). intros j x Hx.
  set (c := mk_sind child (value w child)) in *.
  set (y := if ind_gt _ _ _ c then _ else c).
  destruct (slots (fun j => mk_sind j (value w j)) k y par (fun _ => eq_refl)) as [Hn Hk].
  destruct (Nat.eq_dec j k) as [Ej|Hne].
  2:{ rewrite (Hn j Hne). split; [auto|]. split; [contradiction|auto]. }
  rewrite Ej in Hx |- *. rewrite (Hk x Hx).
  assert (Ey : y = if ind_gt maximize (coin i) (mk_sind x (value w x)) c then mk_sind x (value w x) else c).
  { unfold y. rewrite (nth_indep _ _ (mk_sind x (value w x))) by (rewrite map_length; eapply nth_error_Some_lt; eauto).
    rewrite (map_nth (fun j => mk_sind j (value w j)) par x k). rewrite (nth_error_nth _ _ _ Hx). reflexivity. }
  rewrite Ey. destruct (ind_gt maximize (coin i) (mk_sind x (value w x)) c) eqn:Eg; cbn [si_id]; cbn.
  - split; [auto|]. split; [|auto]. intros _ Hv Hnb. exfalso. apply ind_gt_true in Eg. cbn in Eg. destruct Eg as [Eg|[_ Eg]]; auto.
  - split; [auto|]. split; [auto|]. intros Hbt. exfalso.
    apply (ind_gt_false_sharp maximize (coin i) (seen w (child :: o') ++ seen w par)) in Eg; auto.
    + apply in_or_app. right. apply (in_map (fun j => mk_sind j (value w j))). eapply nth_error_In; eauto.
    + apply in_or_app. left. left. reflexivity.
Qed.

Variable max_generation : Z.
Variable brood : nat.
Variable operators : nat -> Q -> list (op G).
Variable pick : nat -> world G P num -> list nat -> nat -> nat.
Variable callbacks : list (Z -> Q -> Q).
Notation strategy_loop := (strategy_loop decoder_of problem_of maximize coin max_generation brood mode operators pick callbacks).
Hypothesis Hops : forall i s, clone_vary_evaluate (operators i s) /\ Forall (stays_within D) (operators i s).

Definition step_ok w (j : nat) (o p q : list nat) : Prop :=
  distinct_scores -> match mode with Plus => plus_step w o p q | Insert draws => insert_step w (hd 0 (draws j)) o p q end.

Lemma step_grows w w1 j o p q : grows w w1 -> good w o -> good w p -> part_of q (o ++ p) -> step_ok w j o p q -> step_ok w1 j o p q.
Proof.
  intros Hg Ho Hp Hq H Hd. specialize (H Hd).
  assert (V : forall x, In x (o ++ p) -> value w1 x = value w x).
  { intros x Hx. apply in_app_or in Hx. destruct Hx as [Hx|Hx]; [eapply value_grows; [exact Hg|exact Ho|exact Hx]|eapply value_grows; [exact Hg|exact Hp|exact Hx]]. }
  destruct mode.
  - destruct H as (L & rest & HP & HB). split; auto. exists rest. split; auto. intros kept dropped Hk Hdr.
    rewrite !V; auto; eapply Permutation_in; try (symmetry; exact HP); apply in_or_app; auto.
  - destruct H as (L & child & Ec & HB). split; auto. exists child. split; auto. intros j0 x Hx.
    rewrite (V child), (V x); [apply HB; auto| |].
    { apply in_or_app. right. eapply nth_error_In; eauto. }
    { apply in_or_app. left. destruct o; [discriminate|]. injection Ec as ->. left. reflexivity. }
Qed.

(** the generations so far *)
Definition history w (pops : list (list nat)) (used : list (Q * list nat)) : Prop :=
  Forall (good w) pops /\ length pops = S (length used) /\
  forall j s o p q, nth_error used j = Some (s, o) -> nth_error pops j = Some p -> nth_error pops (S j) = Some q ->
    good w o /\ length o = length p * brood /\ (forall x, In x o -> forall k p', k <= j -> nth_error pops k = Some p' -> ~ In x p') /\
    length q = length p /\ part_of q (o ++ p) /\ step_ok w j o p q.

Lemma history_grows w w1 pops used : grows w w1 -> history w pops used -> history w1 pops used.
Proof.
  intros Hg (H1 & H2 & H3). split; [eapply Forall_impl; [|exact H1]; intros l; apply good_grows; auto|]. split; auto.
  intros j s o p q Eu Ep Eq. destruct (H3 j s o p q Eu Ep Eq) as (A & B & C & D' & E & F).
  split; [eapply good_grows; eauto|]. repeat split; auto.
  eapply step_grows; eauto. rewrite Forall_forall in H1. apply H1. eapply nth_error_In; eauto.
Qed.

Fixpoint annealed (g0 : Z) (std : Q) (j : nat) : Q :=
  match j with 0 => std | S j' => annealed (g0 + 1) (fold_left (fun s f => f (g0 + 1)%Z s) callbacks std) j' end.

Lemma history_step i std w earlier used parents offspring sts w1 surv :
  let stack := operators i std ++ [OpSelect parents (pick i w parents)] in
  i = length used -> history w (earlier ++ [parents]) used ->
  pool NNan decoder_of problem_of (length parents * brood) stack (start stack) w = Ok (offspring, sts, w1) ->
  replaced i w1 offspring parents = Ok surv ->
  grows w w1 /\ good w parents /\ good w1 offspring /\ good w1 parents /\
  history w1 ((earlier ++ [parents]) ++ [surv]) (used ++ [(std, offspring)]).
Proof.
  intros stack Ei HH EP ER.
  destruct (Hops i std) as [Hc Hs]. pose proof HH as (HG & HL & HJ).
  assert (HGp : good w parents) by (apply Forall_app in HG; destruct HG as [_ HG]; apply Forall_inv in HG; auto).
  destruct (generation_good _ _ _ _ _ _ maximize coin 0 i w parents _ _ _ _ _ _ HGp Hc Hs EP) as (Hgr & Lo & _ & _ & _ & _ & Go & Gp & _).
  assert (Hnew := brood_new w parents _ _ _ _ _ _ HGp Hc EP).
  destruct (replaced_part _ _ _ _ _ Go Gp ER) as [Ls Hpart].
  assert (HH1 : history w1 (earlier ++ [parents]) used) by (apply (history_grows w w1); auto).
  destruct HH1 as (HG1 & _ & HJ1).
  split; [auto|]. split; [auto|]. split; [auto|]. split; [auto|].
  split; [|split].
  - apply Forall_app. split; auto. constructor; [|constructor]. exact (survivors_good w w1 offspring parents surv HGp Hgr Go Hnew Hpart).
  - rewrite !app_length in *. cbn in *. lia.
  - rewrite app_length in HL. cbn in HL.
    intros j s o p q Eu Ep Eq. destruct (lt_dec j (length used)) as [Hj|Hj].
    + rewrite nth_error_app1 in Eu by auto. rewrite nth_error_app1 in Ep, Eq by (rewrite app_length; cbn; lia).
      destruct (HJ1 j s o p q Eu Ep Eq) as (A & B & C & D' & E & F). split; [auto|]; split; [auto|]; split; [|auto].
      intros x Hx k p' Hk Ek. apply (C x Hx k p' Hk). rewrite nth_error_app1 in Ek by (rewrite app_length; cbn; lia). auto.
    + assert (Hj' : j < length (used ++ [(std, offspring)])) by (apply nth_error_Some; congruence).
      rewrite app_length in Hj'. cbn in Hj'. assert (j = length used) by lia. subst j.
      rewrite nth_error_app2, Nat.sub_diag in Eu by auto. cbn in Eu. injection Eu as <- <-.
      rewrite nth_error_app1 in Ep by (rewrite app_length; cbn; lia).
      rewrite nth_error_app2 in Ep by lia. replace (length used - length earlier) with 0 in Ep by lia. cbn in Ep. assert (Ep2 : parents = p) by congruence. subst p.
      rewrite nth_error_app2 in Eq by (rewrite app_length; cbn; lia). rewrite app_length in Eq. cbn [length] in Eq.
      replace (S (length used) - (length earlier + 1)) with 0 in Eq by lia. cbn in Eq. assert (Eq2 : surv = q) by congruence. subst q.
      split; [auto|]. split; [auto|]. split.
      { intros x Hx k p' Hk Ek C. rewrite nth_error_app1 in Ek by (rewrite app_length; cbn; lia).
        apply nth_error_In in Ek. rewrite Forall_forall in HG. destruct (HG p' Ek) as (_ & _ & K). destruct (K x C) as (K1 & _).
        destruct (Hnew x Hx). lia. }
      split; [auto|]. split; [auto|]. intros Hd. rewrite <- Ei. destruct mode eqn:Em.
      * rewrite <- Em in ER. exact (plus_ok _ _ _ _ _ Em Hd Go Gp ER).
      * rewrite <- Em in ER. exact (insert_ok _ _ _ _ _ _ Em Hd Go Gp ER).
Qed.

Lemma loop_spec : forall fuel i gc std w earlier used parents final w' pops used' gc',
  i = length used -> history w (earlier ++ [parents]) used ->
  strategy_loop fuel i gc std w earlier used parents = Some (Ok (final, w', pops, used'), gc') ->
  grows w w' /\ history w' (pops ++ [final]) used' /\
  exists later ran, pops ++ [final] = (earlier ++ [parents]) ++ later /\ used' = used ++ ran /\ length ran = length later /\
    gc_curr gc' = (gc_curr gc + Z.of_nat (length later))%Z /\ (gc_ctx gc = gc_curr gc -> gc_ctx gc' = gc_curr gc') /\
    (forall j s o, nth_error ran j = Some (s, o) -> s = annealed (gc_curr gc) std j).
Proof.
  induction fuel as [|fuel IH]; intros i gc std w earlier used parents final w' pops used' gc' Ei HH H; cbn [Strategies.strategy_loop] in H.
  - destruct (gc_generation gc <? max_generation)%Z; [discriminate|]. injection H as <- <- <- <- <-.
    split; [apply grows_refl|]. split; [auto|]. exists [], []. rewrite !app_nil_r. repeat split; auto; [cbn; lia|].
    intros [|j] s o; discriminate.
  - destruct (gc_generation gc <? max_generation)%Z.
    2:{ injection H as <- <- <- <- <-. split; [apply grows_refl|]. split; [auto|]. exists [], []. rewrite !app_nil_r. repeat split; auto; [cbn; lia|].
        intros [|j] s o; discriminate. }
    set (stack := operators i std ++ [OpSelect parents (pick i w parents)]) in H.
    destruct (pool NNan decoder_of problem_of (length parents * brood) stack (start stack) w) as [[[offspring sts] w1]|e] eqn:EP; [|discriminate].
    destruct (replaced i w1 offspring parents) as [surv|e] eqn:ER; [|discriminate].
    destruct (history_step _ _ _ _ _ _ _ _ _ _ Ei HH EP ER) as (Hgr & _ & _ & _ & HH1).
    cbn [gc_increment] in H. apply IH in H; [|rewrite app_length; cbn; lia|exact HH1].
    destruct H as (Hgr2 & HHf & later & ran & E & Eu & El & Hgc & Hctx & Han).
    split; [eapply grows_trans; eauto|]. split; auto.
    exists (surv :: later), ((std, offspring) :: ran). split; [rewrite E, <- !app_assoc; reflexivity|].
    split; [rewrite Eu, <- app_assoc; reflexivity|]. split; [cbn; lia|].
    split; [cbn [length]; cbn [gc_curr] in Hgc; lia|]. split; [intros _; apply Hctx; reflexivity|].
    intros [|j] s o Ej; cbn in Ej; [injection Ej as <- <-; reflexivity|]. cbn [annealed]. cbn [gc_curr] in Han. eapply Han; eauto.
Qed.

Lemma annealed_S j : forall g0 std, annealed g0 std (S j) = fold_left (fun s f => f (g0 + Z.of_nat (S j))%Z s) callbacks (annealed g0 std j).
Proof.
  induction j as [|j IH]; intros g0 std; [reflexivity|].
  change (annealed g0 std (S (S j))) with (annealed (g0 + 1) (fold_left (fun s f => f (g0 + 1)%Z s) callbacks std) (S j)).
  rewrite IH. cbn [annealed]. replace (g0 + 1 + Z.of_nat (S j))%Z with (g0 + Z.of_nat (S (S j)))%Z by lia. reflexivity.
Qed.

Notation strategy initialize pop_size std w :=
  (strategy decoder_of problem_of maximize coin max_generation brood mode operators pick callbacks
     initialize problem decoder pop_size std w).

Lemma run_spec initialize pop_size std w final w' earlier used gc' :
  (forall k, D (initialize k)) ->
  strategy initialize pop_size std w = Some (Ok (final, w', earlier, used), gc') ->
  grows w w' /\ history w' (earlier ++ [final]) used /\ length used = length earlier /\
  (exists l later, earlier ++ [final] = l :: later /\ length l = pop_size) /\
  gc_curr gc' = Z.of_nat (length earlier) /\ gc_ctx gc' = gc_curr gc' /\
  (forall j s o, nth_error used j = Some (s, o) -> s = annealed 0 std j).
Proof.
  intros HD H. unfold Strategies.strategy in H.
  destruct (create_all initialize problem decoder false pop_size 0 w) as [l w1] eqn:EC.
  destruct (evaluate_population NNan decoder_of problem_of w1 l) as [[u|e] w2] eqn:EE; [|discriminate].
  destruct (initial_good _ _ _ _ _ _ _ _ _ _ _ _ _ HD EC EE) as (L & HG & Hgr).
  apply loop_spec in H; [|reflexivity|].
  2:{ split; [constructor; auto|]. split; [reflexivity|]. intros [|j] s o p q E; discriminate. }
  cbn [app] in H. destruct H as (Hgr2 & HH & later & ran & E & Eu & El & Hgc & Hctx & Han). subst used.
  split; [eapply grows_trans; eauto|]. split; auto.
  assert (length earlier = length later).
  { apply (f_equal (@length _)) in E. rewrite app_length in E. cbn in E. lia. }
  split; [lia|]. split; [eauto|]. split; [cbn [inc_generation gc_curr] in Hgc; lia|]. split; [apply Hctx; reflexivity|]. exact Han.
Qed.

Lemma nth_down {A} (l : list A) i j y : i <= j -> nth_error l j = Some y -> exists x, nth_error l i = Some x.
Proof.
  intros H E. assert (j < length l) by (apply nth_error_Some; congruence).
  destruct (nth_error l i) eqn:Ei; [eauto|]. apply nth_error_None in Ei. lia.
Qed.

Lemma history_lengths w pops used l later : pops = l :: later -> history w pops used ->
  forall j p, nth_error pops j = Some p -> length p = length l.
Proof.
  intros E (H1 & H2 & H3). induction j as [|j IH]; intros p Hp.
  - rewrite E in Hp. cbn in Hp. congruence.
  - destruct (nth_down _ j (S j) _ ltac:(lia) Hp) as [p0 H0].
    assert (j < length used) by (pose proof (nth_error_Some_lt _ _ _ Hp); lia).
    destruct (nth_error used j) as [[s o]|] eqn:Eu; [|apply nth_error_None in Eu; lia].
    destruct (H3 j s o p0 p Eu H0 Hp) as (_ & _ & _ & L & _). rewrite L. apply IH. auto.
Qed.

Lemma strategy_good initialize pop_size std w final w' earlier used gc' :
  (forall k, D (initialize k)) ->
  strategy initialize pop_size std w = Some (Ok (final, w', earlier, used), gc') ->
  let pops := earlier ++ [final] in
  length used = length earlier /\ gc_curr gc' = Z.of_nat (length earlier) /\ gc_ctx gc' = gc_curr gc' /\
  untouched w w' /\
  (forall p, In p pops -> length p = pop_size) /\
  (forall p, In p pops \/ In p (map snd used) -> NoDup p /\ NoDup (map (fun i => i_genome (w_ind w' i)) p) /\
    forall i, In i p -> D (genes w' i) /\
      i_problem (w_ind w' i) = problem /\ i_decoder (w_ind w' i) = decoder /\
      i_fitness (w_ind w' i) = Some (outcome NNan (score (decoder_of decoder) (problem_of problem) (genes w' i)))) /\
  (forall j s o p q, nth_error used j = Some (s, o) -> nth_error pops j = Some p -> nth_error pops (S j) = Some q ->
    length o = pop_size * brood /\ (forall x, In x o -> forall k p', k <= j -> nth_error pops k = Some p' -> ~ In x p') /\
    incl q (o ++ p)) /\
  (forall s o, nth_error used 0 = Some (s, o) -> s = std) /\
  (forall j s s' o o', nth_error used j = Some (s, o) -> nth_error used (S j) = Some (s', o') ->
    s' = fold_left (fun r f => f (Z.of_nat (S j)) r) callbacks s).
Proof.
  intros HD H. destruct (run_spec _ _ _ _ _ _ _ _ _ HD H) as (Hg & HH & Lu & (l & later & El & Ll) & Hc & Hx & Han). cbn zeta.
  pose proof (history_lengths _ _ _ _ _ El HH) as HL. destruct HH as (H1 & H2 & H3).
  split; [auto|]. split; [auto|]. split; [auto|]. split; [apply Hg|]. split.
  { intros p Hp. apply In_nth_error in Hp. destruct Hp as [j Hj]. rewrite (HL j p Hj). auto. }
  split.
  { assert (HA : forall p, In p (earlier ++ [final]) \/ In p (map snd used) -> good w' p).
    { intros p [Hp|Hp].
      - rewrite Forall_forall in H1. auto.
      - apply in_map_iff in Hp. destruct Hp as ((s & o) & <- & Hp). apply In_nth_error in Hp. destruct Hp as [j Hj]. cbn [snd].
        assert (Hlt := nth_error_Some_lt _ _ _ Hj).
        destruct (nth_error (earlier ++ [final]) (S j)) as [q|] eqn:Eq; [|apply nth_error_None in Eq; rewrite H2 in Eq; lia].
        destruct (nth_down _ j (S j) _ ltac:(lia) Eq) as [p0 Ep]. apply (H3 j s o p0 q Hj Ep Eq). }
    intros p Hp. destruct (HA p Hp) as (A & B & C). split; [auto|]. split; [auto|]. intros i Hi.
    destruct (C i Hi) as (_ & _ & K & F). split; [apply K|]. split; [apply K|]. split; [apply K|]. exact F. }
  split.
  { intros j s o p q Eu Ep Eq. destruct (H3 j s o p q Eu Ep Eq) as (A & B & C & _ & Hpart & _).
    split; [rewrite B, (HL j p Ep); congruence|]. split; [exact C|]. intros x Hx'. eapply part_in; eauto. }
  split.
  { intros s o E. apply Han in E. exact E. }
  intros j s s' o o' E E'. apply Han in E, E'. rewrite annealed_S in E'. rewrite E', E. reflexivity.
Qed.

Lemma strategy_step initialize pop_size std w final w' earlier used gc' :
  (forall k, D (initialize k)) -> distinct_scores ->
  strategy initialize pop_size std w = Some (Ok (final, w', earlier, used), gc') ->
  forall j s o p q, nth_error used j = Some (s, o) ->
    nth_error (earlier ++ [final]) j = Some p -> nth_error (earlier ++ [final]) (S j) = Some q ->
    match mode with Plus => plus_step w' o p q | Insert draws => insert_step w' (hd 0 (draws j)) o p q end.
Proof.
  intros HD Hd H j s o p q Eu Ep Eq. destruct (run_spec _ _ _ _ _ _ _ _ _ HD H) as (_ & (_ & _ & H3) & _).
  destruct (H3 j s o p q Eu Ep Eq) as (_ & _ & _ & _ & _ & HS). apply HS, Hd.
Qed.

Definition at_least f w (i : nat) : bool := if better_dec maximize f (value w i) then false else true.

Lemma filter_split {A} (b : A -> bool) l : (forall x, In x l -> b x = true) -> filter b l = l.
Proof. induction l as [|a l IH]; intros H; cbn; [reflexivity|]. rewrite (H a) by (left; auto). f_equal. apply IH. intros. apply H. right. auto. Qed.
Lemma filter_none {A} (b : A -> bool) l : (forall x, In x l -> b x = false) -> filter b l = [].
Proof. induction l as [|a l IH]; intros H; cbn; [reflexivity|]. rewrite (H a) by (left; auto). apply IH. intros. apply H. right. auto. Qed.
Lemma filter_perm {A} (b : A -> bool) l m : Permutation l m -> length (filter b l) = length (filter b m).
Proof.
  induction 1; cbn; auto.
  - destruct (b x); cbn; lia.
  - destruct (b x), (b y); cbn; lia.
  - lia.
Qed.
Lemma filter_shorter {A} (b : A -> bool) l : length (filter b l) <= length l.
Proof. induction l as [|a l IH]; cbn; [lia|]. destruct (b a); cbn; lia. Qed.

Lemma plus_counts w o p q f : plus_step w o p q ->
  length (filter (at_least f w) p) <= length (filter (at_least f w) q) /\
  (forall x, In x o -> exists y, In y q /\ ~ better maximize (value w x) (value w y)) \/ p = [].
Proof.
  intros (L & rest & HP & HB). destruct p as [|p0 p']; [auto|left]. split.
  - apply (Permutation_trans (Permutation_app_comm _ _)) in HP. pose proof (filter_perm (at_least f w) _ _ HP) as HC.
    rewrite !filter_app, !app_length in HC.
    destruct (existsb (at_least f w) rest) eqn:Ex.
    + apply existsb_exists in Ex. destruct Ex as (r & Hr & Er).
      rewrite (filter_split _ q).
      * rewrite L. apply filter_shorter.
      * intros x Hx. unfold at_least in *. destruct (better_dec maximize f (value w r)) as [|N]; [discriminate|].
        destruct (better_dec maximize f (value w x)) as [Bx|]; auto. exfalso.
        apply (nb_trans_num maximize f (value w r) (value w x)); auto. exact (HB x r Hx Hr).
    + rewrite (filter_none _ rest) in HC; [cbn [length] in HC; lia|].
      intros x Hx. destruct (at_least f w x) eqn:E; auto. assert (existsb (at_least f w) rest = true) by (apply existsb_exists; eauto). congruence.
  - intros x Hx. assert (Hin : In x (q ++ rest)) by (eapply Permutation_in; [exact HP|]; apply in_or_app; auto).
    apply in_app_or in Hin. destruct Hin as [Hin|Hin].
    + exists x. split; auto. apply better_irrefl.
    + destruct q as [|q0 q']; [discriminate|]. exists q0. split; [left; auto|]. apply HB; auto. left. auto.
Qed.

Lemma plus_run initialize pop_size std w final w' earlier used gc' :
  mode = Plus -> (forall k, D (initialize k)) -> distinct_scores ->
  strategy initialize pop_size std w = Some (Ok (final, w', earlier, used), gc') ->
  forall f j1 j2 p1 p2 c1 c2, j1 <= j2 ->
  nth_error (earlier ++ [final]) j1 = Some p1 -> nth_error (earlier ++ [final]) j2 = Some p2 ->
  counts (fun i => ~ better maximize f (value w' i)) p1 c1 -> counts (fun i => ~ better maximize f (value w' i)) p2 c2 -> c1 <= c2.
Proof.
  intros Hm HD Hd H f j1 j2 p1 p2 c1 c2 Hle E1 E2 (b1 & B1 & <-) (b2 & B2 & <-).
  destruct (run_spec _ _ _ _ _ _ _ _ _ HD H) as (_ & (_ & HL & H3) & _).
  assert (HF : forall b p, (forall a, In a p -> b a = true <-> ~ better maximize f (value w' a)) -> filter b p = filter (at_least f w') p).
  { intros b p Hb. apply filter_ext_in. intros a Ha. specialize (Hb a Ha). unfold at_least.
    destruct (better_dec maximize f (value w' a)) as [B|B]; destruct (b a); auto; [exfalso; apply Hb; auto|apply Hb in B; discriminate]. }
  rewrite (HF _ _ B1), (HF _ _ B2). clear B1 B2 HF.
  revert p2 E2. induction Hle as [|j2 Hle IH]; intros p2 E2.
  - rewrite E1 in E2. injection E2 as <-. lia.
  - destruct (nth_down _ j2 (S j2) _ ltac:(lia) E2) as [q Eq]. specialize (IH q Eq).
    assert (Hlt := nth_error_Some_lt _ _ _ E2).
    destruct (nth_error used j2) as [[s o]|] eqn:Eu; [|apply nth_error_None in Eu; lia].
    destruct (H3 j2 s o q p2 Eu Eq E2) as (_ & _ & _ & _ & _ & HS). specialize (HS Hd). rewrite Hm in HS.
    destruct (plus_counts _ _ _ _ f HS) as [[HC _]|HC]; [exact (Nat.le_trans _ _ _ IH HC)|]. rewrite HC in IH. cbn in IH. lia.
Qed.

Lemma plus_best initialize pop_size std w final w' earlier used gc' :
  mode = Plus -> (forall k, D (initialize k)) -> distinct_scores -> 1 <= pop_size ->
  strategy initialize pop_size std w = Some (Ok (final, w', earlier, used), gc') ->
  forall x, (exists p, In p (earlier ++ [final]) /\ In x p) \/ (exists s o, In (s, o) used /\ In x o) ->
  exists y, In y final /\ ~ better maximize (value w' x) (value w' y).
Proof.
  intros Hm HD Hd Hp H x Hx.
  destruct (run_spec _ _ _ _ _ _ _ _ _ HD H) as (_ & HH & Lu & (l & later & El & Ll) & _).
  pose proof (history_lengths _ _ _ _ _ El HH) as HL. destruct HH as (_ & H2 & H3).
  assert (HF : nth_error (earlier ++ [final]) (length earlier) = Some final) by (rewrite nth_error_app2, Nat.sub_diag by auto; reflexivity).
  (* from any population on *)
  assert (HA : forall j p, nth_error (earlier ++ [final]) j = Some p -> forall x, In x p ->
    exists y, In y final /\ ~ better maximize (value w' x) (value w' y)).
  { intros j p Ej z Hz. assert (Hj : j <= length earlier).
    { assert (Hlt := nth_error_Some_lt _ _ _ Ej). rewrite app_length in Hlt. cbn in Hlt. lia. }
    pose proof (plus_run _ _ _ _ _ _ _ _ _ Hm HD Hd H (value w' z) j (length earlier) p final
      (length (filter (at_least (value w' z) w') p)) (length (filter (at_least (value w' z) w') final)) Hj Ej HF) as HC.
    assert (Hat : forall l a, In a l -> at_least (value w' z) w' a = true <-> ~ better maximize (value w' z) (value w' a)).
    { intros l0 a _. unfold at_least. destruct (better_dec _ _ _); split; intros; try discriminate; try contradiction; auto. }
    assert (HC' : length (filter (at_least (value w' z) w') p) <= length (filter (at_least (value w' z) w') final)).
    { apply HC; eexists; (split; [apply Hat|reflexivity]). }
    assert (Hin : In z (filter (at_least (value w' z) w') p)).
    { apply filter_In. split; auto. apply (Hat p); auto. apply better_irrefl. }
    destruct (filter (at_least (value w' z) w') final) as [|y r] eqn:Ef.
    { destruct (filter (at_least (value w' z) w') p); [destruct Hin|cbn in HC'; lia]. }
    assert (Hy : In y (filter (at_least (value w' z) w') final)) by (rewrite Ef; left; auto).
    apply filter_In in Hy. destruct Hy as [Hy1 Hy2]. exists y. split; auto. apply (Hat final); auto. }
  destruct Hx as [(p & Hp' & Hx)|(s & o & Ho & Hx)].
  - apply In_nth_error in Hp'. destruct Hp' as [j Hj]. exact (HA j p Hj x Hx).
  - apply In_nth_error in Ho. destruct Ho as [j Hj]. assert (Hlt := nth_error_Some_lt _ _ _ Hj).
    destruct (nth_error (earlier ++ [final]) (S j)) as [q|] eqn:Eq; [|apply nth_error_None in Eq; rewrite H2 in Eq; lia].
    destruct (nth_down _ j (S j) _ ltac:(lia) Eq) as [p Ep].
    destruct (H3 j s o p q Hj Ep Eq) as (_ & _ & _ & _ & _ & HS). specialize (HS Hd). rewrite Hm in HS.
    destruct (plus_counts _ _ _ _ NNan HS) as [[_ HC]|HC].
    + destruct (HC x Hx) as (y & Hy & Hxy). destruct (HA (S j) q Eq y Hy) as (z & Hz & Hyz).
      exists z. split; auto. eapply nb_trans_num; eauto.
    + pose proof (HL j p Ep) as C. rewrite HC in C. cbn in C. lia.
Qed.

(** ** runs that do not raise *)
Hypothesis scored : forall g, D g -> exists f, score (decoder_of decoder) (problem_of problem) g = Ok f.
Variable fine : Q -> Prop.
Hypothesis fine_kept : forall f g s, In f callbacks -> fine s -> fine (f g s).
Hypothesis works : forall i s, fine s -> Forall (works_on D) (operators i s).
Hypothesis picks : forall i w l k, l <> [] -> pick i w l k < length l.

Lemma replaced_works w i o p : good w o -> good w p -> o <> [] -> p <> [] -> exists q, replaced i w o p = Ok q.
Proof.
  intros Ho Hp No Np. unfold Strategies.replaced.
  rewrite (compared_good _ _ _ _ _ _ _ _ Ho), (compared_good _ _ _ _ _ _ _ _ Hp).
  destruct mode; [eauto|]. destruct o as [|a o]; [contradiction|]. destruct p as [|b p]; [contradiction|].
  cbn [map insertion_selection bind]. eauto.
Qed.

Lemma loop_works : 1 <= brood -> forall fuel i gc std w earlier used parents,
  fine std -> good w parents -> parents <> [] -> (max_generation - gc_curr gc <= Z.of_nat fuel)%Z ->
  exists final w' pops used' gc', strategy_loop fuel i gc std w earlier used parents = Some (Ok (final, w', pops, used'), gc') /\
    Z.of_nat (length pops) = (Z.of_nat (length earlier) + Z.max 0 (max_generation - gc_curr gc))%Z.
Proof.
  intros Hsz. induction fuel as [|fuel IH]; intros i gc std w earlier used parents Hfn HG Hne Hf; cbn [Strategies.strategy_loop].
  - unfold gc_generation. destruct (Z.ltb_spec (gc_curr gc) max_generation); [lia|].
    eexists _, _, _, _, _. split; [reflexivity|]. lia.
  - unfold gc_generation. destruct (Z.ltb_spec (gc_curr gc) max_generation) as [Hlt|Hge].
    2:{ eexists _, _, _, _, _. split; [reflexivity|]. lia. }
    set (stack := operators i std ++ [OpSelect parents (pick i w parents)]).
    destruct (Hops i std) as [Hc Hs].
    destruct (stack_breeding w (operators i std) parents (pick i w parents) Hc) as [HB _]; [intros j Hj; apply HG; auto|].
    fold stack in HB.
    assert (I0 : inv w w ([] ++ held (start stack))) by (rewrite held_start; apply inv_init).
    assert (HFs : Forall (stays_within D) stack).
    { unfold stack. apply Forall_app. split; auto. constructor; [exact I|constructor]. }
    assert (HWs : Forall (works_on D) stack).
    { unfold stack. apply Forall_app. split; auto. constructor; [exact I|constructor]. }
    assert (Hns : Forall (fun o : op G => is_source o = false) (operators i std)).
    { destruct Hc as (between & -> & HFb). constructor; auto. apply Forall_app. split; auto. }
    assert (HPs : Forall picks_ok stack).
    { unfold stack. apply Forall_app. split; [|constructor; [intros k; apply picks; auto|constructor]].
      eapply Forall_impl; [|exact Hns]. intros o Ho. destruct o; try discriminate; exact I. }
    assert (HSo : sources_ok D problem decoder false w stack).
    { intros o j Ho Hj. unfold stack in Ho. apply in_app_or in Ho. destruct Ho as [Ho|[<-|[]]].
      - rewrite Forall_forall in Hns. specialize (Hns o Ho). destruct o; try discriminate; destruct Hj.
      - cbn in Hj. destruct HG as (_ & _ & HG). destruct (HG j Hj) as (A & B & C & _). auto. }
    destruct (pool_works NNan decoder_of problem_of D problem decoder false w (or_intror scored) (length parents * brood) stack HB HFs HWs HPs HSo
                (start stack) w []) as (offspring & sts & w1 & EP); auto.
    { unfold start. apply map_length. }
    { rewrite held_start. intros j []. }
    rewrite EP.
    destruct (generation_good _ _ _ _ _ _ maximize coin 0 i w parents _ _ _ _ _ _ HG Hc Hs EP) as (Hgr & Lo & _ & _ & _ & _ & Go & Gp & _).
    assert (Hnew := brood_new w parents _ _ _ _ _ _ HG Hc EP).
    assert (Hpl : 1 <= length parents) by (destruct parents; [contradiction|cbn; lia]).
    destruct (replaced_works w1 i offspring parents) as [surv ER]; auto.
    { intros C. rewrite C in Lo. cbn in Lo. nia. }
    rewrite ER. destruct (replaced_part _ _ _ _ _ Go Gp ER) as [Ls Hpart]. cbn [gc_increment].
    edestruct IH as (final & w' & pops & used' & gc' & E & HN).
    5:{ exists final, w', pops, used', gc'. split; [exact E|]. rewrite HN. cbn [gc_curr]. rewrite app_length. cbn [length]. lia. }
    + generalize (gc_curr gc + 1)%Z as g. intros g. clear - Hfn fine_kept. revert std Hfn fine_kept.
      induction callbacks as [|f l IHl]; intros std Hfn Hk; cbn; [exact Hfn|]. apply IHl; [apply Hk; cbn; auto|].
      intros f' g' s' Hf. apply Hk. right. exact Hf.
    + exact (survivors_good w w1 offspring parents surv HG Hgr Go Hnew Hpart).
    + intros C. rewrite C in Ls. cbn in Ls. lia.
    + cbn [gc_curr]. lia.
Qed.

Lemma strategy_works initialize pop_size std w :
  (forall k, D (initialize k)) -> fine std -> 1 <= pop_size -> 1 <= brood ->
  exists final w' earlier used gc', strategy initialize pop_size std w = Some (Ok (final, w', earlier, used), gc') /\
    length earlier = Z.to_nat max_generation.
Proof.
  intros HD Hfn Hp Hsz. unfold Strategies.strategy.
  destruct (create_all initialize problem decoder false pop_size 0 w) as [l w1] eqn:EC.
  pose proof (create_all_spec _ _ _ _ _ _ _ _ _ EC) as (L & HG & N1 & N2 & HA).
  destruct (population_works decoder_of problem_of D problem decoder false (or_intror scored) l w1) as (u & w2 & EE).
  { intros i Hi. destruct (HA i Hi) as (_ & _ & (m & Em) & K). split; [rewrite Em; auto|exact K]. }
  rewrite EE. destruct (initial_good _ _ _ _ _ _ _ _ _ _ _ _ _ HD EC EE) as (_ & HGd & _).
  destruct (loop_works Hsz (Z.to_nat max_generation) 0 (inc_generation 0) std w2 [] [] l Hfn HGd) as (final & w' & pops & used & gc' & E & HN).
  - intros ->. cbn in L. lia.
  - cbn [inc_generation gc_curr]. lia.
  - exists final, w', pops, used, gc'. split; auto. cbn [inc_generation gc_curr length] in HN. lia.
Qed.
End Run.

(** ** the programs *)
From Coq Require Import Lqa Qpower.
From Verif Require Import Model.Variation Model.Transfer Model.RealProblems Model.Simple Spec.Variation Spec.RealProblems Spec.HeapRuns Spec.Strategies
  Proofs.Variation Proofs.RealProblems Proofs.HeapRuns Proofs.Simple.

Lemma free_gaussian_safe std expected us noise p :
  (0 <= std)%Q -> match expected with None => p == 1 | Some e => p * 4 == e end%Q -> (0 <= p)%Q -> (p <= 1)%Q ->
  (forall k, fitting p (us k) (noise k)) -> safe four (free_gaussian_op std expected us noise).
Proof.
  intros Hs He P0 P1 HL. apply mutate_safe. intros k g Hg. destruct (HL k) as [L1 L2]. unfold four in Hg.
  destruct (gaussian_changed (inl std) expected (BScalar MInf PInf) 1 0 (us k) (noise k) g p) as (ip & g' & E & Lg & CW); auto.
  - congruence.
  - exact Logic.I.
  - rewrite select_length by congruence. rewrite Hg. exact L2.
  - destruct expected; auto. rewrite Hg. split; [discriminate|exact He].
  - intros i low high Hb. cbn in Hb. injection Hb as <- <-. exact Logic.I.
  - destruct (all_fin g') as [q Eq].
    { intros i x' Hx. assert (Hi := nth_error_Some_lt _ _ _ Hx).
      destruct (nth_error g i) as [x|] eqn:Ex; [|apply nth_error_None in Ex; lia].
      destruct (CW i x Ex) as (y & Hy & D1 & D2). rewrite Hx in Hy. injection Hy as <-.
      destruct (drawn_dec (us k) p i) as [Hd|Hd].
      - destruct (D1 Hd) as (low & high & z & s & Eb & _ & _ & C1 & C2 & C3). cbn in Eb. injection Eb as <- <-.
        rewrite C3 by (exact Logic.I). eauto.
      - destruct (D2 Hd) as (low & high & Eb & C1 & C2 & C3). cbn in Eb. injection Eb as <- <-.
        rewrite C3 by (exact Logic.I). eauto. }
    unfold mutate_gaussian. rewrite E. cbn [bind]. rewrite (finite_ok _ _ Eq). cbn [bind]. eexists _, _. split; [reflexivity|].
    cbn. unfold four. rewrite <- (map_length Fin q), Eq, Lg. exact Hg.
Qed.

Lemma stages_ok expected us noise p s :
  match expected with None => p == 1 | Some e => p * 4 == e end%Q -> (0 <= p)%Q -> (p <= 1)%Q ->
  (forall k, fitting p (us k) (noise k)) ->
  clone_vary_evaluate (gaussian_stages s expected us noise) /\ Forall (stays_within four) (gaussian_stages s expected us noise) /\
  ((0 <= s)%Q -> Forall (works_on four) (gaussian_stages s expected us noise)).
Proof.
  intros He P0 P1 HL. unfold gaussian_stages. split; [|split].
  - exists [free_gaussian_op s expected us noise]. split; [reflexivity|]. constructor; [reflexivity|constructor].
  - constructor; [exact Logic.I|]. constructor; [|constructor; [exact Logic.I|constructor]].
    destruct (Qlt_le_dec s 0) as [Hs|Hs].
    + intros k g ip fr _ E. unfold mutate_gaussian, genome_mutate_gaussian in E. apply Qltb_lt in Hs. rewrite Hs in E. discriminate.
    + apply (free_gaussian_safe s expected us noise p); auto.
  - intros Hs. constructor; [exact Logic.I|]. constructor; [|constructor; [exact Logic.I|constructor]].
    apply (free_gaussian_safe s expected us noise p); auto.
Qed.

Lemma created_four init : uniform_four init -> four (create_real_vector example_bounds init).
Proof. intros [L _]. destruct init as [|a [|b [|c [|d [|]]]]]; try discriminate. reflexivity. Qed.

Lemma sphere_scored g : score (identity_decoder 0) (sphere_problem 0) g = Ok (NFlt true (Fin (spheroid_array g))).
Proof. reflexivity. Qed.

(** what all three programs do *)
Lemma program_ok coin n brood mode expected (us noise : nat -> nat -> list Q) (size_of : Q -> Q) pick callbacks
    (init : nat -> list Q) pop_size std (w : world Q unit num) p :
  match expected with None => p == 1 | Some e => p * 4 == e end%Q -> (0 <= p)%Q -> (p <= 1)%Q ->
  (forall i k, fitting p (us i k) (noise i k)) -> (forall k, uniform_four (init k)) ->
  (forall i w l k, l <> [] -> pick i w l k < length l) ->
  (0 <= std)%Q -> (forall f g s, In f callbacks -> (0 <= s)%Q -> (0 <= f g s)%Q) -> (forall s, (0 <= s)%Q -> (0 <= size_of s)%Q) ->
  1 <= pop_size -> 1 <= brood ->
  exists final w' earlier used gc',
    strategy identity_decoder sphere_problem false coin (Z.of_nat n) brood mode
      (fun i s => gaussian_stages (size_of s) expected (us i) (noise i)) pick callbacks
      (fun k => create_real_vector example_bounds (init k)) 0 0 pop_size std w = Some (Ok (final, w', earlier, used), gc') /\
    length earlier = n /\ length used = n /\ gc_ctx gc' = Z.of_nat n /\
    (forall q, In q (earlier ++ [final]) -> length q = pop_size) /\
    (forall s o, In (s, o) used -> length o = pop_size * brood) /\
    (forall q i, In q (earlier ++ [final]) \/ In q (map snd used) -> In i q -> four (genes w' i) /\
      exists v, i_fitness (w_ind w' i) = Some (NFlt true (Fin v)) /\ v == sq_length (genes w' i))%Q /\
    (forall s o, nth_error used 0 = Some (s, o) -> s = std) /\
    (forall j s s' o o', nth_error used j = Some (s, o) -> nth_error used (S j) = Some (s', o') ->
      s' = fold_left (fun r f => f (Z.of_nat (S j)) r) callbacks s).
Proof.
  intros He P0 P1 HL HI Hp Hs Hk Hz H1 H2.
  assert (HO : forall i s, clone_vary_evaluate (gaussian_stages (size_of s) expected (us i) (noise i)) /\
                 Forall (stays_within four) (gaussian_stages (size_of s) expected (us i) (noise i))).
  { intros i s. destruct (stages_ok expected (us i) (noise i) p (size_of s)) as (A & B & _); auto. }
  assert (HD : forall k, four (create_real_vector example_bounds (init k))) by (intros k; apply created_four, HI).
  destruct (strategy_works identity_decoder sphere_problem four 0 0 false coin mode (Z.of_nat n) brood
      (fun i s => gaussian_stages (size_of s) expected (us i) (noise i)) pick callbacks HO
      (fun g _ => ex_intro _ _ (sphere_scored g)) (fun s => 0 <= s)%Q Hk) with (initialize := fun k => create_real_vector example_bounds (init k))
      (pop_size := pop_size) (std := std) (w := w) as (final & w' & earlier & used & gc' & E & Le); auto.
  { intros i s Hs0. apply (stages_ok expected (us i) (noise i) p (size_of s)); auto. }
  exists final, w', earlier, used, gc'. split; [exact E|].
  destruct (strategy_good identity_decoder sphere_problem four 0 0 false coin mode (Z.of_nat n) brood
      (fun i s => gaussian_stages (size_of s) expected (us i) (noise i)) pick callbacks HO _ _ _ _ _ _ _ _ _ HD E)
    as (A1 & A2 & A3 & _ & A5 & A6 & A7 & A8 & A9).
  rewrite Nat2Z.id in Le. split; [auto|]. split; [lia|]. split; [rewrite A3, A2, Le; reflexivity|]. split; [exact A5|]. split.
  { intros s o Ho. apply In_nth_error in Ho. destruct Ho as [j Hj]. assert (Hlt := nth_error_Some_lt _ _ _ Hj).
    destruct (nth_error (earlier ++ [final]) (S j)) as [q|] eqn:Eq; [|apply nth_error_None in Eq; rewrite app_length in Eq; cbn in Eq; lia].
    destruct (nth_down _ j (S j) _ ltac:(lia) Eq) as [q0 Ep]. apply (A7 j s o q0 q Hj Ep Eq). }
  split.
  { intros q i Hq Hi. destruct (A6 q Hq) as (_ & _ & C). destruct (C i Hi) as (C1 & _ & _ & C4). split; [exact C1|].
    rewrite C4. rewrite sphere_scored. cbn [outcome]. eexists. split; [reflexivity|]. apply spheroid_spec. }
  split; [exact A8|exact A9].
Qed.

Lemma ep_runs (testing : bool) coin pick (init : nat -> list Q) (us noise : nat -> nat -> list Q) (w : world Q unit num) :
  (forall k, uniform_four (init k)) -> (forall i k, fitting 1 (us i k) (noise i k)) ->
  (forall i w l k, l <> [] -> pick i w l k < length l) ->
  ran (if testing then 2 else 100) 5 (simple_ep testing coin pick init us noise w) (fun _ _ => True).
Proof.
  intros HI HF HP. unfold simple_ep.
  destruct (program_ok coin (if testing then 2 else 100) 3 Plus None us noise (fun _ => 1 # 10)%Q pick [] init 5 (1 # 10) w 1)
    as (final & w' & earlier & used & gc' & E & A1 & A2 & A3 & A4 & A5 & A6 & _); auto; try lra; try lia; try reflexivity; try (intros; lra).
  { intros f g s []. }
  exists final, w', earlier, used, gc'. split; [destruct testing; exact E|]. repeat (split; [assumption|]). auto.
Qed.

Lemma ev_runs (testing : bool) coin pick draws (init : nat -> list Q) (us noise : nat -> nat -> list Q) (w : world Q unit num) :
  (forall k, uniform_four (init k)) -> (forall i k, fitting (1 # 4) (us i k) (noise i k)) ->
  (forall i w l k, l <> [] -> pick i w l k < length l) ->
  ran (if testing then 2 else 5) 10 (simple_ev testing coin pick draws init us noise w) (fun _ _ => True).
Proof.
  intros HI HF HP. unfold simple_ev.
  destruct (program_ok coin (if testing then 2 else 5) 3 (Insert draws) (Some 1%Q) us noise (fun _ => 1 # 10)%Q pick [] init 10 (1 # 10) w (1 # 4))
    as (final & w' & earlier & used & gc' & E & A1 & A2 & A3 & A4 & A5 & A6 & _); auto; try lra; try lia; try reflexivity; try (intros; lra).
  { intros f g s []. }
  exists final, w', earlier, used, gc'. split; [destruct testing; exact E|]. repeat (split; [assumption|]). auto.
Qed.

Lemma es_runs (testing : bool) coin pick (init : nat -> list Q) (us noise : nat -> nat -> list Q) (w : world Q unit num) :
  (forall k, uniform_four (init k)) -> (forall i k, fitting (1 # 4) (us i k) (noise i k)) ->
  (forall i w l k, l <> [] -> pick i w l k < length l) ->
  ran (if testing then 2 else 10) 5 (simple_es testing coin pick init us noise w)
    (fun j s => s == 2 * (85 # 100) ^ Z.of_nat j)%Q.
Proof.
  intros HI HF HP. unfold simple_es.
  destruct (program_ok coin (if testing then 2 else 10) 3 Plus (Some 1%Q) us noise (fun s => s) pick [anneal_std] init 5 2 w (1 # 4))
    as (final & w' & earlier & used & gc' & E & A1 & A2 & A3 & A4 & A5 & A6 & A7 & A8); auto; try lra; try lia; try reflexivity; try (intros; lra).
  { intros f g s [<-|[]] Hs. unfold anneal_std. apply Qmult_le_0_compat; [exact Hs|discriminate]. }
  exists final, w', earlier, used, gc'. split; [destruct testing; exact E|]. repeat (split; [assumption|]).
  induction j as [|j IH]; intros s o Hj.
  - rewrite (A7 s o Hj). reflexivity.
  - destruct (nth_down _ j (S j) _ ltac:(lia) Hj) as [[s0 o0] H0]. rewrite (A8 j s0 s o0 o H0 Hj). cbn [fold_left].
    unfold anneal_std. rewrite (IH s0 o0 H0). rewrite Nat2Z.inj_succ. unfold Z.succ. rewrite Qpower_plus by discriminate.
    change ((85 # 100) ^ 1)%Q with (85 # 100)%Q. ring.
Qed.

(** ** a brood in vain *)
Lemma insert_loses_best :
  exists maximize coin brood draws operators pick initialize pop_size (w : world Z unit num),
  (forall i s, clone_vary_evaluate (operators i s) /\ Forall (stays_within (bit_string 2)) (operators i s)) /\
  (forall k, bit_string 2 (initialize k)) /\
  match strategy no_decoder max_ones_problem maximize coin 1 brood (Insert draws) operators pick [] initialize 0 0 pop_size 0 w with
  | Some (Ok (final, w', earlier, used), _) =>
      exists s o x f, In (s, o) used /\ In x o /\ i_fitness (w_ind w' x) = Some f /\
        forall p y f', In p (earlier ++ [final]) -> In y p -> i_fitness (w_ind w' y) = Some f' -> better maximize f f'
  | _ => False
  end.
Proof.
  exists true, (fun _ _ _ => true), 2, (fun _ => [0]), ex_stages, ex_pick, (fun _ => [0; 0]%Z), 1, ex_world.
  split; [|split; [intros k; split; [reflexivity|repeat constructor]|]].
  { intros i s. split.
    - exists [bitflip_op 1 ex_flips]. split; [reflexivity|]. constructor; [reflexivity|constructor].
    - destruct (bit_ops 2 1 ex_flips (fun _ => true) (fun _ => [true; true])) as (_ & HS & _);
        [lia|discriminate|discriminate|intros [|k]; reflexivity|reflexivity|].
      apply Forall_inv_tail in HS. apply Forall_inv_tail in HS. constructor; [exact Logic.I|]. exact HS. }
  assert (HC : match strategy no_decoder max_ones_problem true (fun _ _ _ => true) 1 2 (Insert (fun _ => [0])) ex_stages ex_pick []
                 (fun _ => [0; 0]%Z) 0 0 1 0 ex_world with
    | Some (Ok (final, w', earlier, used), _) =>
        earlier ++ [final] = [[0]; [1]] /\ used = [(0%Q, [1; 2])] /\
        map (fun i => i_fitness (w_ind w' i)) [0; 1; 2] = [Some (NInt 0); Some (NInt 0); Some (NInt 2)]
    | _ => False end) by (vm_compute; repeat split).
  destruct (strategy _ _ _ _ _ _ _ _ _ _ _ _ _ _ _ _) as [[[[[[final w'] earlier] used]|e] gc]|]; try contradiction.
  destruct HC as (E1 & E2 & E3). cbn [map] in E3. injection E3 as F0 F1 F2.
  exists 0%Q, [1; 2], 2, (NInt 2). rewrite E2. split; [left; reflexivity|]. split; [right; left; reflexivity|]. split; [exact F2|].
  intros p y f' Hp Hy Hf. rewrite E1 in Hp.
  destruct Hp as [<-|[<-|[]]]; destruct Hy as [<-|[]]; rewrite Hf in *; [injection F0 as ->|injection F1 as ->]; cbn; reflexivity.
Qed.

(** ** as stated *)

Lemma whole_run :
  forall G P (decoder_of : nat -> option (list G -> result P)) (problem_of : nat -> phen_value G P -> result num)
    (D : list G -> Prop) problem decoder maximize coin mode max_generation brood (operators : nat -> Q -> list (op G)) pick callbacks,
  (forall i s, clone_vary_evaluate (operators i s) /\ Forall (stays_within D) (operators i s)) ->
  forall initialize pop_size std w final w' earlier used gc',
  (forall k, D (initialize k)) ->
  strategy decoder_of problem_of maximize coin max_generation brood mode operators pick callbacks
    initialize problem decoder pop_size std w = Some (Ok (final, w', earlier, used), gc') ->
  let pops := earlier ++ [final] in
  length used = length earlier /\ gc_curr gc' = Z.of_nat (length earlier) /\ gc_ctx gc' = gc_curr gc' /\
  untouched w w' /\
  (forall p, In p pops -> length p = pop_size) /\
  (forall p, In p pops \/ In p (map snd used) -> NoDup p /\ NoDup (map (fun i => i_genome (w_ind w' i)) p) /\
    forall i, In i p -> D (genes w' i) /\
      i_problem (w_ind w' i) = problem /\ i_decoder (w_ind w' i) = decoder /\
      i_fitness (w_ind w' i) = Some (outcome NNan (score (decoder_of decoder) (problem_of problem) (genes w' i)))) /\
  (forall j s o p q, nth_error used j = Some (s, o) -> nth_error pops j = Some p -> nth_error pops (S j) = Some q ->
    length o = pop_size * brood /\ (forall x, In x o -> forall k p', k <= j -> nth_error pops k = Some p' -> ~ In x p') /\
    incl q (o ++ p)) /\
  (forall s o, nth_error used 0 = Some (s, o) -> s = std) /\
  (forall j s s' o o', nth_error used j = Some (s, o) -> nth_error used (S j) = Some (s', o') ->
    s' = fold_left (fun r f => f (Z.of_nat (S j)) r) callbacks s).
Proof.
  intros G P dec pr D problem decoder maximize coin mode mg brood ops pick cb Ho init ps std w final w' earlier used gc' HD H. exact (strategy_good dec pr D problem decoder maximize coin mode mg brood ops pick cb Ho _ _ _ _ _ _ _ _ _ HD H).
Qed.

Lemma plus_generation :
  forall G P (decoder_of : nat -> option (list G -> result P)) (problem_of : nat -> phen_value G P -> result num)
    (D : list G -> Prop) problem decoder maximize coin max_generation brood (operators : nat -> Q -> list (op G)) pick callbacks,
  (forall i s, clone_vary_evaluate (operators i s) /\ Forall (stays_within D) (operators i s)) ->
  forall initialize pop_size std w final w' earlier used gc',
  (forall k, D (initialize k)) ->
  (forall g h m, D g -> D h ->
     let f := outcome NNan (score (decoder_of decoder) (problem_of problem) g) in
     let f' := outcome NNan (score (decoder_of decoder) (problem_of problem) h) in
     blurred f f' -> ~ better m f f') ->
  strategy decoder_of problem_of maximize coin max_generation brood Plus operators pick callbacks
    initialize problem decoder pop_size std w = Some (Ok (final, w', earlier, used), gc') ->
  forall j s o p q, nth_error used j = Some (s, o) ->
    nth_error (earlier ++ [final]) j = Some p -> nth_error (earlier ++ [final]) (S j) = Some q ->
  length q = length p /\ exists rest, Permutation (o ++ p) (q ++ rest) /\
    forall kept dropped, In kept q -> In dropped rest ->
      ~ better maximize (outcome NNan (score (decoder_of decoder) (problem_of problem) (genes w' dropped)))
                        (outcome NNan (score (decoder_of decoder) (problem_of problem) (genes w' kept))).
Proof.
  intros G P dec pr D problem decoder maximize coin mg brood ops pick cb Ho init ps std w final w' earlier used gc' HD Hd H.
  exact (strategy_step dec pr D problem decoder maximize coin Plus mg brood ops pick cb Ho _ _ _ _ _ _ _ _ _ HD Hd H).
Qed.

Lemma plus_never_falls :
  forall G P (decoder_of : nat -> option (list G -> result P)) (problem_of : nat -> phen_value G P -> result num)
    (D : list G -> Prop) problem decoder maximize coin max_generation brood (operators : nat -> Q -> list (op G)) pick callbacks,
  (forall i s, clone_vary_evaluate (operators i s) /\ Forall (stays_within D) (operators i s)) ->
  forall initialize pop_size std w final w' earlier used gc',
  (forall k, D (initialize k)) ->
  (forall g h m, D g -> D h ->
     let f := outcome NNan (score (decoder_of decoder) (problem_of problem) g) in
     let f' := outcome NNan (score (decoder_of decoder) (problem_of problem) h) in
     blurred f f' -> ~ better m f f') ->
  strategy decoder_of problem_of maximize coin max_generation brood Plus operators pick callbacks
    initialize problem decoder pop_size std w = Some (Ok (final, w', earlier, used), gc') ->
  forall f j1 j2 p1 p2 c1 c2, j1 <= j2 ->
  nth_error (earlier ++ [final]) j1 = Some p1 -> nth_error (earlier ++ [final]) j2 = Some p2 ->
  counts (fun i => ~ better maximize f (outcome NNan (score (decoder_of decoder) (problem_of problem) (genes w' i)))) p1 c1 ->
  counts (fun i => ~ better maximize f (outcome NNan (score (decoder_of decoder) (problem_of problem) (genes w' i)))) p2 c2 ->
  c1 <= c2.
Proof.
  intros G P dec pr D problem decoder maximize coin mg brood ops pick cb Ho init ps std w final w' earlier used gc' HD Hd H.
  exact (plus_run dec pr D problem decoder maximize coin Plus mg brood ops pick cb Ho _ _ _ _ _ _ _ _ _ eq_refl HD Hd H).
Qed.

Lemma plus_keeps_best :
  forall G P (decoder_of : nat -> option (list G -> result P)) (problem_of : nat -> phen_value G P -> result num)
    (D : list G -> Prop) problem decoder maximize coin max_generation brood (operators : nat -> Q -> list (op G)) pick callbacks,
  (forall i s, clone_vary_evaluate (operators i s) /\ Forall (stays_within D) (operators i s)) ->
  forall initialize pop_size std w final w' earlier used gc',
  (forall k, D (initialize k)) ->
  (forall g h m, D g -> D h ->
     let f := outcome NNan (score (decoder_of decoder) (problem_of problem) g) in
     let f' := outcome NNan (score (decoder_of decoder) (problem_of problem) h) in
     blurred f f' -> ~ better m f f') ->
  1 <= pop_size ->
  strategy decoder_of problem_of maximize coin max_generation brood Plus operators pick callbacks
    initialize problem decoder pop_size std w = Some (Ok (final, w', earlier, used), gc') ->
  forall x, (exists p, In p (earlier ++ [final]) /\ In x p) \/ (exists s o, In (s, o) used /\ In x o) ->
  exists y, In y final /\ ~ better maximize (outcome NNan (score (decoder_of decoder) (problem_of problem) (genes w' x)))
                                            (outcome NNan (score (decoder_of decoder) (problem_of problem) (genes w' y))).
Proof.
  intros G P dec pr D problem decoder maximize coin mg brood ops pick cb Ho init ps std w final w' earlier used gc' HD Hd Hp H.
  exact (plus_best dec pr D problem decoder maximize coin Plus mg brood ops pick cb Ho _ _ _ _ _ _ _ _ _ eq_refl HD Hd Hp H).
Qed.

Lemma insert_generation :
  forall G P (decoder_of : nat -> option (list G -> result P)) (problem_of : nat -> phen_value G P -> result num)
    (D : list G -> Prop) problem decoder maximize coin draws max_generation brood (operators : nat -> Q -> list (op G)) pick callbacks,
  (forall i s, clone_vary_evaluate (operators i s) /\ Forall (stays_within D) (operators i s)) ->
  forall initialize pop_size std w final w' earlier used gc',
  (forall k, D (initialize k)) ->
  (forall g h m, D g -> D h ->
     let f := outcome NNan (score (decoder_of decoder) (problem_of problem) g) in
     let f' := outcome NNan (score (decoder_of decoder) (problem_of problem) h) in
     blurred f f' -> ~ better m f f') ->
  strategy decoder_of problem_of maximize coin max_generation brood (Insert draws) operators pick callbacks
    initialize problem decoder pop_size std w = Some (Ok (final, w', earlier, used), gc') ->
  forall j s o p q, nth_error used j = Some (s, o) ->
    nth_error (earlier ++ [final]) j = Some p -> nth_error (earlier ++ [final]) (S j) = Some q ->
  length q = length p /\ exists child, hd_error o = Some child /\
    let worth i := outcome NNan (score (decoder_of decoder) (problem_of problem) (genes w' i)) in
    forall k x, nth_error p k = Some x ->
      (nth_error q k = Some x \/ k = hd 0 (draws j) /\ nth_error q k = Some child) /\
      (k = hd 0 (draws j) -> viable (worth child) -> ~ better maximize (worth x) (worth child) -> nth_error q k = Some child) /\
      (better maximize (worth x) (worth child) -> nth_error q k = Some x).
Proof.
  intros G P dec pr D problem decoder maximize coin draws mg brood ops pick cb Ho init ps std w final w' earlier used gc' HD Hd H.
  exact (strategy_step dec pr D problem decoder maximize coin (Insert draws) mg brood ops pick cb Ho _ _ _ _ _ _ _ _ _ HD Hd H).
Qed.

Lemma run_completes :
  forall G P (decoder_of : nat -> option (list G -> result P)) (problem_of : nat -> phen_value G P -> result num)
    (D : list G -> Prop) problem decoder maximize coin mode max_generation brood (operators : nat -> Q -> list (op G)) pick callbacks,
  (forall i s, clone_vary_evaluate (operators i s) /\ Forall (stays_within D) (operators i s)) ->
  (forall g, D g -> exists f, score (decoder_of decoder) (problem_of problem) g = Ok f) ->
  forall fine : Q -> Prop,
  (forall f g s, In f callbacks -> fine s -> fine (f g s)) ->
  (forall i s, fine s -> Forall (works_on D) (operators i s)) ->
  (forall i w l k, l <> [] -> pick i w l k < length l) ->
  forall initialize pop_size std w,
  (forall k, D (initialize k)) -> fine std -> 1 <= pop_size -> 1 <= brood ->
  exists final w' earlier used gc',
    strategy decoder_of problem_of maximize coin max_generation brood mode operators pick callbacks
    initialize problem decoder pop_size std w = Some (Ok (final, w', earlier, used), gc') /\
    length earlier = Z.to_nat max_generation.
Proof.
  intros G P dec pr D problem decoder maximize coin mode mg brood ops pick cb Ho Hs fine Hf Hw Hp init ps std w HD Hfn H1 H2.
  exact (strategy_works dec pr D problem decoder maximize coin mode mg brood ops pick cb Ho Hs fine Hf Hw Hp init ps std w HD Hfn H1 H2).
Qed.
