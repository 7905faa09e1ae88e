From Coq Require Import Lia Permutation.
From Verif Require Import Model.Base Model.PyList Model.Scalar Model.Selection Model.Counters Model.Heap Model.Pipeline Model.HeapEa
  Model.Variation Model.Strategies Spec.Order Spec.Selection Spec.Heap Spec.HeapEa Spec.Odds Spec.Search Spec.Variation Spec.Strategies
  Proofs.Order Proofs.PyList Proofs.ScalarSel Proofs.Algorithm Proofs.Heap Proofs.Pipeline Proofs.HeapEa Proofs.Search Proofs.Strategies.

(** ** what one pull makes *)
Section Pulls.
Context {G P : Type}.
Variable decoder_of : nat -> option (list G -> result P).
Variable problem_of : nat -> phen_value G P -> result num.
Implicit Types w : world G P num.
Notation pool := (pool NNan decoder_of problem_of).
Notation pull := (pull NNan decoder_of problem_of).
Variable w0 : world G P num.
Variable f : nat -> list G -> result (list G * option (list G)).
Variable parents : list nat.
Variable pk : nat -> nat.
Hypothesis Hpar : forall i, In i parents -> i < w_nind w0 /\ i_genome (w_ind w0 i) < w_narr w0.
Notation stack := ([OpEval; OpMutate f false; OpClone] ++ [OpSelect parents pk]).

Definition made k w c : Prop :=
  exists p r, nth_error parents (pk k) = Some p /\ f k (genes w0 p) = Ok r /\ genes w c = outcome_of r.

Lemma made_breeding : breeding (w_nind w0) stack.
Proof. cbn. intros i Hi. apply Hpar. auto. Qed.

Lemma pull_made k sts w c sts' w' out : at_step k sts -> inv w0 w (out ++ held sts) ->
  pull stack sts w = Ok (c, sts', w') -> at_step (S k) sts' /\ made k w' c.
Proof.
  intros [L HF] HI HP.
  destruct sts as [|s1 [|s2 [|s3 [|s4 [|]]]]]; try discriminate L.
  inversion HF as [|? ? [K1 N1] HF1]; subst. inversion HF1 as [|? ? [K2 N2] HF2]; subst.
  inversion HF2 as [|? ? [K3 N3] HF3]; subst. inversion HF3 as [|? ? [K4 N4] _]; subst.
  cbn [app Pipeline.pull] in HP.
  destruct (nth_error parents (pk (s_done s4))) as [p|] eqn:Ep; [|discriminate].
  destruct (clone w p) as [c1 w2] eqn:EC.
  destruct (mutate_ind (f (s_done s2)) w2 c1) as [[u|e] w3] eqn:EM; [|discriminate].
  destruct (evaluate NNan decoder_of problem_of w3 c1) as [[g|e] w4] eqn:EE; [|discriminate].
  injection HP as <- <- <-. split.
  - split; [reflexivity|]. repeat constructor; cbn [tick s_done s_second]; congruence || lia.
  - assert (Hin : In p parents) by (eapply nth_error_In; eauto).
    destruct (Hpar p Hin) as [P1 P2].
    assert (Eg : genes w p = genes w0 p).
    { destruct HI as (_ & _ & (U1 & U2) & _). unfold genes. rewrite U1, U2 by auto. auto. }
    apply clone_spec in EC. destruct EC as (_ & _ & _ & _ & EC & _).
    apply mutate_ind_spec in EM. destruct EM as (ip & fr & Ef & _ & EM & _).
    apply evaluate_spec in EE. destruct EE as (V1 & _ & _ & _ & _ & V6 & _).
    rewrite EC, Eg in Ef. exists p, (ip, fr). rewrite K2 in Ef. rewrite K4 in Ep.
    split; auto. split; auto. unfold genes at 1. rewrite V1, V6. unfold outcome_of. cbn [fst snd].
    exact EM.
Qed.

Lemma pool_made n : forall k sts w out sts' w' before, at_step k sts -> inv w0 w (before ++ held sts) ->
  pool n stack sts w = Ok (out, sts', w') -> forall j c, nth_error out j = Some c -> made (k + j) w' c.
Proof.
  induction n as [|n IH]; intros k sts w out sts' w' before HA HI HP j c Hj; cbn [Pipeline.pool] in HP.
  - injection HP as <- _ _. destruct j; discriminate.
  - destruct (pull stack sts w) as [[[i sts1] w1]|e] eqn:E; [|discriminate].
    destruct (pool n stack sts1 w1) as [[[r sts2] w2]|e] eqn:E2; [|discriminate]. injection HP as <- <- <-.
    destruct (pull_made k sts w i sts1 w1 before HA HI E) as [HA1 HB].
    destruct (pull_inv NNan decoder_of problem_of w0 stack made_breeding sts w i sts1 w1 before HI E) as [HI1 _].
    destruct j as [|j].
    + injection Hj as <-. rewrite Nat.add_0_r.
      destruct (pool_inv NNan decoder_of problem_of w0 n stack made_breeding sts1 w1 r sts2 w2 (i :: before) HI1 E2) as [_ HS].
      destruct (HS i (or_introl eq_refl)) as [_ Eg]. destruct HB as (p & r0 & B1 & B2 & B3).
      exists p, r0. rewrite Eg. auto.
    + replace (k + S j) with (S k + j) by lia. cbn in Hj. exact (IH (S k) sts1 w1 r sts2 w2 (i :: before) HA1 HI1 E2 j c Hj).
Qed.

Lemma brood_made n out sts' w' : pool n stack (start stack) w0 = Ok (out, sts', w') ->
  forall k c, nth_error out k = Some c -> made k w' c.
Proof.
  intros HP k c Hk. eapply (pool_made n 0 (start stack) w0 out sts' w' []); eauto.
  - split; [reflexivity|]. cbn. repeat constructor.
  - rewrite held_start. apply inv_init.
Qed.
End Pulls.

(** ** a relation that holds of every generation *)
Section Each.
Context {G P : Type}.
Variable decoder_of : nat -> option (list G -> result P).
Variable problem_of : nat -> phen_value G P -> result num.
Implicit Types w : world G P num.
Variable D : list G -> Prop.
Variable problem decoder : nat.
Notation good := (good decoder_of problem_of D problem decoder false).
Notation value := (value decoder_of problem_of problem decoder).
Variable maximize : bool.
Variable coin : nat -> sind -> sind -> bool.
Variable mode : replacement.
Notation replaced := (replaced maximize coin mode).
Notation seen w l := (map (fun j => mk_sind j (value w j)) l).
Variable max_generation : Z.
Variable brood : nat.
Variable operators : nat -> Q -> list (op G).
Variable pick : nat -> world G P num -> list nat -> nat -> nat.
Variable callbacks : list (Z -> Q -> Q).
Notation strategy_loop := (strategy_loop decoder_of problem_of maximize coin max_generation brood mode operators pick callbacks).
Notation strategy initialize pop_size std w :=
  (strategy decoder_of problem_of maximize coin max_generation brood mode operators pick callbacks
     initialize problem decoder pop_size std w).
Notation history := (history decoder_of problem_of D problem decoder maximize mode brood).
Hypothesis Hops : forall i s, clone_vary_evaluate (operators i s) /\ Forall (stays_within D) (operators i s).

Variable R : world G P num -> nat -> Q -> list nat -> list nat -> list nat -> Prop.
Hypothesis R_step : forall i std w parents offspring sts w1 q,
  let stack := operators i std ++ [OpSelect parents (pick i w parents)] in
  good w parents -> pool NNan decoder_of problem_of (length parents * brood) stack (start stack) w = Ok (offspring, sts, w1) ->
  grows w w1 -> good w1 offspring -> good w1 parents -> replaced i w1 offspring parents = Ok q -> R w1 i std offspring parents q.
Hypothesis R_grows : forall w w1 j s o p q, grows w w1 -> good w o -> good w p -> good w q -> incl q (o ++ p) ->
  R w j s o p q -> R w1 j s o p q.

Definition all_made w (pops : list (list nat)) (used : list (Q * list nat)) : Prop :=
  forall j s o p q, nth_error used j = Some (s, o) -> nth_error pops j = Some p -> nth_error pops (S j) = Some q -> R w j s o p q.

Lemma all_grows w w1 pops used : grows w w1 -> history w pops used -> all_made w pops used -> all_made w1 pops used.
Proof.
  intros Hg (H1 & H2 & H3) HA j s o p q Eu Ep Eq. destruct (H3 j s o p q Eu Ep Eq) as (A & _ & _ & _ & E & _).
  rewrite Forall_forall in H1. apply (R_grows w w1); auto; [apply H1; eapply nth_error_In; eauto|apply H1; eapply nth_error_In; eauto|].
  intros x Hx. eapply part_in; eauto.
Qed.

Lemma loop_made : forall fuel i gc std w earlier used parents final w' pops used' gc',
  i = length used -> history w (earlier ++ [parents]) used -> all_made w (earlier ++ [parents]) used ->
  strategy_loop fuel i gc std w earlier used parents = Some (Ok (final, w', pops, used'), gc') ->
  all_made w' (pops ++ [final]) used'.
Proof.
  induction fuel as [|fuel IH]; intros i gc std w earlier used parents final w' pops used' gc' Ei HH HA H; cbn [Strategies.strategy_loop] in H.
  - destruct (gc_generation gc <? max_generation)%Z; [discriminate|]. injection H as <- <- <- <- <-. exact HA.
  - destruct (gc_generation gc <? max_generation)%Z; [|injection H as <- <- <- <- <-; exact HA].
    set (stack := operators i std ++ [OpSelect parents (pick i w parents)]) in H.
    destruct (pool NNan decoder_of problem_of (length parents * brood) stack (start stack) w) as [[[offspring sts] w1]|e] eqn:EP; [|discriminate].
    destruct (replaced i w1 offspring parents) as [surv|e] eqn:ER; [|discriminate].
    destruct (history_step decoder_of problem_of D problem decoder maximize coin mode brood operators pick Hops _ _ _ _ _ _ _ _ _ _ Ei HH EP ER) as (Hgr & Gw & Go & Gp & HH1).
    cbn [gc_increment] in H. apply IH in H; auto; [rewrite app_length; cbn; lia|].
    assert (HA1 : all_made w1 (earlier ++ [parents]) used) by (apply (all_grows w w1); auto).
    destruct HH as (_ & HL & _). rewrite app_length in HL. cbn in HL.
    intros j s o p q Eu Ep Eq. destruct (lt_dec j (length used)) as [Hj|Hj].
    + rewrite nth_error_app1 in Eu by auto. rewrite nth_error_app1 in Ep, Eq by (rewrite app_length; cbn; lia).
      exact (HA1 j s o p q Eu Ep Eq).
    + assert (Hj' : j < length (used ++ [(std, offspring)])) by (apply nth_error_Some; congruence).
      rewrite app_length in Hj'. cbn in Hj'. assert (j = length used) by lia. subst j.
      rewrite nth_error_app2, Nat.sub_diag in Eu by auto. cbn in Eu. injection Eu as <- <-.
      rewrite nth_error_app1 in Ep by (rewrite app_length; cbn; lia).
      rewrite nth_error_app2 in Ep by lia. replace (length used - length earlier) with 0 in Ep by lia. cbn in Ep. assert (Ep2 : parents = p) by congruence. subst p.
      rewrite nth_error_app2 in Eq by (rewrite app_length; cbn; lia). rewrite app_length in Eq. cbn [length] in Eq.
      replace (S (length used) - (length earlier + 1)) with 0 in Eq by lia. cbn in Eq. assert (Eq2 : surv = q) by congruence. subst q.
      rewrite <- Ei. exact (R_step i std w parents offspring sts w1 surv Gw EP Hgr Go Gp ER).
Qed.

Lemma run_made initialize pop_size std w final w' earlier used gc' :
  (forall k, D (initialize k)) ->
  strategy initialize pop_size std w = Some (Ok (final, w', earlier, used), gc') -> all_made w' (earlier ++ [final]) used.
Proof.
  intros HD H. unfold Strategies.strategy in H.
  destruct (create_all initialize problem decoder false pop_size 0 w) as [l w1] eqn:EC.
  destruct (evaluate_population NNan decoder_of problem_of w1 l) as [[u|e] w2] eqn:EE; [|discriminate].
  destruct (initial_good _ _ _ _ _ _ _ _ _ _ _ _ _ HD EC EE) as (L & HG & Hgr).
  apply loop_made in H; auto.
  - split; [constructor; auto|]. split; [reflexivity|]. intros [|j] s o p q E; discriminate.
  - intros [|j] s o p q E; discriminate.
Qed.
End Each.

Lemma set_nth_there {A} (y : A) : forall l k x, nth_error l k = Some x -> nth_error (set_nth k y l) k = Some y.
Proof. induction l as [|a l IH]; intros [|k] x H; try discriminate; cbn in *; eauto. Qed.

Section Rules.
Context {G P : Type}.
Variable decoder_of : nat -> option (list G -> result P).
Variable problem_of : nat -> phen_value G P -> result num.
Implicit Types w : world G P num.
Variable D : list G -> Prop.
Variable problem decoder : nat.
Notation good := (good decoder_of problem_of D problem decoder false).
Notation value := (value decoder_of problem_of problem decoder).
Notation seen w l := (map (fun j => mk_sind j (value w j)) l).

Lemma worth_value w l i : good w l -> In i l -> worth w i = value w i.
Proof. intros (_ & _ & H) Hi. destruct (H i Hi) as (_ & _ & _ & E). unfold worth. rewrite E. reflexivity. Qed.

Lemma worth_grows w w1 l i : grows w w1 -> good w l -> In i l -> worth w1 i = worth w i.
Proof.
  intros Hg Hl Hi. destruct Hl as (_ & _ & H). destruct (H i Hi) as (A & B & _). destruct Hg as (_ & _ & U & _).
  unfold worth. rewrite U by auto. reflexivity.
Qed.

Variable maximize : bool.
Variable coin : nat -> sind -> sind -> bool.

Lemma best_rule w o p i q : sharp (map (worth w) (o ++ p)) -> good w o -> good w p ->
  replaced maximize coin Plus i w o p = Ok q -> best_go_on maximize w o p q.
Proof.
  intros Hsh Ho Hp H. destruct (replaced_part _ _ _ _ _ maximize coin Plus _ _ _ _ _ Ho Hp H) as [L _]. split; auto.
  unfold Strategies.replaced in H. rewrite (compared_good _ _ _ _ _ _ _ _ Ho), (compared_good _ _ _ _ _ _ _ _ Hp) in H.
  assert (Hq : map si_id (truncation_selection (ind_lt maximize (coin i)) (ind_gt maximize (coin i)) ind_eq
                            (seen w o) (length p) (Some (seen w p))) = q) by (injection H; auto).
  assert (W : forall x, In x (o ++ p) -> worth w x = value w x).
  { intros x Hx. apply in_app_or in Hx. destruct Hx; [exact (worth_value w o x Ho H0)|exact (worth_value w p x Hp H0)]. }
  destruct (truncation_best maximize (coin i) (seen w o) (length p) (Some (seen w p))) as (_ & _ & rest & HP & HB).
  { unfold pool_of. rewrite <- map_app, map_map. cbn [si_fit].
    rewrite (map_ext_in _ (worth w)); [exact Hsh|]. intros x Hx. symmetry. auto. }
  unfold pool_of in HP. set (s := truncation_selection _ _ _ _ _ _) in *. clearbody s.
  rewrite <- map_app in HP. pose proof (fun x => seen_perm decoder_of problem_of problem decoder _ _ _ x HP) as E. rewrite <- Hq.
  assert (HI : Permutation (o ++ p) (map si_id s ++ map si_id rest)).
  { apply (Permutation_map si_id) in HP. rewrite map_map in HP. cbn in HP. rewrite map_id in HP. rewrite map_app in HP. exact HP. }
  exists (map si_id rest). split; [exact HI|].
  intros kept dropped Hk Hd. rewrite !W by (eapply Permutation_in; [symmetry; exact HI|apply in_or_app; auto]).
  apply in_map_iff in Hk, Hd. destruct Hk as (x & <- & Hx), Hd as (y & <- & Hy).
  rewrite <- !E by (apply in_or_app; auto). exact (HB x y Hx Hy).
Qed.

Lemma slot_rule draws w o p i q : good w o -> good w p ->
  replaced maximize coin (Insert draws) i w o p = Ok q -> one_slot maximize (hd 0 (draws i)) w o p q.
Proof.
  intros Ho Hp H. destruct (replaced_part _ _ _ _ _ maximize coin _ _ _ _ _ _ Ho Hp H) as [L _]. split; auto.
  unfold Strategies.replaced in H. rewrite (compared_good _ _ _ _ _ _ _ _ Ho), (compared_good _ _ _ _ _ _ _ _ Hp) in H.
  destruct (insertion_selection (ind_gt maximize (coin i)) (seen w o) (seen w p) (draws i)) as [r|e] eqn:EI; [|discriminate].
  cbn [bind] in H. assert (Hq : map si_id r = q) by (injection H; auto). clear H.
  destruct (insertion_slots _ _ _ _ _ _ EI) as [_ HS].
  unfold insertion_selection in EI. destruct o as [|child o']; [discriminate|]. exists child. split; [reflexivity|].
  destruct p as [|d ps]; [discriminate|]. cbn [map] in EI.
  set (par := d :: ps) in *. change (mk_sind d (value w d) :: seen w ps) with (seen w par) in EI.
  assert (Er : set_nth (hd 0 (draws i))
             (if ind_gt maximize (coin i) (nth (hd 0 (draws i)) (seen w par) (mk_sind d (value w d))) (mk_sind child (value w child))
              then nth (hd 0 (draws i)) (seen w par) (mk_sind d (value w d)) else mk_sind child (value w child)) (seen w par) = r)
    by (injection EI; auto).
  clear EI. set (k := hd 0 (draws i)) in *.
  set (y := if ind_gt _ _ _ _ then _ else _) in Er.
  destruct (slots (fun j => mk_sind j (value w j)) k y par (fun _ => eq_refl)) as [S1 S2]. rewrite Er, Hq in S1, S2.
  assert (Wc : worth w child = value w child) by (apply (worth_value w (child :: o')); auto; left; auto).
  intros j x Hx. assert (Hin : In x par) by (eapply nth_error_In; eauto).
  assert (Wx : worth w x = value w x) by (apply (worth_value w par); auto).
  assert (Hsx : nth_error (seen w par) j = Some (mk_sind x (value w x))).
  { apply (map_nth_error (fun j => mk_sind j (value w j))). exact Hx. }
  assert (Hslot : forall z, nth_error q j = Some (si_id z) -> nth_error r j = Some z ->
            better maximize (worth w x) (value w (si_id z)) -> si_fit z = value w (si_id z) -> within_rel tol (worth w x) (value w (si_id z))).
  { intros z _ Hz Hb Ez. rewrite Wx in *. rewrite <- Ez in *. exact (HS j _ z Hsx Hz Hb). }
  destruct (Nat.eq_dec j k) as [->|Hj].
  - assert (Hz : nth_error r k = Some y).
    { rewrite <- Er. exact (set_nth_there _ _ _ _ Hsx). }
    assert (Ey : y = if ind_gt maximize (coin i) (mk_sind x (value w x)) (mk_sind child (value w child)) then mk_sind x (value w x)
                     else mk_sind child (value w child)).
    { unfold y. rewrite (nth_error_nth _ _ _ Hsx). reflexivity. }
    exists (si_id y). split; [exact (S2 x Hx)|]. clearbody y.
    destruct (ind_gt maximize (coin i) (mk_sind x (value w x)) (mk_sind child (value w child))) eqn:Eg; subst y; cbn [si_id].
    + split; [auto|]. split; [intros Hb; exfalso; exact (better_irrefl _ _ Hb)|].
      intros _ Hv Hnb. exfalso. apply ind_gt_true in Eg. cbn in Eg. rewrite Wx, Wc in *. destruct Eg as [Eg|[_ Eg]]; auto.
    + split; [auto|]. split; [|auto]. rewrite Wc. intros Hb. exact (Hslot (mk_sind child (value w child)) (S2 x Hx) Hz Hb eq_refl).
  - exists x. split; [rewrite S1; auto|]. split; [auto|]. split; [|congruence].
    intros Hb. exfalso. exact (better_irrefl _ _ Hb).
Qed.
End Rules.

(** ** every generation of a run *)
Section Generations.
Context {G P : Type}.
Variable decoder_of : nat -> option (list G -> result P).
Variable problem_of : nat -> phen_value G P -> result num.
Variable D : list G -> Prop.
Variable problem decoder : nat.
Variable maximize : bool.
Variable coin : nat -> sind -> sind -> bool.
Variable mode : replacement.
Variable max_generation : Z.
Variable brood : nat.
Variable operators : nat -> Q -> list (op G).
Variable pick : nat -> world G P num -> list nat -> nat -> nat.
Variable callbacks : list (Z -> Q -> Q).
Notation good := (good decoder_of problem_of D problem decoder false).
Hypothesis Hops : forall i s, clone_vary_evaluate (operators i s) /\ Forall (stays_within D) (operators i s).
Notation strategy initialize pop_size std w :=
  (strategy decoder_of problem_of maximize coin max_generation brood mode operators pick callbacks
     initialize problem decoder pop_size std w).

Lemma rule_each initialize pop_size std w : (forall k, D (initialize k)) ->
  each_generation (strategy initialize pop_size std w) (fun w' j o p q =>
    match mode with
    | Plus => sharp (map (worth w') (o ++ p)) -> best_go_on maximize w' o p q
    | Insert draws => one_slot maximize (hd 0 (draws j)) w' o p q
    end).
Proof.
  intros HD final w' earlier used gc' H.
  refine (run_made decoder_of problem_of D problem decoder maximize coin mode max_generation brood operators pick callbacks Hops
    (fun w' j _ o p q => match mode with
      | Plus => sharp (map (worth w') (o ++ p)) -> best_go_on maximize w' o p q
      | Insert draws => one_slot maximize (hd 0 (draws j)) w' o p q end) _ _ initialize pop_size std w final w' earlier used gc' HD H).
  - intros i s w0 parents offspring sts w1 q stack _ _ _ Go Gp ER. destruct mode as [|draws] eqn:Em.
    + intros Hs. exact (best_rule decoder_of problem_of D problem decoder maximize coin w1 _ _ i q Hs Go Gp ER).
    + exact (slot_rule decoder_of problem_of D problem decoder maximize coin draws w1 _ _ i q Go Gp ER).
  - clear H HD w final w' earlier used gc'. intros w w1 j s o p q Hg Go Gp _ Hq H.
    assert (V : forall x, In x (o ++ p) -> worth w1 x = worth w x).
    { intros x Hx. apply in_app_or in Hx. destruct Hx as [Hx|Hx];
        [exact (worth_grows _ _ _ _ _ w w1 o x Hg Go Hx)|exact (worth_grows _ _ _ _ _ w w1 p x Hg Gp Hx)]. }
    destruct mode as [|draws].
    + intros Hs. rewrite (map_ext_in _ (worth w) _ V) in Hs. destruct (H Hs) as (L & rest & HP & HB). split; auto.
      exists rest. split; auto. intros kept dropped Hk Hd.
      rewrite !V; auto; eapply Permutation_in; try (symmetry; exact HP); apply in_or_app; auto.
    + destruct H as (L & child & Ec & HB). split; auto. exists child. split; auto. intros j0 x Hx.
      destruct (HB j0 x Hx) as (y & Ey & A & B & C).
      assert (Hxi : In x (o ++ p)) by (apply in_or_app; right; eapply nth_error_In; eauto).
      assert (Hci : In child (o ++ p)) by (apply in_or_app; left; destruct o; [discriminate|injection Ec as ->; left; reflexivity]).
      assert (Hyi : In y (o ++ p)) by (apply Hq; eapply nth_error_In; eauto).
      exists y. split; auto. split; auto. rewrite (V x Hxi), (V y Hyi), (V child Hci). auto.
Qed.

Variable f : nat -> Q -> nat -> list G -> result (list G * option (list G)).

Lemma children_each : (forall i s, operators i s = [OpEval; OpMutate (f i s) false; OpClone]) ->
  forall initialize pop_size std w final w' earlier used gc', (forall k, D (initialize k)) ->
  strategy initialize pop_size std w = Some (Ok (final, w', earlier, used), gc') ->
  forall j s o p, nth_error used j = Some (s, o) -> nth_error (earlier ++ [final]) j = Some p ->
  exists wj, forall k c, nth_error o k = Some c ->
    exists y r, nth_error p (pick j wj p k) = Some y /\ f j s k (genes w' y) = Ok r /\ genes w' c = outcome_of r.
Proof.
  intros Ho initialize pop_size std w final w' earlier used gc' HD H j s o p Eu Ep.
  assert (L : length used = length earlier).
  { destruct (run_spec decoder_of problem_of D problem decoder maximize coin mode max_generation brood operators pick callbacks Hops
      _ _ _ _ _ _ _ _ _ HD H) as (_ & _ & L & _). exact L. }
  assert (Hj := nth_error_Some_lt _ _ _ Eu).
  destruct (nth_error (earlier ++ [final]) (S j)) as [q|] eqn:Eq; [|apply nth_error_None in Eq; rewrite app_length in Eq; cbn in Eq; lia].
  refine (run_made decoder_of problem_of D problem decoder maximize coin mode max_generation brood operators pick callbacks Hops
    (fun w' j s o p q => exists wj, forall k c, nth_error o k = Some c ->
      exists y r, nth_error p (pick j wj p k) = Some y /\ f j s k (genes w' y) = Ok r /\ genes w' c = outcome_of r)
    _ _ initialize pop_size std w final w' earlier used gc' HD H j s o p q Eu Ep Eq).
  - intros i s0 w0 parents offspring sts w1 q0 stack Gw EP Hg Go Gp _. exists w0. intros k c Hc. unfold stack in EP. rewrite Ho in EP.
    destruct (brood_made decoder_of problem_of w0 (f i s0) parents (pick i w0 parents)) with (n := length parents * brood) (out := offspring)
      (sts' := sts) (w' := w1) (k := k) (c := c) as (y & r & E1 & E2 & E3); auto.
    { intros x Hx. destruct Gw as (_ & _ & K). destruct (K x Hx) as (A & B & _). auto. }
    exists y, r. split; auto. split; auto. destruct Gw as (_ & _ & K). destruct (K y (nth_error_In _ _ E1)) as (A & B & _).
    destruct (grows_same w0 w1 y Hg A B) as [_ E]. rewrite E. exact E2.
  - clear. intros w w1 j s o p q Hg Go Gp _ _ [wj H]. exists wj. intros k c Hc. destruct (H k c Hc) as (y & r & E1 & E2 & E3).
    exists y, r. split; auto. destruct Go as (_ & _ & Ko), Gp as (_ & _ & Kp).
    destruct (Kp y (nth_error_In _ _ E1)) as (A & B & _), (Ko c (nth_error_In _ _ Hc)) as (A' & B' & _).
    destruct (grows_same w w1 y Hg A B) as [_ E]. destruct (grows_same w w1 c Hg A' B') as [_ E']. rewrite E, E'. auto.
Qed.
End Generations.

(** ** the programs *)
From Coq Require Import Lqa Qpower.
From Verif Require Import Model.Transfer Model.RealProblems Model.Simple Spec.RealProblems Spec.HeapRuns
  Proofs.Variation Proofs.RealProblems Proofs.HeapRuns Proofs.Simple.

Definition free_gaussian std expected us noise (k : nat) (g : list Q) : result (list Q * option (list Q)) :=
    bind (mutate_gaussian (inl std) (Some expected) (BScalar MInf PInf) 1 0 (us k) (noise k) g)
      (fun '(inplace, out) => bind (finite_genome out) (fun g' => Ok (inplace, Some g'))).

Lemma gaussian_stepped std expected us noise p k g r :
  match expected with None => p == 1 | Some e => p * 4 == e end%Q -> (0 <= p)%Q -> (p <= 1)%Q ->
  fitting p (us k) (noise k) -> four g -> free_gaussian std expected us noise k g = Ok r ->
  stepped p std (us k) (noise k) g (outcome_of r).
Proof.
  intros He P0 P1 [L1 L2] Hg HR. unfold four in Hg. unfold free_gaussian, mutate_gaussian in HR.
  destruct (Qlt_le_dec std 0) as [Hs|Hs].
  { exfalso. unfold genome_mutate_gaussian in HR. apply Qltb_lt in Hs. rewrite Hs in HR. discriminate. }
  destruct (gaussian_changed (inl std) expected (BScalar MInf PInf) 1 0 (us k) (noise k) g p) as (ip & g' & E & Lg & CW); auto.
  - congruence.
  - exact Logic.I.
  - rewrite select_length by congruence. rewrite Hg. exact L2.
  - destruct expected; auto. rewrite Hg. split; [discriminate|exact He].
  - intros i low high Hb. cbn in Hb. injection Hb as <- <-. exact Logic.I.
  - rewrite E in HR. cbn [bind] in HR. destruct (finite_genome g') as [q|e] eqn:EF; [|discriminate]. cbn [bind] in HR.
    assert (Er : outcome_of r = q) by (injection HR as <-; reflexivity). rewrite Er.
    assert (Eq : map Fin q = g').
    { clear - EF. revert q EF. induction g' as [|x g' IH]; cbn; intros q EF; [injection EF as <-; reflexivity|].
      destruct x as [|x|]; try discriminate EF. destruct (finite_genome g') as [q'|e]; [|discriminate]. cbn in EF.
      injection EF as <-. cbn. rewrite (IH q' eq_refl). reflexivity. }
    split; [rewrite <- Lg, <- Eq, map_length; reflexivity|].
    intros i x Hx. destruct (CW i x Hx) as (y & Hy & D1 & D2). rewrite <- Eq in Hy. rewrite nth_error_map in Hy.
    destruct (nth_error q i) as [v|]; [|discriminate]. cbn in Hy. injection Hy as <-. exists v. split; auto. split.
    + intros Hd. destruct (D1 Hd) as (low & high & z & s & Eb & Ez & Es & _ & _ & C3). cbn in Eb, Es. injection Eb as <- <-. injection Es as <-.
      exists z. split; auto. specialize (C3 Logic.I Logic.I). injection C3 as ->. ring.
    + intros Hd. destruct (D2 Hd) as (low & high & Eb & _ & _ & C3). cbn in Eb. injection Eb as <- <-. specialize (C3 Logic.I Logic.I).
      injection C3 as ->. reflexivity.
Qed.

Lemma program_each coin n brood mode expected (us noise : nat -> nat -> list Q) (size_of : Q -> Q) pick callbacks
    (init : nat -> list Q) pop_size std (w : world Q unit num) p (step : nat -> Q) :
  match expected with None => p == 1 | Some e => p * 4 == e end%Q -> (0 <= p)%Q -> (p <= 1)%Q ->
  (forall i k, fitting p (us i k) (noise i k)) -> (forall k, uniform_four (init k)) ->
  (forall final w' earlier used gc',
    strategy identity_decoder sphere_problem false coin n brood mode
      (fun i s => gaussian_stages (size_of s) expected (us i) (noise i)) pick callbacks
      (fun k => create_real_vector example_bounds (init k)) 0 0 pop_size std w = Some (Ok (final, w', earlier, used), gc') ->
    forall j s o, nth_error used j = Some (s, o) -> size_of s == step j)%Q ->
  each_generation (strategy identity_decoder sphere_problem false coin n brood mode
      (fun i s => gaussian_stages (size_of s) expected (us i) (noise i)) pick callbacks
      (fun k => create_real_vector example_bounds (init k)) 0 0 pop_size std w) (fun w' j o parents next =>
    bred_by p step us noise pick w' j o parents /\
    match mode with
    | Plus => sharp (map (worth w') (o ++ parents)) -> best_go_on false w' o parents next
    | Insert draws => one_slot false (hd 0 (draws j)) w' o parents next
    end).
Proof.
  intros He P0 P1 HL HI Hstep final w' earlier used gc' E j s o parents next Eu Ep Eq.
  assert (HO : forall i s, clone_vary_evaluate (gaussian_stages (size_of s) expected (us i) (noise i)) /\
                 Forall (stays_within four) (gaussian_stages (size_of s) expected (us i) (noise i))).
  { intros i s0. destruct (stages_ok expected (us i) (noise i) p (size_of s0)) as (A & B & _); auto. }
  assert (HD : forall k, four (create_real_vector example_bounds (init k))) by (intros k; apply created_four, HI).
  split.
  - destruct (children_each identity_decoder sphere_problem four 0 0 false coin mode n brood
      (fun i s => gaussian_stages (size_of s) expected (us i) (noise i)) pick callbacks HO
      (fun i s => free_gaussian (size_of s) expected (us i) (noise i)) (fun i s => eq_refl)
      _ _ _ _ _ _ _ _ _ HD E j s o parents Eu Ep) as [wj H].
    exists wj. intros k c Hc. destruct (H k c Hc) as (y & r & E1 & E2 & E3). exists y. split; auto. rewrite E3.
    destruct (strategy_good identity_decoder sphere_problem four 0 0 false coin mode n brood
      (fun i s => gaussian_stages (size_of s) expected (us i) (noise i)) pick callbacks HO _ _ _ _ _ _ _ _ _ HD E)
      as (_ & _ & _ & _ & _ & A6 & _).
    assert (Hf : four (genes w' y)).
    { destruct (A6 parents (or_introl (nth_error_In _ _ Ep))) as (_ & _ & C). apply (C y (nth_error_In _ _ E1)). }
    destruct (gaussian_stepped _ _ _ _ p _ _ _ He P0 P1 (HL j k) Hf E2) as [L CW]. split; [exact L|].
    intros i x Hx. destruct (CW i x Hx) as (x' & X1 & X2 & X3). exists x'. split; auto. split; auto.
    intros Hd. destruct (X2 Hd) as (z & Z1 & Z2). exists z. split; auto. rewrite Z2, (Hstep _ _ _ _ _ E j s o Eu). reflexivity.
  - exact (rule_each identity_decoder sphere_problem four 0 0 false coin mode n brood
      (fun i s => gaussian_stages (size_of s) expected (us i) (noise i)) pick callbacks HO _ _ _ _ HD _ _ _ _ _ E j s o parents next Eu Ep Eq).
Qed.

Lemma ep_each (testing : bool) coin pick (init : nat -> list Q) (us noise : nat -> nat -> list Q) (w : world Q unit num) :
  (forall k, uniform_four (init k)) -> (forall i k, fitting 1 (us i k) (noise i k)) ->
  each_generation (simple_ep testing coin pick init us noise w) (fun w' j brood parents next =>
    bred_by 1 (fun _ => 1 # 10)%Q us noise pick w' j brood parents /\
    (sharp (map (worth w') (brood ++ parents)) -> best_go_on false w' brood parents next)).
Proof.
  intros HI HF. unfold simple_ep.
  apply (program_each coin _ 3 Plus None us noise (fun _ => 1 # 10)%Q pick [] init 5 (1 # 10) w 1 (fun _ => 1 # 10)%Q); auto; try lra; try reflexivity.
Qed.

Lemma ev_each (testing : bool) coin pick draws (init : nat -> list Q) (us noise : nat -> nat -> list Q) (w : world Q unit num) :
  (forall k, uniform_four (init k)) -> (forall i k, fitting (1 # 4) (us i k) (noise i k)) ->
  each_generation (simple_ev testing coin pick draws init us noise w) (fun w' j brood parents next =>
    bred_by (1 # 4) (fun _ => 1 # 10)%Q us noise pick w' j brood parents /\
    one_slot false (hd 0 (draws j)) w' brood parents next).
Proof.
  intros HI HF. unfold simple_ev.
  apply (program_each coin _ 3 (Insert draws) (Some 1%Q) us noise (fun _ => 1 # 10)%Q pick [] init 10 (1 # 10) w (1 # 4) (fun _ => 1 # 10)%Q);
    auto; try lra; try reflexivity.
Qed.

Lemma es_each (testing : bool) coin pick (init : nat -> list Q) (us noise : nat -> nat -> list Q) (w : world Q unit num) :
  (forall k, uniform_four (init k)) -> (forall i k, fitting (1 # 4) (us i k) (noise i k)) ->
  (forall i w l k, l <> [] -> pick i w l k < length l) ->
  each_generation (simple_es testing coin pick init us noise w) (fun w' j brood parents next =>
    bred_by (1 # 4) (fun j => 2 * (85 # 100) ^ Z.of_nat j)%Q us noise pick w' j brood parents /\
    (sharp (map (worth w') (brood ++ parents)) -> best_go_on false w' brood parents next)).
Proof.
  intros HI HF HP. pose proof (es_runs testing coin pick init us noise w HI HF HP) as HR. unfold simple_es in *.
  apply (program_each coin _ 3 Plus (Some 1%Q) us noise (fun s => s) pick [anneal_std] init 5 2 w (1 # 4)); auto; try lra; try reflexivity.
  intros final w' earlier used gc' E j s o Hj. destruct HR as (f1 & w1 & e1 & u1 & g1 & E1 & HR).
  match type of E with ?a = _ => match type of E1 with ?b = _ => change a with b in E end end.
  rewrite E1 in E. assert (Eu : u1 = used) by congruence. subst u1. apply HR in Hj. exact Hj.
Qed.

Definition sharp_check (fs : list num) : bool :=
  forallb (fun f => forallb (fun g => match f, g with
    | NFlt true (Fin x), NFlt true (Fin y) => Qeq_bool x y || negb (Qle_bool (Qabs (x - y)) (tol * Qmax (Qabs x) (Qabs y)))
    | _, _ => false end) fs) fs.
Lemma sharp_checked fs : sharp_check fs = true -> sharp fs.
Proof.
  unfold sharp_check.
  intros H f g mx Hf Hg (_ & _ & HB) Hb. rewrite forallb_forall in H. specialize (H f Hf). rewrite forallb_forall in H. specialize (H g Hg).
  destruct f as [|[|] [|x|]|]; try discriminate H. destruct g as [|[|] [|y|]|]; try discriminate H.
  unfold within_rel in HB. cbn [num_val] in HB. apply Qle_bool_iff in HB. rewrite HB in H. unfold better in Hb. cbn [num_val ext_lt] in Hb. cbn [negb] in H. rewrite orb_false_r in H. apply Qeq_bool_eq in H.
  destruct mx; lra.
Qed.

Lemma ep_sharp :
  match simple_ep true (fun _ _ _ => true) ex_cyclic ex_corner ex_real_us (fun _ k => repeat (ex_deviate k) 4) ex_real_world with
  | Some (Ok (_, w', p :: _, (_, o) :: _), _) => sharp (map (worth w') (o ++ p))
  | _ => False
  end.
Proof.
  assert (H : match simple_ep true (fun _ _ _ => true) ex_cyclic ex_corner ex_real_us (fun _ k => repeat (ex_deviate k) 4) ex_real_world with
    | Some (Ok (_, w', p :: _, (_, o) :: _), _) => sharp_check (map (worth w') (o ++ p)) = true
    | _ => False
    end) by (vm_compute; reflexivity).
  destruct (simple_ep _ _ _ _ _ _ _) as [[[[[[final w'] [|p earlier]] [|[s o] used]]|e] gc]|]; try contradiction.
  apply sharp_checked. exact H.
Qed.
