From Verif Require Import Model.Base Model.Heap Model.Pipeline Spec.Heap Proofs.Heap.
From Coq Require Import Lia Permutation.

Section Pipe.
Context {G P F : Type}.
Variable nan : F.
Variable decoder_of : nat -> option (list G -> result P).
Variable problem_of : nat -> phen_value G P -> result F.
Implicit Types w : world G P F.
Implicit Types stack : list (op G).
Notation pull := (pull nan decoder_of problem_of).
Notation pool := (pool nan decoder_of problem_of).
Notation evaluate := (evaluate nan decoder_of problem_of).
Notation score_of w i := (score (decoder_of (i_decoder (w_ind w i))) (problem_of (i_problem (w_ind w i))) (genes w i)).

(** ** Counting *)

(** The states after k individuals were handed out by the head of the stack. *)
Fixpoint reached stack (k : nat) (sts : list ostate) : Prop :=
  match stack, sts with
  | [], [] => True
  | o :: up, s :: ss =>
      s_done s = k /\
      (if is_xover o then (s_second s = None <-> k mod 2 = 0) else s_second s = None) /\
      (match o with OpIter items => k <= length items | _ => True end) /\
      reached up (need o k) ss
  | _, _ => False
  end.

Lemma need_0 (o : op G) : need o 0 = 0.
Proof. unfold need. destruct (is_xover o); auto. Qed.

Lemma reached_start stack : reached stack 0 (start stack).
Proof.
  induction stack as [|o up IH]; cbn; auto. rewrite need_0. split; auto. split.
  - destruct (is_xover o); cbn; tauto.
  - split; auto. destruct o; cbn; auto. lia.
Qed.

Lemma reached_demand stack : forall k sts, reached stack k sts -> map s_done sts = demand stack k.
Proof.
  clear problem_of decoder_of nan P F.
  induction stack as [|o up IH]; intros k [|s ss] H; cbn in *; try tauto.
  destruct H as (H1 & _ & _ & H2). rewrite (IH _ _ H2). congruence.
Qed.

Lemma mod2_succ_even k : k mod 2 = 0 -> S k mod 2 = 1.
Proof. intros H. pose proof (Nat.div_mod k 2). pose proof (Nat.div_mod (S k) 2).
  pose proof (Nat.mod_upper_bound (S k) 2). lia. Qed.
Lemma mod2_succ_odd k : k mod 2 <> 0 -> S k mod 2 = 0 /\ k mod 2 = 1.
Proof. intros H. pose proof (Nat.div_mod k 2). pose proof (Nat.div_mod (S k) 2).
  pose proof (Nat.mod_upper_bound (S k) 2). pose proof (Nat.mod_upper_bound k 2). lia. Qed.

Lemma pull_reached stack : forall k sts w i sts' w', pipeline_shape stack ->
  reached stack k sts -> pull stack sts w = Ok (i, sts', w') -> reached stack (S k) sts'.
Proof.
  induction stack as [|o up IH]; intros k sts w i sts' w' HW HR HP; [destruct HW|].
  destruct sts as [|s ss]; [destruct HR|]. cbn [reached] in HR. destruct HR as (Hd & Hs & Hi & HR).
  assert (HU : is_source o = false -> pipeline_shape up).
  { intros Hf. destruct up; cbn in HW; [congruence|]. destruct HW; auto. }
  assert (HN : is_source o = true -> up = []).
  { intros Hf. destruct up; auto. cbn in HW. destruct HW; congruence. }
  destruct o as [items|pop pick| |f quiet|skip f fresh| ]; cbn [Pipeline.pull] in HP.
  - destruct (nth_error items (s_done s)) as [j|] eqn:E; [|discriminate]. injection HP as <- <- <-.
    assert (s_done s < length items) by (apply nth_error_Some; congruence).
    cbn [reached is_xover need]. cbn. rewrite Hd in *. repeat split; auto; try lia.
    rewrite (HN eq_refl) in *. destruct ss; cbn in *; tauto.
  - destruct (nth_error pop (pick (s_done s))) as [j|] eqn:E; [|discriminate]. injection HP as <- <- <-.
    cbn. rewrite Hd. repeat split; auto.
    rewrite (HN eq_refl) in *. destruct ss; cbn in *; tauto.
  - destruct (pull up ss w) as [[[j ss1] w1]|e] eqn:E; [|discriminate].
    destruct (clone w1 j) as [c w2]. injection HP as <- <- <-. cbn. rewrite Hd.
    repeat split; auto. eapply IH; eauto.
  - destruct (pull up ss w) as [[[j ss1] w1]|e] eqn:E; [|discriminate].
    destruct (mutate_ind _ w1 j) as [[u|e] w2]; [|discriminate]. injection HP as <- <- <-. cbn. rewrite Hd.
    repeat split; auto. eapply IH; eauto.
  - cbn [is_xover need] in Hs, HR. unfold need in HR. cbn [is_xover] in HR.
    destruct (s_second s) as [j|] eqn:Es.
    + injection HP as <- <- <-. assert (Hk : k mod 2 <> 0) by (intros C; apply Hs in C; discriminate).
      destruct (mod2_succ_odd k Hk) as [M1 M2].
      cbn [reached]. unfold need. cbn [is_xover tick s_done s_second]. rewrite Hd.
      repeat split; auto. replace (S k + S k mod 2) with (k + k mod 2) by lia. auto.
    + assert (Hk : k mod 2 = 0) by (apply Hs; auto).
      destruct (pull up ss w) as [[[j ss1] w1]|e] eqn:E; [|discriminate].
      destruct (pull up ss1 w1) as [[[j2 ss2] w2]|e] eqn:E2; [|discriminate].
      assert (R2 : reached up (S (S (k + k mod 2))) ss2).
      { eapply IH; [|eapply IH; [|exact HR|exact E]|exact E2]; auto. }
      assert (HC : sts' = mk_ostate (S (s_done s)) (Some j2) :: ss2).
      { destruct (xover_pair _ (f (s_done s)) fresh w2 j j2) as [[u|e] w3]; [|discriminate].
        injection HP; auto. }
      subst sts'. pose proof (mod2_succ_even k Hk) as M1.
      cbn [reached]. unfold need. cbn [is_xover s_done s_second]. rewrite Hd, M1.
      repeat split; auto; try discriminate.
      replace (S k + 1) with (S (S (k + k mod 2))) by lia. auto.
  - destruct (pull up ss w) as [[[j ss1] w1]|e] eqn:E; [|discriminate].
    destruct (evaluate w1 j) as [[u|e] w2]; [|discriminate]. injection HP as <- <- <-. cbn. rewrite Hd.
    repeat split; auto. eapply IH; eauto.
Qed.

Lemma pool_reached n : forall stack k sts w out sts' w', pipeline_shape stack ->
  reached stack k sts -> pool n stack sts w = Ok (out, sts', w') ->
  length out = n /\ reached stack (k + n) sts'.
Proof.
  induction n as [|n IH]; intros stack k sts w out sts' w' HW HR HP; cbn in HP.
  - injection HP as <- <- <-. rewrite Nat.add_0_r. auto.
  - destruct (pull stack sts w) as [[[i sts1] w1]|e] eqn:E; [|discriminate].
    destruct (pool n stack sts1 w1) as [[[r sts2] w2]|e] eqn:E2; [|discriminate]. injection HP as <- <- <-.
    apply (IH stack (S k)) in E2; auto.
    + cbn. replace (k + S n) with (S k + n) by lia. destruct E2; auto.
    + eapply pull_reached; eauto.
Qed.

Lemma reached_source stack items : forall k sts, pipeline_shape (stack ++ [OpIter items]) ->
  reached (stack ++ [OpIter items]) k sts ->
  source_demand (stack ++ [OpIter items]) k <= length items.
Proof.
  induction stack as [|o up IH]; intros k sts HW HR; (destruct sts as [|s ss]; [destruct HR|]); cbn in HR.
  - destruct HR as (_ & _ & HR & _). exact HR.
  - destruct HR as (_ & _ & _ & HR). cbn [app source_demand] in *.
    destruct (up ++ [OpIter items]) as [|o2 r] eqn:E; [destruct up; discriminate|].
    rewrite <- E in *. cbn in HW. destruct (up ++ [OpIter items]) eqn:E2; [discriminate|].
    rewrite <- E2 in *. destruct HW. eapply IH; eauto.
Qed.

(** pooling in two goes *)
Lemma pool_app n m : forall stack sts w,
  pool (n + m) stack sts w =
  match pool n stack sts w with
  | Err e => Err e
  | Ok (a, sts1, w1) =>
      match pool m stack sts1 w1 with Err e => Err e | Ok (b, sts2, w2) => Ok (a ++ b, sts2, w2) end
  end.
Proof.
  induction n as [|n IH]; intros stack sts w; cbn.
  - destruct (pool m stack sts w) as [[[b sts2] w2]|e]; auto.
  - destruct (pull stack sts w) as [[[i sts1] w1]|e]; auto. rewrite IH.
    destruct (pool n stack sts1 w1) as [[[a sts2] w2]|e]; auto.
    destruct (pool m stack sts2 w2) as [[[b sts3] w3]|e]; auto.
Qed.

Lemma source_demand_mono st : forall a b, a <= b -> source_demand st a <= source_demand (G:=G) st b.
Proof.
  induction st as [|o [|o2 r] IHst]; intros a b Hab; cbn [source_demand]; auto.
  apply IHst. unfold need. destruct (is_xover o); auto.
  pose proof (Nat.div_mod a 2). pose proof (Nat.div_mod b 2).
  pose proof (Nat.mod_upper_bound a 2). pose proof (Nat.mod_upper_bound b 2). lia.
Qed.

(** ** Progress *)
Lemma pull_progress stack : forall k sts w, pipeline_shape stack -> Forall (never_fails decoder_of problem_of) stack ->
  reached stack k sts ->
  (exists i sts' w', pull stack sts w = Ok (i, sts', w')) \/
  ((pull stack sts w = Err StopIteration \/ pull stack sts w = Err RuntimeError) /\
   exists l items, stack = l ++ [OpIter items] /\ length items < source_demand stack (S k)).
Proof.
  induction stack as [|o up IH]; intros k sts w HW HF HR; [destruct HW|].
  destruct sts as [|s ss]; [destruct HR|]. cbn [reached] in HR. destruct HR as (Hd & Hs & Hi & HR).
  pose proof (Forall_inv HF) as Hnf. pose proof (Forall_inv_tail HF) as HF'.
  assert (HU : is_source o = false -> pipeline_shape up /\ (forall k, source_demand (o :: up) k = source_demand up (need o k))).
  { intros Hf. destruct up; cbn in HW; [congruence|]. destruct HW; auto. }
  assert (HN : is_source o = true -> up = []).
  { intros Hf. destruct up; auto. cbn in HW. destruct HW; congruence. }
  assert (Hpep : forall e, e = StopIteration \/ e = RuntimeError -> pep479 e = RuntimeError).
  { intros e [->| ->]; auto. }
  assert (Hone : is_source o = false -> is_xover o = false ->
    (exists i ss' w', pull up ss w = Ok (i, ss', w')) \/
    ((pull up ss w = Err StopIteration \/ pull up ss w = Err RuntimeError) /\
     exists l items, o :: up = l ++ [OpIter items] /\ length items < source_demand (o :: up) (S k))).
  { intros Hf Hx. destruct (HU Hf) as [HW' HSD].
    assert (Hneed : forall n, need o n = n) by (intros; unfold need; rewrite Hx; auto).
    rewrite Hneed in HR. destruct (IH k ss w HW' HF' HR) as [?|[HE (l & items & El & Hl)]]; auto.
    right. split; auto. exists (o :: l), items. rewrite El at 1. split; auto. rewrite HSD, Hneed. auto. }
  destruct o as [items|pop pick| |f quiet|skip f fresh| ]; cbn [Pipeline.pull].
  - destruct (nth_error items (s_done s)) as [j|] eqn:E.
    + left. eexists _, _, _. reflexivity.
    + right. split; auto. exists [], items. rewrite (HN eq_refl). split; auto. cbn.
      apply nth_error_None in E. lia.
  - destruct (nth_error pop (pick (s_done s))) as [j|] eqn:E.
    + left. eexists _, _, _. reflexivity.
    + apply nth_error_None in E. cbn in Hnf. specialize (Hnf (s_done s)). lia.
  - destruct (Hone eq_refl eq_refl) as [(i & ss' & w' & E)|[HE HX]].
    + rewrite E. destruct (clone w' i) as [c w2]. left. eexists _, _, _. reflexivity.
    + right. split; auto. destruct HE as [->| ->]; cbn; auto.
  - destruct (Hone eq_refl eq_refl) as [(i & ss' & w' & E)|[HE HX]].
    + rewrite E. unfold mutate_ind. cbn in Hnf. destruct (Hnf (s_done s) (genes w' i)) as [[a b] Ef].
      rewrite Ef. left. eexists _, _, _. reflexivity.
    + right. split; auto. destruct HE as [->| ->], quiet; cbn; auto.
  - destruct (HU eq_refl) as [HW' HSD]. destruct (s_second s) as [j|] eqn:Es.
    + left. eexists _, _, _. reflexivity.
    + cbn [is_xover] in Hs. unfold need in HR. cbn [is_xover] in HR.
      assert (Hk : k mod 2 = 0) by (apply Hs; auto). pose proof (mod2_succ_even k Hk) as M1.
      rewrite Hk, Nat.add_0_r in HR.
      destruct (IH k ss w HW' HF' HR) as [(i & ss1 & w1 & E)|[HE (l & items & El & Hl)]].
      * rewrite E. pose proof (pull_reached up k ss w i ss1 w1 HW' HR E) as HR1.
        destruct (IH (S k) ss1 w1 HW' HF' HR1) as [(j & ss2 & w2 & E2)|[HE (l & items & El & Hl)]].
        -- rewrite E2. left. unfold xover_pair. destruct (skip (s_done s)); [eexists _, _, _; reflexivity|].
           unfold recombine_ind. cbn in Hnf.
           destruct (Hnf (s_done s) (genes w2 i) (genes w2 j)) as [[a b] Ef]. rewrite Ef.
           eexists _, _, _; reflexivity.
        -- right. split; [destruct HE as [->| ->]; cbn; auto|].
           exists (OpXover skip f fresh :: l), items. rewrite El at 1. split; auto.
           rewrite HSD. unfold need. cbn [is_xover]. rewrite M1.
           replace (S k + 1) with (S (S k)) by lia. auto.
      * right. split; [destruct HE as [->| ->]; cbn; auto|].
        exists (OpXover skip f fresh :: l), items. rewrite El at 1. split; auto.
        rewrite HSD. unfold need. cbn [is_xover]. rewrite M1.
        eapply Nat.lt_le_trans; [exact Hl|]. apply source_demand_mono. lia.
  - destruct (Hone eq_refl eq_refl) as [(i & ss' & w' & E)|[HE HX]].
    + rewrite E. destruct (evaluate w' i) as [r w2] eqn:Ev.
      pose proof (evaluate_spec _ _ _ _ _ _ _ Ev) as HS.
      destruct HS as (_ & _ & _ & _ & _ & _ & _ & _ & _ & _ & _ & HS).
      cbn in Hnf. destruct (Hnf (i_decoder (w_ind w' i)) (i_problem (w_ind w' i)) (genes w' i)) as [f Ef]. rewrite Ef in HS. destruct HS as (-> & _).
      left. eexists _, _, _. reflexivity.
    + right. split; auto. destruct HE as [->| ->]; cbn; auto.
Qed.

(** enough supply: pool succeeds; otherwise it raises *)
Lemma pool_progress n : forall stack k sts w, pipeline_shape stack -> Forall (never_fails decoder_of problem_of) stack ->
  reached stack k sts ->
  (forall l items, stack = l ++ [OpIter items] -> source_demand stack (k + n) <= length items) ->
  exists out sts' w', pool n stack sts w = Ok (out, sts', w').
Proof.
  induction n as [|n IH]; intros stack k sts w HW HF HR HS; cbn.
  - eexists _, _, _. reflexivity.
  - destruct (pull_progress stack k sts w HW HF HR) as [(i & sts1 & w1 & E)|[_ (l & items & El & Hl)]].
    + rewrite E. destruct (IH stack (S k) sts1 w1 HW HF) as (out & sts2 & w2 & E2).
      { eapply pull_reached; eauto. }
      { intros l items El. specialize (HS l items El). replace (S k + n) with (k + S n) by lia. auto. }
      rewrite E2. eexists _, _, _. reflexivity.
    + exfalso. specialize (HS l items El). pose proof (source_demand_mono stack (S k) (k + S n)). lia.
Qed.

(** If the source is too short the pool raises StopIteration or RuntimeError. *)
Lemma pool_short n : forall stack k sts w l items, pipeline_shape stack -> Forall (never_fails decoder_of problem_of) stack ->
  reached stack k sts -> stack = l ++ [OpIter items] -> length items < source_demand stack (k + n) ->
  pool n stack sts w = Err StopIteration \/ pool n stack sts w = Err RuntimeError.
Proof.
  induction n as [|n IH]; intros stack k sts w l items HW HF HR El Hl; cbn.
  - exfalso. subst stack. rewrite Nat.add_0_r in Hl. pose proof (reached_source l items k sts HW HR). lia.
  - destruct (pull_progress stack k sts w HW HF HR) as [(i & sts1 & w1 & E)|[[E|E] _]].
    + rewrite E. destruct (IH stack (S k) sts1 w1 l items HW HF) as [E2|E2]; auto.
      * eapply pull_reached; eauto.
      * replace (S k + n) with (k + S n) by lia. auto.
      * rewrite E2; auto.
      * rewrite E2; auto.
    + rewrite E; auto.
    + rewrite E; auto.
Qed.

(** ** Isolation *)
Variable w0 : world G P F.

Definition held (sts : list ostate) : list nat :=
  flat_map (fun s => match s_second s with Some j => [j] | None => [] end) sts.

(** The pre-existing heap is as in [w0], and the live new individuals are distinct, new and hold
    distinct new arrays. *)
Definition inv w (live : list nat) : Prop :=
  w_nind w0 <= w_nind w /\ w_narr w0 <= w_narr w /\ untouched w0 w /\
  NoDup live /\ NoDup (map (fun i => i_genome (w_ind w i)) live) /\
  forall i, In i live -> w_nind w0 <= i < w_nind w /\ w_narr w0 <= i_genome (w_ind w i) < w_narr w.

Definition same_object w w' (i : nat) : Prop :=
  w_ind w' i = w_ind w i /\ genes w' i = genes w i.

Lemma inv_perm w l l' : Permutation l l' -> inv w l -> inv w l'.
Proof.
  intros HP (A & B & C & D & E & H). repeat split; auto; try apply C.
  - eapply Permutation_NoDup; eauto.
  - eapply Permutation_NoDup; [|exact E]. apply Permutation_map; auto.
  - apply (H i); eapply Permutation_in; [symmetry|]; eauto.
  - apply (H i); eapply Permutation_in; [symmetry|]; eauto.
  - apply (H i); eapply Permutation_in; [symmetry|]; eauto.
  - apply (H i); eapply Permutation_in; [symmetry|]; eauto.
Qed.

Lemma NoDup_app_l {A} (l m : list A) : NoDup (l ++ m) -> NoDup l.
Proof. induction l; intros H; [constructor|]. inversion H; subst. constructor; auto. intros C; apply H2, in_or_app; auto. Qed.

Lemma inv_drop w i l : inv w (i :: l) -> inv w l.
Proof.
  intros (A & B & C & D & E & H). inversion D; subst. cbn in E. inversion E; subst.
  repeat split; auto; try apply C; apply (H i0); right; auto.
Qed.

Lemma NoDup_map_ne {A B} (f : A -> B) i l j : NoDup (map f (i :: l)) -> In j l -> f j <> f i.
Proof. cbn. intros H Hj C. inversion H; subst. apply H2. rewrite <- C. apply in_map; auto. Qed.

(** an update of individual [i] alone keeps the rest *)
Lemma inv_touch w w' i l :
  inv w (i :: l) ->
  (forall j, j <> i -> w_ind w' j = w_ind w j) ->
  (forall a, a < w_narr w -> a <> i_genome (w_ind w i) -> w_arr w' a = w_arr w a) ->
  w_nind w' = w_nind w -> w_narr w <= w_narr w' ->
  (i_genome (w_ind w' i) = i_genome (w_ind w i) \/
   (i_genome (w_ind w' i) = w_narr w /\ w_narr w < w_narr w')) ->
  inv w' (i :: l) /\ forall j, In j l -> same_object w w' j.
Proof.
  intros (A & B & (C1 & C2) & D & E & H) HI HA HN HM HG.
  assert (Hi : w_nind w0 <= i < w_nind w /\ w_narr w0 <= i_genome (w_ind w i) < w_narr w) by (apply H; left; auto).
  assert (Hl : forall j, In j l -> j <> i) by (intros j Hj ->; inversion D; auto).
  assert (Hg : forall j, In j l -> i_genome (w_ind w' j) = i_genome (w_ind w j)).
  { intros j Hj. rewrite HI; auto. }
  split.
  - repeat split; try lia; auto.
    + intros j Hj. rewrite HI by lia. auto.
    + intros a Ha. rewrite HA by lia. auto.
    + cbn [map]. cbn [map] in E. inversion E as [|x xs HX HXs]; subst.
      assert (EM : map (fun j => i_genome (w_ind w' j)) l = map (fun j => i_genome (w_ind w j)) l).
      { apply map_ext_in. auto. }
      rewrite EM. constructor; auto. destruct HG as [->|[-> _]]; auto.
      intros C. apply in_map_iff in C. destruct C as (j & Ej & Hj).
      destruct (H j (or_intror Hj)). lia.
    + destruct (H i0 H0); lia.
    + destruct (H i0 H0); lia.
    + destruct H0 as [<-|H0]; [destruct HG as [->|[-> ?]]; lia|]. rewrite Hg by auto. destruct (H i0 (or_intror H0)); lia.
    + destruct H0 as [<-|H0]; [destruct HG as [->|[-> ?]]; lia|]. rewrite Hg by auto. destruct (H i0 (or_intror H0)); lia.
  - intros j Hj. split; [apply HI; auto|]. unfold genes. rewrite Hg by auto. apply HA.
    + destruct (H j (or_intror Hj)); lia.
    + apply (NoDup_map_ne _ _ _ _ E Hj).
Qed.

Lemma inv_touch2 w w' i j l :
  inv w (i :: j :: l) ->
  (forall k, k <> i -> k <> j -> w_ind w' k = w_ind w k) ->
  (forall a, a < w_narr w -> a <> i_genome (w_ind w i) -> a <> i_genome (w_ind w j) -> w_arr w' a = w_arr w a) ->
  w_nind w' = w_nind w -> w_narr w <= w_narr w' ->
  ((i_genome (w_ind w' i) = i_genome (w_ind w i) /\ i_genome (w_ind w' j) = i_genome (w_ind w j)) \/
   (i_genome (w_ind w' i) = w_narr w /\ i_genome (w_ind w' j) = S (w_narr w) /\ S (w_narr w) < w_narr w')) ->
  inv w' (i :: j :: l) /\ forall k, In k l -> same_object w w' k.
Proof.
  intros (A & B & (C1 & C2) & D & E & H) HI HA HN HM HG.
  assert (Hi : w_nind w0 <= i < w_nind w /\ w_narr w0 <= i_genome (w_ind w i) < w_narr w) by (apply H; left; auto).
  assert (Hj : w_nind w0 <= j < w_nind w /\ w_narr w0 <= i_genome (w_ind w j) < w_narr w) by (apply H; right; left; auto).
  inversion D as [|? ? D1 D2]; subst. inversion D2 as [|? ? D3 D4]; subst.
  assert (Hij : i <> j) by (intros ->; apply D1; left; auto).
  assert (Hl : forall k, In k l -> k <> i /\ k <> j).
  { intros k Hk. split; intros ->; [apply D1; right; auto|auto]. }
  assert (Hg : forall k, In k l -> i_genome (w_ind w' k) = i_genome (w_ind w k)).
  { intros k Hk. destruct (Hl k Hk). rewrite HI; auto. }
  cbn [map] in E. inversion E as [|? ? E1 E2]; subst. inversion E2 as [|? ? E3 E4]; subst.
  assert (EM : map (fun k => i_genome (w_ind w' k)) l = map (fun k => i_genome (w_ind w k)) l).
  { apply map_ext_in. auto. }
  assert (Hlt : forall k, In k l -> i_genome (w_ind w k) < w_narr w /\ w_narr w0 <= i_genome (w_ind w k) /\ w_nind w0 <= k < w_nind w).
  { intros k Hk. destruct (H k) as [? ?]; [right; right; auto|]. lia. }
  split.
  - split; [lia|]. split; [lia|]. split; [split|].
    + intros k Hk. rewrite HI by lia. auto.
    + intros a Ha. rewrite HA by lia. auto.
    + split; auto. split.
      * cbn [map]. rewrite EM. destruct HG as [[-> ->]|(-> & -> & _)]; [exact E|].
        constructor.
        -- intros [C|C]; [lia|]. apply in_map_iff in C. destruct C as (k & Ek & Hk). destruct (Hlt k Hk). lia.
        -- constructor; auto. intros C. apply in_map_iff in C. destruct C as (k & Ek & Hk). destruct (Hlt k Hk). lia.
      * intros k [<-|[<-|Hk]].
        -- split; [lia|]. destruct HG as [[G1 G2]|(G1 & G2 & G3)]; rewrite ?G1, ?G2; lia.
        -- split; [lia|]. destruct HG as [[G1 G2]|(G1 & G2 & G3)]; rewrite ?G1, ?G2; lia.
        -- rewrite Hg by auto. destruct (Hlt k Hk). lia.
  - intros k Hk. destruct (Hl k Hk) as [N1 N2]. split; [apply HI; auto|]. unfold genes. rewrite Hg by auto.
    apply HA.
    + destruct (Hlt k Hk). lia.
    + intros C. apply E1. right. rewrite <- C. apply (in_map (fun k => i_genome (w_ind w k))); auto.
    + intros C. apply E3. rewrite <- C. apply (in_map (fun k => i_genome (w_ind w k))); auto.
Qed.

Lemma same_object_trans a b c i : same_object a b i -> same_object b c i -> same_object a c i.
Proof. intros [A1 A2] [B1 B2]. split; congruence. Qed.

Lemma pull_select_inv o ss w i ss' w' :
  is_source o = true -> pull [o] ss w = Ok (i, ss', w') ->
  w' = w /\ held ss' = match ss with [] => [] | _ :: r => held r end /\
  match o with OpSelect pop _ => In i pop | OpIter items => In i items | _ => True end.
Proof.
  intros Hs H. destruct o; try discriminate; destruct ss as [|s r]; cbn in H; try discriminate.
  - destruct (nth_error items (s_done s)) eqn:E; [|discriminate]. injection H as <- <- <-. cbn.
    repeat split; auto. eapply nth_error_In; eauto.
  - destruct (nth_error population (pick (s_done s))) eqn:E; [|discriminate]. injection H as <- <- <-. cbn.
    repeat split; auto. eapply nth_error_In; eauto.
Qed.

Lemma perm_to_front {A} (x : A) a b : Permutation (a ++ x :: b) (x :: a ++ b).
Proof. symmetry. apply Permutation_middle. Qed.

Lemma clone_inv w i c w2 live : inv w live -> i < w_nind w -> clone w i = (c, w2) ->
  inv w2 (c :: live) /\ forall j, In j live -> same_object w w2 j.
Proof.
  intros (A & B & (C1 & C2) & D & E & H) Hi HC. apply clone_spec in HC.
  destruct HC as (-> & E1 & E2 & E3 & _ & E4 & _ & _ & _ & _ & _ & _ & H1 & H2).
  assert (Hg : forall j, In j live -> w_ind w2 j = w_ind w j).
  { intros j Hj. apply H1. destruct (H j Hj). lia. }
  split.
  - repeat split; try lia.
    + intros j Hj. rewrite H1 by lia. auto.
    + intros a Ha. rewrite H2 by lia. auto.
    + constructor; auto. intros C. destruct (H _ C). lia.
    + cbn [map]. rewrite E4.
      assert (EM : map (fun j => i_genome (w_ind w2 j)) live = map (fun j => i_genome (w_ind w j)) live).
      { apply map_ext_in. intros j Hj. rewrite Hg; auto. }
      rewrite EM. constructor; auto. intros C. apply in_map_iff in C. destruct C as (k & Ek & Hk).
      destruct (H k Hk). lia.
    + destruct H0 as [<-|H0]; [lia|]. destruct (H _ H0); lia.
    + destruct H0 as [<-|H0]; [lia|]. destruct (H _ H0); lia.
    + destruct H0 as [<-|H0]; [lia|]. rewrite Hg by auto. destruct (H _ H0); lia.
    + destruct H0 as [<-|H0]; [lia|]. rewrite Hg by auto. destruct (H _ H0); lia.
  - intros j Hj. split; auto. unfold genes. rewrite Hg by auto. apply H2. destruct (H j Hj). lia.
Qed.

Lemma pull_inv stack : breeding (w_nind w0) stack -> forall sts w i sts' w' out,
  inv w (out ++ held sts) -> pull stack sts w = Ok (i, sts', w') ->
  inv w' (i :: out ++ held sts') /\ (forall j, In j out -> same_object w w' j).
Proof.
  induction stack as [|o up IH]; intros HB; [destruct HB|].
  intros sts w i sts' w' out HI HP. destruct sts as [|s ss]; [destruct o; discriminate|].
  assert (Hh : inv w (out ++ held ss)).
  { cbn in HI. destruct (s_second s); auto. cbn in HI.
    eapply inv_drop. eapply inv_perm; [apply perm_to_front|]. exact HI. }
  destruct o as [items|pop pick| |f quiet|skip f fresh| ]; try (destruct HB; fail); cbn [Pipeline.pull] in HP.
  - (* clone *)
    destruct (pull up ss w) as [[[j ss1] w1]|e] eqn:E; [|discriminate].
    destruct (clone w1 j) as [c w2] eqn:EC. injection HP as <- <- <-. cbn [held flat_map tick s_second app].
    fold (held ss1).
    assert (Hsrc : (exists o, up = [o] /\ is_source o = true /\
        (match o with OpSelect pop _ => (forall i, In i pop -> i < w_nind w0)
                    | OpIter items => (forall i, In i items -> i < w_nind w0) | _ => False end)) \/ breeding (w_nind w0) up).
    { cbn in HB. destruct up as [|o [|o2 r]]; auto; destruct o; auto; left; eexists; split; eauto. }
    destruct Hsrc as [(o & -> & Ho & Hpop)|Hb].
    + apply pull_select_inv in E; auto. destruct E as (-> & Hheld & Hin).
      assert (Hj : j < w_nind w0) by (destruct o; try discriminate; auto).
      assert (HI1 : inv w (out ++ held ss1)).
      { rewrite Hheld. destruct ss as [|s2 r]; auto. cbn in Hh. destruct (s_second s2); auto. cbn in Hh.
        eapply inv_drop. eapply inv_perm; [apply perm_to_front|]. exact Hh. }
      assert (Hjw : j < w_nind w) by (destruct HI1 as (HH & _); lia).
      destruct (clone_inv _ _ _ _ _ HI1 Hjw EC) as [HI2 HS].
      split; auto. intros k Hk. apply HS. apply in_or_app; auto.
    + destruct (IH Hb ss w j ss1 w1 out Hh E) as [HI1 HS1].
      assert (Hj : j < w_nind w1) by (destruct HI1 as (_ & _ & _ & _ & _ & HH); apply HH; left; auto).
      apply inv_drop in HI1.
      destruct (clone_inv _ _ _ _ _ HI1 Hj EC) as [HI2 HS2].
      split; auto. intros k Hk. eapply same_object_trans; [apply HS1; auto|]. apply HS2, in_or_app; auto.
  - (* mutate *)
    destruct (pull up ss w) as [[[j ss1] w1]|e] eqn:E; [|discriminate].
    destruct (mutate_ind (f (s_done s)) w1 j) as [[u|e] w2] eqn:EM; [|discriminate]. injection HP as <- <- <-.
    cbn [held flat_map tick s_second app]. fold (held ss1).
    destruct (IH HB ss w j ss1 w1 out Hh E) as [HI1 HS1].
    apply mutate_ind_spec in EM. destruct EM as (ip & fr & _ & _ & _ & M1 & _ & _ & _ & _ & _ & M2 & M3 & _ & M4 & M5).
    destruct (inv_touch _ w2 _ _ HI1 M1 M5 M2 M3 M4) as [HI2 HS2].
    split; auto. intros k Hk. eapply same_object_trans; [apply HS1; auto|]. apply HS2, in_or_app; auto.
  - (* crossover *)
    destruct (s_second s) as [j|] eqn:Es.
    + injection HP as <- <- <-. cbn [held flat_map tick s_second app]. fold (held ss).
      split; [|intros; split; auto]. cbn in HI. rewrite Es in HI. cbn in HI. fold (held ss) in HI.
      eapply inv_perm; [apply perm_to_front|]. exact HI.
    + destruct (pull up ss w) as [[[j ss1] w1]|e] eqn:E; [|discriminate].
      destruct (pull up ss1 w1) as [[[j2 ss2] w2]|e] eqn:E2; [|discriminate].
      destruct (IH HB ss w j ss1 w1 out Hh E) as [HI1 HS1].
      destruct (IH HB ss1 w1 j2 ss2 w2 (j :: out) HI1 E2) as [HI2 HS2].
      assert (HI3 : inv w2 (j :: j2 :: out ++ held ss2)).
      { eapply inv_perm; [|exact HI2]. apply perm_swap. }
      unfold xover_pair in HP. destruct (skip (s_done s)).
      * injection HP as <- <- <-. cbn [held flat_map s_second app]. fold (held ss2). split.
        -- eapply inv_perm; [|exact HI3]. apply perm_skip. apply Permutation_middle.
        -- intros k Hk. eapply same_object_trans; [apply HS1; auto|]. apply HS2; right; auto.
      * destruct (recombine_ind (f (s_done s)) fresh w2 j j2) as [[u|e] w3] eqn:ER; [|discriminate].
        injection HP as <- <- <-. cbn [held flat_map s_second app]. fold (held ss2).
        assert (Hne : j <> j2).
        { destruct HI3 as (_ & _ & _ & D & _). inversion D; subst. intros ->. apply H1; left; auto. }
        apply recombine_ind_spec in ER; auto.
        destruct ER as (g1 & g2 & _ & _ & _ & _ & _ & _ & _ & R1 & R2 & R3 & _ & R4 & R5).
        destruct (inv_touch2 _ w3 _ _ _ HI3 R1 R5 R2 R3 R4) as [HI4 HS4]. split.
        -- eapply inv_perm; [|exact HI4]. apply perm_skip. apply Permutation_middle.
        -- intros k Hk. eapply same_object_trans; [apply HS1; auto|].
           eapply same_object_trans; [apply HS2; right; auto|]. apply HS4, in_or_app; auto.
  - (* evaluate *)
    destruct (pull up ss w) as [[[j ss1] w1]|e] eqn:E; [|discriminate].
    destruct (evaluate w1 j) as [[u|e] w2] eqn:EM; [|discriminate]. injection HP as <- <- <-.
    cbn [held flat_map tick s_second app]. fold (held ss1).
    destruct (IH HB ss w j ss1 w1 out Hh E) as [HI1 HS1].
    apply evaluate_spec in EM. destruct EM as (V1 & V2 & V3 & V4 & V5 & V6 & _).
    destruct (inv_touch _ w2 _ _ HI1 V5) as [HI2 HS2]; try lia; auto.
    { intros. rewrite V1. auto. }
    split; auto. intros k Hk. eapply same_object_trans; [apply HS1; auto|]. apply HS2, in_or_app; auto.
Qed.

Lemma pool_inv n : forall stack, breeding (w_nind w0) stack -> forall sts w out sts' w' before,
  inv w (before ++ held sts) -> pool n stack sts w = Ok (out, sts', w') ->
  inv w' (before ++ out ++ held sts') /\ (forall j, In j before -> same_object w w' j).
Proof.
  induction n as [|n IH]; intros stack HB sts w out sts' w' before HI HP; cbn in HP.
  - injection HP as <- <- <-. split; auto. intros; split; auto.
  - destruct (pull stack sts w) as [[[i sts1] w1]|e] eqn:E; [|discriminate].
    destruct (pool n stack sts1 w1) as [[[r sts2] w2]|e] eqn:E2; [|discriminate]. injection HP as <- <- <-.
    destruct (pull_inv stack HB sts w i sts1 w1 before HI E) as [HI1 HS1].
    destruct (IH stack HB sts1 w1 r sts2 w2 (i :: before) HI1 E2) as [HI2 HS2]. split.
    + eapply inv_perm; [|exact HI2]. cbn. rewrite Permutation_middle. auto.
    + intros j Hj. eapply same_object_trans; [apply HS1; auto|]. apply HS2; right; auto.
Qed.

(** offspring of a pipeline ending in evaluate carry the score of their final genome *)
Lemma pool_scored n : forall up, breeding (w_nind w0) (OpEval :: up) -> forall sts w out sts' w' before,
  inv w (before ++ held sts) -> pool n (OpEval :: up) sts w = Ok (out, sts', w') ->
  forall i, In i out -> i_fitness (w_ind w' i) = Some (outcome nan (score_of w' i)).
Proof.
  induction n as [|n IH]; intros up HB sts w out sts' w' before HI HP i Hi; cbn [Pipeline.pool] in HP.
  - injection HP as <- <- <-. destruct Hi.
  - destruct (pull (OpEval :: up) sts w) as [[[k sts1] w1]|e] eqn:E; [|discriminate].
    destruct (pool n (OpEval :: up) sts1 w1) as [[[r sts2] w2]|e] eqn:E2; [|discriminate]. injection HP as <- <- <-.
    destruct (pull_inv _ HB sts w k sts1 w1 before HI E) as [HI1 HS1].
    destruct Hi as [->|Hi].
    + destruct (pool_inv n _ HB sts1 w1 r sts2 w2 (i :: before) HI1 E2) as [_ HS2].
      destruct (HS2 i (or_introl eq_refl)) as [Hx Hy]. rewrite Hx, Hy.
      destruct sts as [|s ss]; [discriminate|]. cbn in E.
      destruct (pull up ss w) as [[[j ss1] wj]|e] eqn:Eu; [|discriminate].
      destruct (evaluate wj j) as [[f|e] wk] eqn:Ev; [|discriminate]. injection E as <- <- <-.
      apply evaluate_ok in Ev. destruct Ev as (V1 & V2 & V3). rewrite V1. f_equal. exact V2.
    + eapply (IH up HB sts1 w1 r sts2 w2 (k :: before)); eauto.
Qed.
End Pipe.

(** ** Statements used by Props/Pipeline.v *)
Section Final.
Context {G P F : Type}.
Variable nan : F.
Variable decoder_of : nat -> option (list G -> result P).
Variable problem_of : nat -> phen_value G P -> result F.

Lemma pool_demand stack n m (w : world G P F) out sts w1 out2 sts2 w2 :
  pipeline_shape stack ->
  pool nan decoder_of problem_of n stack (start stack) w = Ok (out, sts, w1) ->
  pool nan decoder_of problem_of m stack sts w1 = Ok (out2, sts2, w2) ->
  length out = n /\ map s_done sts = demand stack n /\
  length out2 = m /\ map s_done sts2 = demand stack (n + m).
Proof.
  intros HS H1 H2.
  destruct (pool_reached nan decoder_of problem_of n stack 0 _ _ _ _ _ HS (reached_start stack) H1) as [L1 R1].
  destruct (pool_reached nan decoder_of problem_of m stack _ _ _ _ _ _ HS R1 H2) as [L2 R2].
  repeat split; auto; apply reached_demand; auto.
Qed.

Lemma pool_total stack n (w : world G P F) :
  pipeline_shape stack -> Forall (never_fails decoder_of problem_of) stack ->
  (forall l items, stack = l ++ [OpIter items] -> source_demand stack n <= length items) ->
  exists out sts w', pool nan decoder_of problem_of n stack (start stack) w = Ok (out, sts, w') /\ length out = n.
Proof.
  intros HS HF HI.
  destruct (pool_progress nan decoder_of problem_of n stack 0 (start stack) w HS HF (reached_start stack) HI)
    as (out & sts & w' & E).
  exists out, sts, w'. split; auto. eapply pool_reached; eauto. apply reached_start.
Qed.

Lemma pool_runs_dry l items n (w : world G P F) :
  let stack := l ++ [OpIter items] in
  pipeline_shape stack -> Forall (never_fails decoder_of problem_of) stack ->
  length items < source_demand stack n ->
  pool nan decoder_of problem_of n stack (start stack) w = Err StopIteration \/
  pool nan decoder_of problem_of n stack (start stack) w = Err RuntimeError.
Proof.
  intros stack HS HF HI.
  exact (pool_short nan decoder_of problem_of n stack 0 (start stack) w l items HS HF (reached_start stack) eq_refl HI).
Qed.

Lemma pep479_not_stop e : pep479 e <> StopIteration.
Proof. destruct e; discriminate. Qed.
Lemma pull_stops l items : forall sts (w : world G P F), pipeline_shape (l ++ [OpIter items]) ->
  pull nan decoder_of problem_of (l ++ [OpIter items]) sts w = Err StopIteration -> Forall quiet l.
Proof.
  induction l as [|o l IH]; intros sts w HS H; [constructor|]. destruct sts as [|s ss]; [destruct o; discriminate|].
  assert (HS' : is_source o = false /\ pipeline_shape (l ++ [OpIter items])) by (destruct l; exact HS). destruct HS' as [Ho HU].
  destruct o as [its|pop pick| |f q|skip f fresh| ]; try discriminate Ho; cbn [app pull] in H.
  - destruct (pull _ _ _ _ ss w) as [[[i ss'] w1]|e]; [destruct (clone w1 i); discriminate|]. injection H as H. destruct (pep479_not_stop _ H).
  - destruct (pull _ _ _ _ ss w) as [[[i ss'] w1]|e] eqn:E.
    + destruct (mutate_ind _ w1 i) as [[u|e] w2]; [discriminate|]. injection H as H. destruct (pep479_not_stop _ H).
    + injection H as H. destruct q; [|destruct (pep479_not_stop _ H)]. subst e. constructor; [exists f; reflexivity|]. eapply IH; eassumption.
  - destruct (s_second s); [discriminate|].
    destruct (pull _ _ _ _ ss w) as [[[i ss'] w1]|e]; [|injection H as H; destruct (pep479_not_stop _ H)].
    destruct (pull _ _ _ _ ss' w1) as [[[j ss2] w2]|e]; [|injection H as H; destruct (pep479_not_stop _ H)].
    destruct (xover_pair _ _ _ w2 i j) as [[u|e] w3]; [discriminate|]. injection H as H. destruct (pep479_not_stop _ H).
  - destruct (pull _ _ _ _ ss w) as [[[i ss'] w1]|e]; [|injection H as H; destruct (pep479_not_stop _ H)].
    destruct (evaluate _ _ _ w1 i) as [[u|e] w2]; [discriminate|]. injection H as H. destruct (pep479_not_stop _ H).
Qed.
Lemma pull_quiet l items : forall sts (w : world G P F), Forall quiet l -> Forall (never_fails decoder_of problem_of) l ->
  pull nan decoder_of problem_of (l ++ [OpIter items]) sts w <> Err RuntimeError.
Proof.
  induction l as [|o l IH]; intros sts w HQ HF.
  - destruct sts as [|s ss]; [discriminate|]. cbn [app pull]. destruct (nth_error items (s_done s)); discriminate.
  - inversion HQ as [|? ? [f ->] HQ']; subst. inversion HF as [|? ? Hf HF']; subst. destruct sts as [|s ss]; [discriminate|]. cbn [app pull].
    destruct (pull _ _ _ _ ss w) as [[[i ss'] w1]|e] eqn:E.
    + unfold mutate_ind. cbn in Hf. destruct (Hf (s_done s) (genes w1 i)) as [[a b] Ef]. rewrite Ef. destruct b; discriminate.
    + intros H. injection H as ->. exact (IH ss w HQ' HF' E).
Qed.
Lemma pool_error stack e n : forall sts (w : world G P F), pool nan decoder_of problem_of n stack sts w = Err e ->
  exists sts' w', pull nan decoder_of problem_of stack sts' w' = Err e.
Proof.
  induction n as [|n IH]; intros sts w H; cbn in H; [discriminate|].
  destruct (pull _ _ _ stack sts w) as [[[i sts1] w1]|e'] eqn:E.
  - destruct (pool _ _ _ n stack sts1 w1) as [[[r sts2] w2]|e'] eqn:E2; [discriminate|]. injection H as ->. eapply IH, E2.
  - injection H as ->. exists sts, w. exact E.
Qed.
Lemma pool_runs_dry_exactly l items n (w : world G P F) :
  let stack := l ++ [OpIter items] in
  pipeline_shape stack -> Forall (never_fails decoder_of problem_of) stack ->
  length items < source_demand stack n ->
  (Forall quiet l -> pool nan decoder_of problem_of n stack (start stack) w = Err StopIteration) /\
  (~ Forall quiet l -> pool nan decoder_of problem_of n stack (start stack) w = Err RuntimeError).
Proof.
  intros stack HS HF HI. assert (HFl : Forall (never_fails decoder_of problem_of) l) by (apply Forall_app in HF; apply HF).
  destruct (pool_runs_dry l items n w HS HF HI) as [E | E]; fold stack in E; (split; intros HQ; [|]); try exact E; exfalso;
    destruct (pool_error _ _ _ _ _ E) as (sts' & w' & Ep).
  - apply HQ. eapply pull_stops; eassumption.
  - eapply pull_quiet; eassumption.
Qed.

Lemma held_start (stack : list (op G)) : held (start stack) = [].
Proof. induction stack; cbn; auto. Qed.

Lemma inv_init (w : world G P F) : inv w w [].
Proof. repeat split; auto; try (apply NoDup_nil); intros; contradiction. Qed.

Lemma pool_isolated stack n m (w : world G P F) out sts w1 out2 sts2 w2 :
  breeding (w_nind w) stack ->
  pool nan decoder_of problem_of n stack (start stack) w = Ok (out, sts, w1) ->
  pool nan decoder_of problem_of m stack sts w1 = Ok (out2, sts2, w2) ->
  untouched w w2 /\ fresh_and_separate w w2 (out ++ out2) /\
  (forall i, In i out -> w_ind w2 i = w_ind w1 i /\ genes w2 i = genes w1 i).
Proof.
  intros HB H1 H2.
  assert (I0 : inv w w ([] ++ held (start stack))) by (rewrite held_start; apply inv_init).
  destruct (pool_inv nan decoder_of problem_of w n stack HB _ _ _ _ _ [] I0 H1) as [I1 _]. cbn [app] in I1.
  destruct (pool_inv nan decoder_of problem_of w m stack HB _ _ _ _ _ out I1 H2) as [I2 S2].
  split; [apply I2|]. split; [|exact S2].
  rewrite app_assoc in I2. destruct I2 as (_ & _ & _ & D & E & H). split; [eapply NoDup_app_l; eauto|].
  split; [rewrite map_app in E; eapply NoDup_app_l; eauto|].
  intros i Hi. destruct (H i) as [A B]; [apply in_or_app; auto|]. lia.
Qed.

Lemma pool_scores up n (w : world G P F) out sts w' :
  breeding (w_nind w) (OpEval :: up) ->
  pool nan decoder_of problem_of n (OpEval :: up) (start (OpEval :: up)) w = Ok (out, sts, w') ->
  forall i, In i out ->
    i_fitness (w_ind w' i) =
    Some (outcome nan (score (decoder_of (i_decoder (w_ind w' i))) (problem_of (i_problem (w_ind w' i))) (genes w' i))).
Proof.
  intros HB H i Hi. eapply (pool_scored nan decoder_of problem_of w n up HB _ w out sts w' []); eauto.
  rewrite held_start. apply inv_init.
Qed.
End Final.
