From Coq Require Import Lia Permutation.
From Verif Require Import Model.Base Model.PyList Model.Scalar Model.Selection Model.Counters Model.Heap Model.Pipeline Model.HeapEa
  Spec.Order Spec.Selection Spec.Heap Spec.HeapEa
  Proofs.Order Proofs.PyList Proofs.ScalarSel Proofs.Algorithm Proofs.Heap Proofs.Pipeline.

(** ** parts of lists *)
Definition part_of {A} (s l : list A) : Prop := exists rest, Permutation l (s ++ rest).

Lemma topk_part {A} (lt gt eq : A -> A -> bool) sized k l : part_of (topk lt gt eq sized k l) l.
Proof.
  destruct k as [|[|k]]; cbn [topk].
  - exists l. auto.
  - destruct l as [|x r]; [exists []; auto|].
    assert (H : In (pymax_from gt x r) (x :: r)).
    { apply (topk_in (x :: r) (fun _ _ => true) gt (fun _ _ => true) true 1). cbn [topk]. left. reflexivity. }
    apply in_split in H. destruct H as (l1 & l2 & E). exists (l1 ++ l2). cbn [app]. set (m := pymax_from gt x r) in *.
    clearbody m. rewrite E. symmetry. apply Permutation_middle.
  - destruct (sized && _); eexists (skipn (S (S k)) (sort_desc _ l)); rewrite firstn_skipn; apply sort_desc_perm.
Qed.

Lemma elitist_part {A} (lt gt eq : A -> A -> bool) o p k :
  part_of (fst (elitist_survival lt gt eq o p k)) (o ++ p).
Proof.
  unfold elitist_survival. cbn [fst]. destruct (topk_part lt gt eq true k p) as [r1 H1].
  destruct (topk_part lt gt eq true (length o) (o ++ topk lt gt eq true k p)) as [r2 H2].
  exists (r2 ++ r1). eapply perm_trans; [apply Permutation_app_head; exact H1|]. rewrite !app_assoc.
  apply Permutation_app_tail. exact H2.
Qed.

Lemma part_in {A} (s l : list A) x : part_of s l -> In x s -> In x l.
Proof. intros [r H] Hx. eapply Permutation_in; [symmetry; exact H|]. apply in_or_app. auto. Qed.
Lemma part_map {A B} (f : A -> B) s l : part_of s l -> part_of (map f s) (map f l).
Proof. intros [r H]. exists (map f r). rewrite <- map_app. apply Permutation_map. auto. Qed.
Lemma part_NoDup {A} (s l : list A) : part_of s l -> NoDup l -> NoDup s.
Proof. intros [r H] HD. apply (NoDup_app_l s r). eapply Permutation_NoDup; eauto. Qed.

Lemma NoDup_join {A} (l m : list A) : NoDup l -> NoDup m -> (forall x, In x l -> ~ In x m) -> NoDup (l ++ m).
Proof.
  intros H1 H2 H3. induction l as [|a l IH]; cbn; auto. apply NoDup_cons_iff in H1. destruct H1 as [Ha H1].
  constructor; [|apply IH; auto; intros; apply H3; right; auto].
  intros C. apply in_app_or in C. destruct C as [C|C]; auto. apply (H3 a); auto. left. auto.
Qed.

(** ** genomes in a pipeline *)
Section Kind.
Context {G P F : Type}.
Variable nan : F.
Variable decoder_of : nat -> option (list G -> result P).
Variable problem_of : nat -> phen_value G P -> result F.
Implicit Types w : world G P F.
Variable D : list G -> Prop.
Variable problem decoder : nat.
Variable robust : bool.
Notation pull := (pull nan decoder_of problem_of).
Notation pool := (pool nan decoder_of problem_of).

Definition kind w (i : nat) : Prop :=
  D (genes w i) /\ i_problem (w_ind w i) = problem /\ i_decoder (w_ind w i) = decoder /\ i_robust (w_ind w i) = robust.

Lemma kind_same w w' i : same_object w w' i -> kind w i -> kind w' i.
Proof. unfold kind. intros [H1 H2]. rewrite H1, H2. auto. Qed.

Variable w0 : world G P F.

Definition source_members (o : op G) : list nat :=
  match o with OpSelect pop _ => pop | OpIter items => items | _ => [] end.
Definition sources_ok (stack : list (op G)) : Prop :=
  forall o i, In o stack -> In i (source_members o) ->
    i < w_nind w0 /\ i_genome (w_ind w0 i) < w_narr w0 /\ kind w0 i.

Lemma source_kind w live i : inv w0 w live -> i < w_nind w0 -> i_genome (w_ind w0 i) < w_narr w0 -> kind w0 i -> kind w i.
Proof.
  intros (_ & _ & (C1 & C2) & _) H1 H2. apply kind_same. split; [apply C1; auto|].
  unfold genes. rewrite (C1 i H1). apply C2. auto.
Qed.

Lemma pull_kind stack : breeding (w_nind w0) stack -> Forall (stays_within D) stack -> sources_ok stack ->
  forall sts w i sts' w' out,
  inv w0 w (out ++ held sts) -> (forall j, In j (held sts) -> kind w j) -> pull stack sts w = Ok (i, sts', w') ->
  kind w' i /\ forall j, In j (held sts') -> kind w' j.
Proof.
  induction stack as [|o up IH]; intros HB HF HSo; [destruct HB|].
  pose proof (Forall_inv HF) as Ho. pose proof (Forall_inv_tail HF) as HFu.
  assert (HSu : sources_ok up) by (intros o' j H1 H2; apply (HSo o' j); auto; right; auto).
  intros sts w i sts' w' out HI HK HP. destruct sts as [|s ss]; [destruct o; discriminate|].
  assert (Hh : inv w0 w (out ++ held ss)).
  { cbn in HI. destruct (s_second s); auto. cbn in HI.
    eapply inv_drop. eapply inv_perm; [apply perm_to_front|]. exact HI. }
  assert (HKh : forall j, In j (held ss) -> kind w j).
  { intros j Hj. apply HK. cbn. apply in_or_app. right. exact Hj. }
  destruct o as [items|pop pick| |f quiet|skip f fresh| ]; try (destruct HB; fail); cbn [Pipeline.pull] in HP.
  - (* clone *)
    destruct (pull up ss w) as [[[j ss1] w1]|e] eqn:E; [|discriminate].
    destruct (clone w1 j) as [c w2] eqn:EC. injection HP as <- <- <-. cbn [held flat_map tick s_second app].
    fold (held ss1).
    assert (Hsrc : (exists o, up = [o] /\ is_source o = true) \/ breeding (w_nind w0) up).
    { cbn in HB. destruct up as [|o [|o2 r]]; auto; destruct o; auto; left; eexists; split; eauto. }
    pose proof EC as EC2. apply clone_spec in EC2.
    destruct EC2 as (_ & _ & _ & _ & Eg & _ & Ep & Ed & Er & _).
    assert (Hc : kind w1 j -> kind w2 c).
    { unfold kind. rewrite Eg, Ep, Ed, Er. auto. }
    destruct Hsrc as [(o & -> & Ho2)|Hb].
    + apply pull_select_inv in E; auto. destruct E as (-> & Hheld & Hin).
      destruct (HSu o j) as (L1 & L2 & L3); [left; auto|destruct o; try discriminate; auto|].
      assert (HI1 : inv w0 w (out ++ held ss1)).
      { rewrite Hheld. destruct ss as [|s2 r]; auto. cbn in Hh. destruct (s_second s2); auto. cbn in Hh.
        eapply inv_drop. eapply inv_perm; [apply perm_to_front|]. exact Hh. }
      assert (Hjw : j < w_nind w) by (destruct HI1 as (HH & _); lia).
      destruct (clone_inv _ _ _ _ _ _ HI1 Hjw EC) as [HI2 HS]. split.
      * apply Hc. eapply source_kind; eauto.
      * intros k Hk. apply (kind_same w); [apply HS; apply in_or_app; auto|]. apply HKh.
        rewrite Hheld in Hk. destruct ss as [|s2 r]; [destruct Hk|]. cbn. apply in_or_app. auto.
    + destruct (IH Hb HFu HSu ss w j ss1 w1 out Hh HKh E) as [K1 K2].
      destruct (pull_inv nan decoder_of problem_of w0 up Hb ss w j ss1 w1 out Hh E) as [HI1 HS1].
      assert (Hj : j < w_nind w1) by (destruct HI1 as (_ & _ & _ & _ & _ & HH); apply HH; left; auto).
      apply inv_drop in HI1. destruct (clone_inv _ _ _ _ _ _ HI1 Hj EC) as [HI2 HS2].
      split; auto. intros k Hk. apply (kind_same w1); auto. apply HS2, in_or_app; auto.
  - (* mutate *)
    destruct (pull up ss w) as [[[j ss1] w1]|e] eqn:E; [|discriminate].
    destruct (mutate_ind (f (s_done s)) w1 j) as [[u|e] w2] eqn:EM; [|discriminate]. injection HP as <- <- <-.
    cbn [held flat_map tick s_second app]. fold (held ss1).
    destruct (IH HB HFu HSu ss w j ss1 w1 out Hh HKh E) as [K1 K2].
    destruct (pull_inv nan decoder_of problem_of w0 up HB ss w j ss1 w1 out Hh E) as [HI1 HS1].
    apply mutate_ind_spec in EM. destruct EM as (ip & fr & Ef & _ & Eg & M1 & Ep & Ed & _ & _ & Er & M2 & M3 & _ & M4 & M5).
    destruct (inv_touch _ _ w2 _ _ HI1 M1 M5 M2 M3 M4) as [HI2 HS2]. split.
    + destruct K1 as (KD & Kp & Kd & Kr). unfold kind. rewrite Eg, Ep, Ed, Er. repeat split; auto.
      apply (Ho (s_done s) (genes w1 j)); auto.
    + intros k Hk. apply (kind_same w1); auto. apply HS2, in_or_app; auto.
  - (* crossover *)
    destruct (s_second s) as [j|] eqn:Es.
    + injection HP as <- <- <-. cbn [held flat_map tick s_second app]. fold (held ss).
      split; auto. apply HK. cbn. rewrite Es. left. auto.
    + destruct (pull up ss w) as [[[j ss1] w1]|e] eqn:E; [|discriminate].
      destruct (pull up ss1 w1) as [[[j2 ss2] w2]|e] eqn:E2; [|discriminate].
      destruct (IH HB HFu HSu ss w j ss1 w1 out Hh HKh E) as [K1 K2].
      destruct (pull_inv nan decoder_of problem_of w0 up HB ss w j ss1 w1 out Hh E) as [HI1 HS1].
      destruct (IH HB HFu HSu ss1 w1 j2 ss2 w2 (j :: out) HI1 K2 E2) as [K3 K4].
      destruct (pull_inv nan decoder_of problem_of w0 up HB ss1 w1 j2 ss2 w2 (j :: out) HI1 E2) as [HI2 HS2].
      assert (K5 : kind w2 j) by (apply (kind_same w1); auto; apply HS2; left; auto).
      assert (HI3 : inv w0 w2 (j :: j2 :: out ++ held ss2)).
      { eapply inv_perm; [|exact HI2]. apply perm_swap. }
      unfold xover_pair in HP. destruct (skip (s_done s)).
      * injection HP as <- <- <-. cbn [held flat_map s_second app]. fold (held ss2). split; auto.
        intros k [<-|Hk]; auto.
      * destruct (recombine_ind (f (s_done s)) fresh w2 j j2) as [[u|e] w3] eqn:ER; [|discriminate].
        injection HP as <- <- <-. cbn [held flat_map s_second app]. fold (held ss2).
        assert (Hne : j <> j2 /\ i_genome (w_ind w2 j) <> i_genome (w_ind w2 j2)).
        { destruct HI3 as (_ & _ & _ & D1 & D2 & _). split.
          - intros ->. apply NoDup_cons_iff in D1. apply D1. left. auto.
          - intros C. cbn [map] in D2. apply NoDup_cons_iff in D2. apply D2. left. auto. }
        destruct Hne as [Hne Hng]. apply recombine_ind_spec in ER; auto.
        destruct ER as (g1 & g2 & Ef & _ & _ & Eg & _ & _ & Ek & R1 & R2 & R3 & _ & R4 & R5).
        destruct (inv_touch2 _ _ w3 _ _ _ HI3 R1 R5 R2 R3 R4) as [HI4 HS4].
        destruct (Eg (or_intror Hng)) as [Eg1 Eg2].
        destruct K5 as (KD & Kp & Kd & Kr). destruct K3 as (KD2 & Kp2 & Kd2 & Kr2).
        destruct (Ho (s_done s) (genes w2 j) (genes w2 j2) g1 g2 KD KD2 Ef) as [HD1 HD2].
        destruct (Ek j (or_introl eq_refl)) as (Ek1 & Ek2 & _ & Ek3).
        destruct (Ek j2 (or_intror eq_refl)) as (Ek4 & Ek5 & _ & Ek6). split.
        -- unfold kind. rewrite Eg1, Ek1, Ek2, Ek3. auto.
        -- intros k [<-|Hk]; [unfold kind; rewrite Eg2, Ek4, Ek5, Ek6; auto|].
           apply (kind_same w2); auto. apply HS4, in_or_app; auto.
  - (* evaluate *)
    destruct (pull up ss w) as [[[j ss1] w1]|e] eqn:E; [|discriminate].
    destruct (evaluate nan decoder_of problem_of w1 j) as [[u|e] w2] eqn:EM; [|discriminate]. injection HP as <- <- <-.
    cbn [held flat_map tick s_second app]. fold (held ss1).
    destruct (IH HB HFu HSu ss w j ss1 w1 out Hh HKh E) as [K1 K2].
    destruct (pull_inv nan decoder_of problem_of w0 up HB ss w j ss1 w1 out Hh E) as [HI1 HS1].
    apply evaluate_spec in EM. destruct EM as (V1 & V2 & V3 & V4 & V5 & V6 & V7 & V8 & _ & _ & V9 & _).
    destruct (inv_touch _ _ w2 _ _ HI1 V5) as [HI2 HS2]; try lia; auto.
    { intros. rewrite V1. auto. }
    split.
    + destruct K1 as (KD & Kp & Kd & Kr). unfold kind, genes. rewrite V1, V6, V7, V8, V9. auto.
    + intros k Hk. apply (kind_same w1); auto. apply HS2, in_or_app; auto.
Qed.

Lemma pool_kind n : forall stack, breeding (w_nind w0) stack -> Forall (stays_within D) stack -> sources_ok stack ->
  forall sts w out sts' w' before,
  inv w0 w (before ++ held sts) -> (forall j, In j (held sts) -> kind w j) -> pool n stack sts w = Ok (out, sts', w') ->
  forall i, In i out -> kind w' i.
Proof.
  induction n as [|n IH]; intros stack HB HF HS sts w out sts' w' before HI HK HP i Hi; cbn in HP.
  - injection HP as <- <- <-. destruct Hi.
  - destruct (pull stack sts w) as [[[k sts1] w1]|e] eqn:E; [|discriminate].
    destruct (pool n stack sts1 w1) as [[[r sts2] w2]|e] eqn:E2; [|discriminate]. injection HP as <- <- <-.
    destruct (pull_kind stack HB HF HS sts w k sts1 w1 before HI HK E) as [K1 K2].
    destruct (pull_inv nan decoder_of problem_of w0 stack HB sts w k sts1 w1 before HI E) as [HI1 HS1].
    destruct Hi as [<-|Hi].
    + destruct (pool_inv nan decoder_of problem_of w0 n stack HB sts1 w1 r sts2 w2 (k :: before) HI1 E2) as [_ HS2].
      apply (kind_same w1); auto. apply HS2. left. auto.
    + eapply (IH stack HB HF HS sts1 w1 r sts2 w2 (k :: before)); eauto.
Qed.

(** ** nothing raises *)
Hypothesis scored : robust = true \/ forall g, D g -> exists f, score (decoder_of decoder) (problem_of problem) g = Ok f.

Lemma evaluate_works w i : kind w i -> exists f w', evaluate nan decoder_of problem_of w i = (Ok f, w').
Proof.
  intros (KD & Kp & Kd & Kr). destruct (evaluate nan decoder_of problem_of w i) as [r w'] eqn:E.
  apply evaluate_spec in E. destruct E as (_ & _ & _ & _ & _ & _ & _ & _ & _ & _ & _ & E).
  rewrite Kp, Kd, Kr in E. destruct scored as [Hr|Hs].
  - rewrite Hr in E. destruct (score _ _ _); destruct E as (-> & _); eauto.
  - destruct (Hs _ KD) as [f Ef]. rewrite Ef in E. destruct E as (-> & _). eauto.
Qed.

Definition picks_ok (o : op G) : Prop :=
  match o with OpSelect pop pick => forall k, pick k < length pop | OpIter _ => False | _ => True end.

Lemma pull_works stack : breeding (w_nind w0) stack -> Forall (stays_within D) stack -> Forall (works_on D) stack ->
  Forall picks_ok stack -> sources_ok stack ->
  forall sts w out, length sts = length stack ->
  inv w0 w (out ++ held sts) -> (forall j, In j (held sts) -> kind w j) ->
  exists i sts' w', pull stack sts w = Ok (i, sts', w') /\ length sts' = length stack.
Proof.
  induction stack as [|o up IH]; intros HB HF HW HPk HSo; [destruct HB|].
  pose proof (Forall_inv HW) as Ho. apply Forall_inv_tail in HW.
  pose proof (Forall_inv_tail HF) as HFu. apply Forall_inv_tail in HPk.
  assert (HSu : sources_ok up) by (intros o' j H1 H2; apply (HSo o' j); auto; right; auto).
  intros sts w out HL HI HK. destruct sts as [|s ss]; [discriminate|].
  assert (HLs : length ss = length up) by (cbn in HL; lia).
  assert (Hh : inv w0 w (out ++ held ss)).
  { cbn in HI. destruct (s_second s); auto. cbn in HI.
    eapply inv_drop. eapply inv_perm; [apply perm_to_front|]. exact HI. }
  assert (HKh : forall j, In j (held ss) -> kind w j).
  { intros j Hj. apply HK. cbn. apply in_or_app. right. exact Hj. }
  destruct o as [items|pop pick| |f quiet|skip f fresh| ]; try (destruct HB; fail); cbn [Pipeline.pull].
  - assert (Hup : exists i sts' w', pull up ss w = Ok (i, sts', w') /\ length sts' = length up).
    { cbn in HB. destruct up as [|o [|o2 r]]; [destruct HB| |].
      - destruct o; try (apply (IH HB HFu HW HPk HSu ss w out); auto; fail).
        + destruct (Forall_inv HPk).
        + destruct ss as [|s2 [|]]; try discriminate. cbn [Pipeline.pull].
          destruct (nth_error population (pick (s_done s2))) eqn:E.
          * eexists _, _, _. split; [reflexivity|]. auto.
          * apply nth_error_None in E. pose proof (Forall_inv HPk (s_done s2)). cbn in *. lia.
      - apply (IH ltac:(destruct o; exact HB) HFu HW HPk HSu ss w out); auto. }
    destruct Hup as (i & ss' & w1 & -> & Hl). destruct (clone w1 i) as [c w2].
    eexists _, _, _. split; [reflexivity|]. cbn. auto.
  - destruct (IH HB HFu HW HPk HSu ss w out HLs Hh HKh) as (i & ss' & w1 & E & Hl). rewrite E.
    destruct (pull_kind up HB HFu HSu ss w i ss' w1 out Hh HKh E) as [(KD & _) _].
    unfold mutate_ind. destruct (Ho (s_done s) (genes w1 i) KD) as [[a b] ->].
    eexists _, _, _. split; [reflexivity|]. cbn. auto.
  - destruct (s_second s) as [j|] eqn:Es.
    + eexists _, _, _. split; [reflexivity|]. cbn. auto.
    + destruct (IH HB HFu HW HPk HSu ss w out HLs Hh HKh) as (i & ss' & w1 & E & Hl). rewrite E.
      destruct (pull_kind up HB HFu HSu ss w i ss' w1 out Hh HKh E) as [K1 K2].
      destruct (pull_inv nan decoder_of problem_of w0 up HB ss w i ss' w1 out Hh E) as [HI1 HS1].
      destruct (IH HB HFu HW HPk HSu ss' w1 (i :: out) Hl HI1 K2) as (j & ss2 & w2 & E2 & Hl2). rewrite E2.
      destruct (pull_kind up HB HFu HSu ss' w1 j ss2 w2 (i :: out) HI1 K2 E2) as [(KD2 & _) K4].
      destruct (pull_inv nan decoder_of problem_of w0 up HB ss' w1 j ss2 w2 (i :: out) HI1 E2) as [HI2 HS2].
      assert (K5 : kind w2 i) by (apply (kind_same w1); auto; apply HS2; left; auto).
      destruct K5 as (KD & _). unfold xover_pair. destruct (skip (s_done s)).
      * eexists _, _, _. split; [reflexivity|]. cbn. auto.
      * unfold recombine_ind. destruct (Ho (s_done s) (genes w2 i) (genes w2 j) KD KD2) as [[a b] ->].
        eexists _, _, _. split; [reflexivity|]. cbn. auto.
  - destruct (IH HB HFu HW HPk HSu ss w out HLs Hh HKh) as (i & ss' & w1 & E & Hl). rewrite E.
    destruct (pull_kind up HB HFu HSu ss w i ss' w1 out Hh HKh E) as [K1 _].
    destruct (evaluate_works w1 i K1) as (f & w2 & ->). eexists _, _, _. split; [reflexivity|]. cbn. auto.
Qed.

Lemma pool_works n : forall stack, breeding (w_nind w0) stack -> Forall (stays_within D) stack -> Forall (works_on D) stack ->
  Forall picks_ok stack -> sources_ok stack ->
  forall sts w before, length sts = length stack ->
  inv w0 w (before ++ held sts) -> (forall j, In j (held sts) -> kind w j) ->
  exists out sts' w', pool n stack sts w = Ok (out, sts', w').
Proof.
  induction n as [|n IH]; intros stack HB HF HW HPk HS sts w before HL HI HK; cbn; [eauto|].
  destruct (pull_works stack HB HF HW HPk HS sts w before HL HI HK) as (i & sts1 & w1 & E & HL1). rewrite E.
  destruct (pull_kind stack HB HF HS sts w i sts1 w1 before HI HK E) as [K1 K2].
  destruct (pull_inv nan decoder_of problem_of w0 stack HB sts w i sts1 w1 before HI E) as [HI1 HS1].
  destruct (IH stack HB HF HW HPk HS sts1 w1 (i :: before) HL1 HI1 K2) as (out & sts2 & w2 & ->). eauto.
Qed.
End Kind.

(** ** the run *)
Section Run.
Context {G P : Type}.
Variable decoder_of : nat -> option (list G -> result P).
Variable problem_of : nat -> phen_value G P -> result num.
Implicit Types w : world G P num.
Variable D : list G -> Prop.
Variable problem decoder : nat.
Variable robust : bool.
Notation kind := (kind D problem decoder robust).
Definition value w (i : nat) : num := outcome NNan (score (decoder_of decoder) (problem_of problem) (genes w i)).

(** a population of separate, evaluated individuals *)
Definition good w (l : list nat) : Prop :=
  NoDup l /\ NoDup (map (fun i => i_genome (w_ind w i)) l) /\
  forall i, In i l -> i < w_nind w /\ i_genome (w_ind w i) < w_narr w /\ kind w i /\
    i_fitness (w_ind w i) = Some (value w i).

Definition grows w w' : Prop := w_nind w <= w_nind w' /\ w_narr w <= w_narr w' /\ untouched w w'.

Lemma grows_refl w : grows w w.
Proof. repeat split; auto. Qed.
Lemma grows_trans a b c : grows a b -> grows b c -> grows a c.
Proof.
  intros (A1 & A2 & A3 & A4) (B1 & B2 & B3 & B4). repeat split; try lia.
  - intros i Hi. rewrite B3 by lia. auto.
  - intros i Hi. rewrite B4 by lia. auto.
Qed.
Lemma grows_same w w' i : grows w w' -> i < w_nind w -> i_genome (w_ind w i) < w_narr w -> same_object w w' i.
Proof. intros (_ & _ & H1 & H2) A B. split; auto. unfold genes. rewrite H1 by auto. auto. Qed.

Lemma good_grows w w' l : grows w w' -> good w l -> good w' l.
Proof.
  intros HG (H1 & H2 & H3).
  assert (HS : forall i, In i l -> same_object w w' i).
  { intros i Hi. destruct (H3 i Hi) as (A & B & _). apply grows_same; auto. }
  split; auto. split.
  - erewrite map_ext_in; [exact H2|]. intros i Hi. cbn. destruct (HS i Hi) as [-> _]. auto.
  - intros i Hi. destruct (H3 i Hi) as (A & B & C & E). pose proof (HS i Hi) as S. destruct S as [S1 S2].
    destruct HG as (L1 & L2 & _). rewrite S1. unfold value. rewrite S2. repeat split; try lia; auto.
    + rewrite S2. apply C.
    + rewrite S1. apply C.
    + rewrite S1. apply C.
    + rewrite S1. apply C.
Qed.

Lemma value_grows w w' i l : grows w w' -> good w l -> In i l -> value w' i = value w i.
Proof.
  intros HG (_ & _ & H3) Hi. destruct (H3 i Hi) as (A & B & _). destruct (grows_same w w' i HG A B) as [_ E].
  unfold value. rewrite E. auto.
Qed.

Lemma compared_good w l : good w l -> compared w l = Some (map (fun i => mk_sind i (value w i)) l).
Proof.
  intros (_ & _ & H). induction l as [|i l IH]; cbn; auto.
  destruct (H i (or_introl eq_refl)) as (_ & _ & _ & ->). rewrite IH; auto. intros j Hj. apply H. right. auto.
Qed.

(** created and evaluated *)
Lemma create_all_spec initialize n : forall k w l w',
  create_all initialize problem decoder robust n k w = (l, w') ->
  length l = n /\ grows w w' /\ NoDup l /\ NoDup (map (fun i => i_genome (w_ind w' i)) l) /\
  forall i, In i l -> w_nind w <= i < w_nind w' /\ w_narr w <= i_genome (w_ind w' i) < w_narr w' /\
    (exists m, genes w' i = initialize m) /\
    i_problem (w_ind w' i) = problem /\ i_decoder (w_ind w' i) = decoder /\ i_robust (w_ind w' i) = robust.
Proof.
  induction n as [|n IH]; intros k w l w' H.
  - cbn in H. injection H as <- <-. repeat split; auto; try constructor; contradiction.
  - cbn [create_all] in H. unfold new_arr, create in H. cbn [w_nind w_narr w_ind w_arr w_uuid] in H.
    set (w2 := mk_world _ _ _ _ _) in H.
    destruct (create_all initialize problem decoder robust n (S k) w2) as [r w3] eqn:E.
    injection H as <- <-. apply IH in E. destruct E as (L & HG & N1 & N2 & HA).
    assert (HG2 : grows w w2).
    { unfold w2. split; [cbn; lia|]. split; [cbn; lia|]. split; intros; cbn; apply upd_other; lia. }
    assert (Hs : same_object w2 w3 (w_nind w)).
    { apply grows_same; [exact HG| |]; unfold w2; cbn; [lia|]. rewrite upd_same. cbn. lia. }
    destruct Hs as [S1 S2].
    split; [cbn; lia|]. split; [eapply grows_trans; eauto|]. split.
    { constructor; auto. intros C. destruct (HA _ C) as (A & _). unfold w2 in A. cbn in A. lia. }
    split.
    { cbn [map]. constructor; auto. rewrite S1. unfold w2. cbn. rewrite upd_same. cbn. intros C.
      apply in_map_iff in C. destruct C as (j & Ej & Hj). destruct (HA j Hj) as (_ & B & _). unfold w2 in B. cbn in B. lia. }
    destruct HG as (G1 & G2 & _). unfold w2 in G1, G2. cbn in G1, G2.
    intros i [<-|Hi].
    + assert (Eg : genes w3 (w_nind w) = initialize k).
      { rewrite S2. unfold w2, genes. cbn. rewrite upd_same. cbn. rewrite upd_same. auto. }
      rewrite S1. unfold w2. cbn. rewrite upd_same. cbn.
      split; [lia|]. split; [lia|]. split; [exists k; exact Eg|auto].
    + destruct (HA i Hi) as (A & B & C & K). unfold w2 in A, B. cbn in A, B. repeat split; try lia; auto; apply K.
Qed.

Lemma evaluate_sizes l : forall w u w', evaluate_population NNan decoder_of problem_of w l = (u, w') ->
  w_nind w' = w_nind w /\ w_narr w' = w_narr w /\ forall j, i_robust (w_ind w' j) = i_robust (w_ind w j).
Proof.
  induction l as [|i l IH]; intros w u w' H; cbn in H; [injection H as _ <-; auto|].
  destruct (evaluate NNan decoder_of problem_of w i) as [[f|e] w1] eqn:E.
  - apply evaluate_spec in E. destruct E as (_ & E1 & E2 & _ & E3 & _ & _ & _ & _ & _ & E4 & _).
    apply IH in H. destruct H as (H1 & H2 & H3). repeat split; try lia. intros j. rewrite H3.
    destruct (Nat.eq_dec j i) as [->|]; auto. rewrite E3; auto.
  - injection H as _ <-. apply evaluate_spec in E. destruct E as (_ & E1 & E2 & _ & E3 & _ & _ & _ & _ & _ & E4 & _).
    repeat split; try lia. intros j. destruct (Nat.eq_dec j i) as [->|]; auto. rewrite E3; auto.
Qed.

Lemma initial_good initialize n w l w1 u w2 :
  (forall k, D (initialize k)) ->
  create_all initialize problem decoder robust n 0 w = (l, w1) ->
  evaluate_population NNan decoder_of problem_of w1 l = (Ok u, w2) ->
  length l = n /\ good w2 l /\ grows w w2.
Proof.
  intros HD HC HE. apply create_all_spec in HC. destruct HC as (L & HG & N1 & N2 & HA).
  pose proof (evaluate_sizes _ _ _ _ HE) as (Z1 & Z2 & Z3).
  apply evaluate_population_spec in HE. destruct HE as (E1 & E2 & E3 & E4).
  assert (Eg : forall i, genes w2 i = genes w1 i).
  { intros i. unfold genes. rewrite E1. destruct (E3 i) as (-> & _). auto. }
  split; auto. split.
  - split; auto. split.
    + erewrite map_ext; [exact N2|]. intros i. cbn. apply E3.
    + intros i Hi. destruct (HA i Hi) as (A & B & (m & C) & K1 & K2 & K3). destruct (E3 i) as (F1 & F2 & F3).
      rewrite F1, Z1, Z2. repeat split; try lia.
      * rewrite Eg, C. auto.
      * rewrite Z3. auto.
      * rewrite (E4 i Hi). unfold value. rewrite Eg, K1, K2. auto.
  - destruct HG as (G1 & G2 & G3 & G4). repeat split; try lia.
    + intros i Hi. rewrite E2; auto. intros C. destruct (HA i C). lia.
    + intros a Ha. rewrite E1. auto.
Qed.

(** one generation *)
Variable maximize : bool.
Variable coin : nat -> sind -> sind -> bool.
Variable k_elites : nat.

Lemma stack_breeding w (ops : list (op G)) parents pk : clone_vary_evaluate ops -> (forall i, In i parents -> i < w_nind w) ->
  breeding (w_nind w) (ops ++ [OpSelect parents pk]) /\ exists up, ops ++ [OpSelect parents pk] = OpEval :: up.
Proof.
  intros (between & -> & HF) Hp. split; [|eexists; reflexivity]. cbn [app breeding].
  rewrite <- app_assoc. cbn [app].
  induction between as [|o between IH]; cbn [app breeding]; auto.
  pose proof (Forall_inv HF) as Ho. apply Forall_inv_tail in HF. specialize (IH HF).
  destruct o; try discriminate; cbn [breeding]; auto.
  destruct between as [|o2 between]; cbn [app] in *; [exact IH|].
  destruct o2; cbn [app] in *; auto; try (destruct between; exact IH).
Qed.

Lemma generation_good i w parents ops pk size offspring sts w1 :
  good w parents -> clone_vary_evaluate ops -> Forall (stays_within D) ops ->
  let stack := ops ++ [OpSelect parents pk] in
  pool NNan decoder_of problem_of size stack (start stack) w = Ok (offspring, sts, w1) ->
  grows w w1 /\ length offspring = size /\
  exists survivors, survive maximize coin k_elites i w1 offspring parents = Ok survivors /\
    length survivors = size /\ good w1 survivors /\ good w1 offspring /\ good w1 parents /\
    survivors = map si_id (fst (elitist_survival (ind_lt maximize (coin i)) (ind_gt maximize (coin i)) ind_eq
        (map (fun j => mk_sind j (value w1 j)) offspring) (map (fun j => mk_sind j (value w1 j)) parents) k_elites)) /\
    part_of (fst (elitist_survival (ind_lt maximize (coin i)) (ind_gt maximize (coin i)) ind_eq
        (map (fun j => mk_sind j (value w1 j)) offspring) (map (fun j => mk_sind j (value w1 j)) parents) k_elites))
        (map (fun j => mk_sind j (value w1 j)) (offspring ++ parents)).
Proof.
  intros HG HC HF stack HP.
  destruct (stack_breeding w ops parents pk HC) as [HB [up Eup]]; [intros j Hj; apply HG; auto|]. fold stack in HB, Eup.
  assert (I0 : inv w w ([] ++ held (start stack))) by (rewrite held_start; apply inv_init).
  destruct (pool_inv NNan decoder_of problem_of w size stack HB _ _ _ _ _ [] I0 HP) as [I1 _]. cbn [app] in I1.
  assert (HFs : Forall (stays_within D) stack).
  { unfold stack. apply Forall_app. split; auto. constructor; [exact I|constructor]. }
  assert (HSo : sources_ok D problem decoder robust w stack).
  { intros o j Ho Hj. unfold stack in Ho. apply in_app_or in Ho. destruct Ho as [Ho|[<-|[]]].
    - destruct HC as (between & -> & HFb). destruct Ho as [<-|Ho]; [destruct Hj|].
      apply in_app_or in Ho. destruct Ho as [Ho|[<-|[]]]; [|destruct Hj].
      rewrite Forall_forall in HFb. specialize (HFb o Ho). destruct o; try discriminate; destruct Hj.
    - cbn in Hj. destruct HG as (_ & _ & HG). destruct (HG j Hj) as (A & B & C & _). auto. }
  assert (HK : forall j, In j offspring -> kind w1 j).
  { eapply (pool_kind NNan decoder_of problem_of D problem decoder robust w size stack HB HFs HSo (start stack) w offspring sts w1 []); auto.
    rewrite held_start. intros j []. }
  assert (Hgrow : grows w w1) by (destruct I1 as (A & B & C & _); repeat split; auto; apply C).
  assert (Hsc : forall j, In j offspring -> i_fitness (w_ind w1 j) = Some (value w1 j)).
  { intros j Hj. rewrite Eup in HB, HP. rewrite (pool_scores NNan decoder_of problem_of up size w offspring sts w1 HB HP j Hj).
    destruct (HK j Hj) as (_ & -> & -> & _). auto. }
  assert (Hoff : good w1 offspring).
  { destruct I1 as (_ & _ & _ & D1 & D2 & HI). split; [eapply NoDup_app_l; eauto|].
    split; [rewrite map_app in D2; eapply NoDup_app_l; eauto|].
    intros j Hj. destruct (HI j) as [A B]; [apply in_or_app; auto|]. repeat split; try lia; auto; apply HK; auto. }
  assert (Hpar : good w1 parents) by (eapply good_grows; eauto).
  assert (Hlen : length offspring = size).
  { assert (Hsh : pipeline_shape stack).
    { unfold stack. destruct HC as (between & -> & HFb).
      assert (Hns : Forall (fun o : op G => is_source o = false) (OpEval :: between ++ [OpClone])).
      { constructor; auto. apply Forall_app. split; auto. }
      clear - Hns. induction Hns as [|o l H Hl IH]; cbn [app]; [reflexivity|].
      cbn [pipeline_shape]. destruct (l ++ [OpSelect parents pk]) eqn:E; [destruct l; discriminate|]. auto. }
    destruct (pool_demand NNan decoder_of problem_of stack size 0 w offspring sts w1 [] sts w1 Hsh HP eq_refl) as (L & _). auto. }
  split; auto. split; auto. unfold survive. rewrite (compared_good _ _ Hoff), (compared_good _ _ Hpar).
  set (o := map (fun j => mk_sind j (value w1 j)) offspring).
  set (p := map (fun j => mk_sind j (value w1 j)) parents).
  set (s := fst (elitist_survival _ _ _ o p k_elites)).
  assert (Hpart : part_of s (o ++ p)) by apply elitist_part.
  assert (Hids : part_of (map si_id s) (offspring ++ parents)).
  { apply (part_map si_id) in Hpart. unfold o, p in Hpart. rewrite map_app, !map_map in Hpart. cbn in Hpart.
    rewrite !map_id in Hpart. auto. }
  assert (Hdis : forall j, In j offspring -> ~ In j parents).
  { intros j Hj C. destruct I1 as (_ & _ & _ & _ & _ & HI). destruct (HI j) as [A _]; [apply in_or_app; auto|].
    destruct HG as (_ & _ & HG). destruct (HG j C) as (B & _). lia. }
  exists (map si_id s). split; auto. split.
  { rewrite map_length. unfold s. rewrite elitist_length. unfold o. rewrite map_length. auto. }
  split; [|split; [auto|split; [auto|split; [auto|unfold o, p in Hpart; rewrite map_app; auto]]]].
  split; [|split].
  - eapply part_NoDup; eauto. apply NoDup_join; auto; [apply Hoff|apply Hpar].
  - eapply part_NoDup; [apply part_map; exact Hids|]. rewrite map_app. apply NoDup_join; [apply Hoff|apply Hpar|].
    intros a Ha Hb. apply in_map_iff in Ha, Hb. destruct Ha as (j1 & <- & H1), Hb as (j2 & E & H2).
    destruct I1 as (_ & _ & U & _ & _ & HI). destruct (HI j1) as [_ A]; [apply in_or_app; auto|].
    destruct HG as (_ & _ & HG). destruct (HG j2 H2) as (B1 & B2 & _). destruct U as [U1 _].
    rewrite U1 in E by auto. lia.
  - intros j Hj. assert (Hin : In j (offspring ++ parents)) by (eapply part_in; eauto).
    apply in_app_or in Hin. destruct Hin; [apply Hoff|apply Hpar]; auto.
Qed.

(** whole runs *)
Variable max_generations : Z.
Variable size : nat.
Variable operators : nat -> list (op G).
Variable pick : nat -> world G P num -> list nat -> nat -> nat.
Variable stop : nat -> world G P num -> list nat -> bool.
Notation ea_loop := (ea_loop decoder_of problem_of maximize coin max_generations k_elites size operators pick stop).

Definition no_worse w (p q : list nat) : Prop :=
  forall x, In x p -> exists y, In y q /\ ~ better maximize (value w x) (value w y).
Definition chain w (pops : list (list nat)) : Prop :=
  forall j p q, nth_error pops j = Some p -> nth_error pops (S j) = Some q -> no_worse w p q.

Hypothesis Hops : forall i, clone_vary_evaluate (operators i) /\ Forall (stays_within D) (operators i).

Lemma loop_spec : forall fuel i gc w earlier parents final w' pops gc',
  Forall (good w) (earlier ++ [parents]) ->
  ea_loop fuel i gc w earlier parents = Some (Ok (final, w', pops), gc') ->
  grows w w' /\ Forall (good w') (pops ++ [final]) /\
  exists later, pops ++ [final] = (earlier ++ [parents]) ++ later /\ Forall (fun p => length p = size) later /\
    gc_curr gc' = (gc_curr gc + Z.of_nat (length later))%Z /\ (gc_ctx gc = gc_curr gc -> gc_ctx gc' = gc_curr gc') /\
    (1 <= k_elites -> 1 <= size ->
     (forall g h m, D g -> D h ->
        let f := outcome NNan (score (decoder_of decoder) (problem_of problem) g) in
        let f' := outcome NNan (score (decoder_of decoder) (problem_of problem) h) in
        blurred f f' -> ~ better m f f') ->
     chain w (earlier ++ [parents]) -> chain w' (pops ++ [final])).
Proof.
  induction fuel as [|fuel IH]; intros i gc w earlier parents final w' pops gc' HG H; cbn [HeapEa.ea_loop] in H.
  - destruct (gc_generation gc <? max_generations)%Z; [destruct (stop i w parents); [|discriminate]|];
      injection H as <- <- <- <-; (split; [apply grows_refl|]; split; [auto|]; exists []; rewrite app_nil_r;
      repeat split; auto; cbn; lia).
  - destruct (gc_generation gc <? max_generations)%Z.
    2:{ injection H as <- <- <- <-; (split; [apply grows_refl|]; split; [auto|]; exists []; rewrite app_nil_r;
        repeat split; auto; cbn; lia). }
    destruct (stop i w parents).
    { injection H as <- <- <- <-; (split; [apply grows_refl|]; split; [auto|]; exists []; rewrite app_nil_r;
        repeat split; auto; cbn; lia). }
    set (stack := operators i ++ [OpSelect parents (pick i w parents)]) in H.
    destruct (pool NNan decoder_of problem_of size stack (start stack) w) as [[[offspring sts] w1]|e] eqn:EP; [|discriminate].
    destruct (Hops i) as [Hc Hs].
    assert (HGp : good w parents) by (apply Forall_app in HG; destruct HG as [_ HG]; apply Forall_inv in HG; auto).
    destruct (generation_good i w parents _ _ _ _ _ _ HGp Hc Hs EP) as (Hgr & Lo & surv & Es & Ls & Gs & Go & Gp & Eq & Hpart).
    rewrite Es in H.
    assert (HG1 : Forall (good w1) (earlier ++ [parents])).
    { eapply Forall_impl; [|exact HG]. intros l. apply good_grows. auto. }
    apply IH in H; [|apply Forall_app; split; auto].
    destruct H as (Hgr2 & HGf & later & E & HL & Hgc & Hctx & Hch).
    split; [eapply grows_trans; eauto|]. split; auto.
    exists (surv :: later). split; [rewrite E, <- !app_assoc; reflexivity|]. split; [constructor; auto|].
    split; [cbn [length]; cbn [gc_increment snd gc_curr] in Hgc; lia|].
    split; [intros _; apply Hctx; reflexivity|].
    intros Hk Hsz Hb Hchain. apply Hch; auto.
    intros j p q Hp Hq.
    set (L := earlier ++ [parents]) in *.
    destruct (lt_dec (S j) (length L)) as [Hlt|Hge].
    + rewrite nth_error_app1 in Hp, Hq by lia.
      intros x Hx. destruct (Hchain j p q Hp Hq x Hx) as (y & Hy & Hnb).
      exists y. split; auto. rewrite Forall_forall in HG.
      rewrite (value_grows w w1 x p), (value_grows w w1 y q); auto; apply HG; eapply nth_error_In; eauto.
    + assert (Hjl : S j = length L).
      { assert (S j < length (L ++ [surv])) by (apply nth_error_Some; congruence).
        rewrite app_length in H. cbn in H. lia. }
      rewrite nth_error_app2 in Hq by lia. rewrite Hjl, Nat.sub_diag in Hq. injection Hq as <-.
      rewrite nth_error_app1 in Hp by lia. unfold L in Hp, Hjl. rewrite app_length in Hjl. cbn in Hjl.
      rewrite nth_error_app2 in Hp by lia. replace (j - length earlier) with 0 in Hp by lia. injection Hp as <-.
      intros x Hx.
      set (o := map (fun j => mk_sind j (value w1 j)) offspring) in *.
      set (p' := map (fun j => mk_sind j (value w1 j)) parents) in *.
      assert (Hsharp : sharp (map si_fit (o ++ p'))).
      { assert (HD : forall f, In f (map si_fit (o ++ p')) -> exists g, D g /\
                  f = outcome NNan (score (decoder_of decoder) (problem_of problem) g)).
        { intros f Hf. unfold o, p' in Hf. rewrite <- map_app, map_map in Hf. cbn in Hf. apply in_map_iff in Hf.
          destruct Hf as (j1 & <- & Hj1). exists (genes w1 j1). split; auto. apply in_app_or in Hj1.
          destruct Hj1 as [Hj1|Hj1]; [destruct Go as (_ & _ & Gm)|destruct Gp as (_ & _ & Gm)];
            destruct (Gm j1 Hj1) as (_ & _ & (K & _) & _); auto. }
        intros f f' m Hf Hf'. destruct (HD f Hf) as (g & Dg & ->), (HD f' Hf') as (h & Dh & ->). apply Hb; auto. }
      assert (Hne : o <> []).
      { intros C. unfold o in C. apply map_eq_nil in C. rewrite C in Lo. cbn in Lo. lia. }
      destruct (elitist_keeps_best maximize (coin i) o p' k_elites Hsharp Hk Hne) as (_ & _ & Hkb).
      destruct (Hkb (mk_sind x (value w1 x))) as (y & Hy & Hnb).
      { apply in_or_app. right. unfold p'. apply (in_map (fun j => mk_sind j (value w1 j))). auto. }
      exists (si_id y). rewrite Eq. split; [apply in_map; auto|].
      assert (Hy2 : In y (map (fun j => mk_sind j (value w1 j)) (offspring ++ parents))) by (eapply part_in; eauto).
      apply in_map_iff in Hy2. destruct Hy2 as (j2 & <- & _). auto.
Qed.

Lemma chain_trans w pops : chain w pops -> forall j1 j2 p1 p2, j1 <= j2 ->
  nth_error pops j1 = Some p1 -> nth_error pops j2 = Some p2 -> no_worse w p1 p2.
Proof.
  intros HC j1 j2 p1 p2 Hle E1. revert p2. induction Hle as [|j2 Hle IH]; intros p2 E2 x Hx.
  - rewrite E1 in E2. injection E2 as <-. exists x. split; [exact Hx|]. apply better_irrefl.
  - assert (Hlt := nth_error_Some_lt _ _ _ E2).
    destruct (nth_error pops j2) as [q|] eqn:Eq; [|apply nth_error_None in Eq; lia].
    destruct (IH q eq_refl x Hx) as (y & Hy & Hxy). destruct (HC j2 q p2 Eq E2 y Hy) as (z & Hz & Hyz).
    exists z. split; auto. eapply nb_trans_num; eassumption.
Qed.

Notation heap_ea initialize pop_size start w :=
  (heap_ea decoder_of problem_of maximize coin max_generations k_elites size operators pick stop
     initialize problem decoder robust pop_size start w).

Lemma run_good initialize pop_size start w final w' earlier gc' :
  (forall k, D (initialize k)) ->
  heap_ea initialize pop_size start w = Some (Ok (final, w', earlier), gc') ->
  let pops := earlier ++ [final] in
  (exists init later, pops = init :: later /\ length init = pop_size /\ Forall (fun p => length p = size) later) /\
  gc_curr gc' = (start + Z.of_nat (length earlier))%Z /\ gc_ctx gc' = gc_curr gc' /\
  untouched w w' /\
  forall p, In p pops -> NoDup p /\ NoDup (map (fun i => i_genome (w_ind w' i)) p) /\
    forall i, In i p -> D (genes w' i) /\
      i_problem (w_ind w' i) = problem /\ i_decoder (w_ind w' i) = decoder /\
      i_fitness (w_ind w' i) = Some (outcome NNan (score (decoder_of decoder) (problem_of problem) (genes w' i))).
Proof.
  intros HD H. unfold HeapEa.heap_ea in H.
  destruct (create_all initialize problem decoder robust pop_size 0 w) as [l w1] eqn:EC.
  destruct (evaluate_population NNan decoder_of problem_of w1 l) as [[u|e] w2] eqn:EE; [|discriminate].
  destruct (initial_good _ _ _ _ _ _ _ HD EC EE) as (L & HG & Hgr).
  apply loop_spec in H; [|constructor; auto]. cbn [app] in H.
  destruct H as (Hgr2 & HGf & later & E & HL & Hgc & Hctx & _). cbn zeta.
  split; [exists l, later; auto|]. cbn [inc_generation gc_curr] in Hgc.
  assert (length earlier = length later).
  { apply (f_equal (@length _)) in E. rewrite app_length in E. cbn in E. lia. }
  split; [lia|]. split; [apply Hctx; reflexivity|]. split; [apply (grows_trans _ _ _ Hgr Hgr2)|].
  intros p Hp. rewrite Forall_forall in HGf. destruct (HGf p Hp) as (A & B & C). repeat split; auto;
    destruct (C i H0) as (_ & _ & K & F); try apply K; auto.
Qed.

Lemma run_monotone initialize pop_size start w final w' earlier gc' :
  (forall k, D (initialize k)) -> 1 <= k_elites -> 1 <= size ->
  (forall g h m, D g -> D h ->
     let f := outcome NNan (score (decoder_of decoder) (problem_of problem) g) in
     let f' := outcome NNan (score (decoder_of decoder) (problem_of problem) h) in
     blurred f f' -> ~ better m f f') ->
  heap_ea initialize pop_size start w = Some (Ok (final, w', earlier), gc') ->
  forall j1 j2 p1 p2, j1 <= j2 ->
  nth_error (earlier ++ [final]) j1 = Some p1 -> nth_error (earlier ++ [final]) j2 = Some p2 ->
  forall x, In x p1 -> exists y, In y p2 /\
    ~ better maximize (outcome NNan (score (decoder_of decoder) (problem_of problem) (genes w' x)))
                      (outcome NNan (score (decoder_of decoder) (problem_of problem) (genes w' y))).
Proof.
  intros HD Hk Hsz Hb H. unfold HeapEa.heap_ea in H.
  destruct (create_all initialize problem decoder robust pop_size 0 w) as [l w1] eqn:EC.
  destruct (evaluate_population NNan decoder_of problem_of w1 l) as [[u|e] w2] eqn:EE; [|discriminate].
  destruct (initial_good _ _ _ _ _ _ _ HD EC EE) as (L & HG & Hgr).
  apply loop_spec in H; [|constructor; auto]. cbn [app] in H.
  destruct H as (Hgr2 & HGf & later & E & HL & Hgc & Hctx & Hch).
  specialize (Hch Hk Hsz Hb).
  assert (HC : chain w' (earlier ++ [final])).
  { apply Hch. intros [|j] p q E1 E2; [discriminate|destruct j; discriminate]. }
  intros j1 j2 p1 p2 Hle E1 E2. exact (chain_trans w' _ HC j1 j2 p1 p2 Hle E1 E2).
Qed.

(** ** runs that do not raise *)
Hypothesis scored : robust = true \/ forall g, D g -> exists f, score (decoder_of decoder) (problem_of problem) g = Ok f.
Hypothesis works : forall i, Forall (works_on D) (operators i).
Hypothesis picks : forall i w l k, l <> [] -> pick i w l k < length l.

Lemma loop_works : 1 <= size -> forall fuel i gc w earlier parents,
  good w parents -> parents <> [] -> (max_generations - gc_curr gc <= Z.of_nat fuel)%Z ->
  exists final w' pops gc', ea_loop fuel i gc w earlier parents = Some (Ok (final, w', pops), gc') /\
    ((forall i w l, stop i w l = false) -> Z.of_nat (length pops) = (Z.of_nat (length earlier) + Z.max 0 (max_generations - gc_curr gc))%Z).
Proof.
  intros Hsz. induction fuel as [|fuel IH]; intros i gc w earlier parents HG Hne Hf; cbn [HeapEa.ea_loop].
  - unfold gc_generation. destruct (Z.ltb_spec (gc_curr gc) max_generations); [lia|].
    eexists _, _, _, _. split; [reflexivity|]. lia.
  - unfold gc_generation. destruct (Z.ltb_spec (gc_curr gc) max_generations) as [Hlt|Hge].
    2:{ eexists _, _, _, _. split; [reflexivity|]. lia. }
    destruct (stop i w parents) eqn:Est.
    { eexists _, _, _, _. split; [reflexivity|]. intros C. rewrite C in Est. discriminate. }
    set (stack := operators i ++ [OpSelect parents (pick i w parents)]).
    destruct (Hops i) as [Hc Hs].
    destruct (stack_breeding w (operators i) parents (pick i w parents) Hc) as [HB _]; [intros j Hj; apply HG; auto|].
    fold stack in HB.
    assert (I0 : inv w w ([] ++ held (start stack))) by (rewrite held_start; apply inv_init).
    assert (HFs : Forall (stays_within D) stack).
    { unfold stack. apply Forall_app. split; auto. constructor; [exact I|constructor]. }
    assert (HWs : Forall (works_on D) stack).
    { unfold stack. apply Forall_app. split; auto. constructor; [exact I|constructor]. }
    assert (Hns : Forall (fun o : op G => is_source o = false) (operators i)).
    { destruct Hc as (between & -> & HFb). constructor; auto. apply Forall_app. split; auto. }
    assert (HPs : Forall picks_ok stack).
    { unfold stack. apply Forall_app. split; [|constructor; [intros k; apply picks; auto|constructor]].
      eapply Forall_impl; [|exact Hns]. intros o Ho. destruct o; try discriminate; exact I. }
    assert (HSo : sources_ok D problem decoder robust w stack).
    { intros o j Ho Hj. unfold stack in Ho. apply in_app_or in Ho. destruct Ho as [Ho|[<-|[]]].
      - rewrite Forall_forall in Hns. specialize (Hns o Ho). destruct o; try discriminate; destruct Hj.
      - cbn in Hj. destruct HG as (_ & _ & HG). destruct (HG j Hj) as (A & B & C & _). auto. }
    destruct (pool_works NNan decoder_of problem_of D problem decoder robust w scored size stack HB HFs HWs HPs HSo
                (start stack) w []) as (offspring & sts & w1 & EP); auto.
    { unfold start. apply map_length. }
    { rewrite held_start. intros j []. }
    rewrite EP.
    destruct (generation_good i w parents _ _ _ _ _ _ HG Hc Hs EP) as (Hgr & Lo & surv & Es & Ls & Gs & _).
    rewrite Es.
    destruct (IH (S i) (snd (gc_increment [] gc)) w1 (earlier ++ [parents]) surv) as (final & w' & pops & gc' & E & HN).
    + auto.
    + intros C. rewrite C in Ls. cbn in Ls. lia.
    + cbn [gc_increment snd gc_curr]. lia.
    + exists final, w', pops, gc'. split; auto. intros Hst. rewrite (HN Hst). cbn [gc_increment snd gc_curr].
      rewrite app_length. cbn [length]. lia.
Qed.

Lemma population_works l : forall w, (forall i, In i l -> kind w i) ->
  exists u w', evaluate_population NNan decoder_of problem_of w l = (Ok u, w').
Proof.
  induction l as [|i l IH]; intros w HK; cbn; [eauto|].
  destruct (evaluate_works NNan decoder_of problem_of D problem decoder robust scored w i (HK i (or_introl eq_refl))) as (f & w1 & E).
  rewrite E. apply evaluate_spec in E. destruct E as (V1 & V2 & V3 & V4 & V5 & V6 & V7 & V8 & _ & _ & V9 & _).
  apply IH. intros j Hj. assert (Hk := HK j (or_intror Hj)). unfold HeapEa.kind, genes in *. rewrite V1.
  destruct (Nat.eq_dec j i) as [->|Hne]; [rewrite V6, V7, V8, V9|rewrite V5 by auto]; auto.
Qed.

Lemma run_works initialize pop_size start w :
  (forall k, D (initialize k)) -> 1 <= pop_size -> 1 <= size ->
  exists final w' earlier gc', heap_ea initialize pop_size start w = Some (Ok (final, w', earlier), gc') /\
    ((forall i w l, stop i w l = false) -> length earlier = Z.to_nat (max_generations - start)).
Proof.
  intros HD Hp Hsz. unfold HeapEa.heap_ea.
  destruct (create_all initialize problem decoder robust pop_size 0 w) as [l w1] eqn:EC.
  pose proof (create_all_spec _ _ _ _ _ _ EC) as (L & HG & N1 & N2 & HA).
  destruct (population_works l w1) as (u & w2 & EE).
  { intros i Hi. destruct (HA i Hi) as (_ & _ & (m & Em) & K). split; [rewrite Em; auto|exact K]. }
  rewrite EE. destruct (initial_good _ _ _ _ _ _ _ HD EC EE) as (_ & HGd & _).
  destruct (loop_works Hsz (Z.to_nat (max_generations - start)) 0 (inc_generation start) w2 [] l HGd) as (final & w' & pops & gc' & E & HN).
  - intros ->. cbn in L. lia.
  - cbn [inc_generation gc_curr]. lia.
  - exists final, w', pops, gc'. split; auto. intros Hst. specialize (HN Hst). cbn [inc_generation gc_curr length] in HN. lia.
Qed.
End Run.

(** ** bit strings *)
From Verif Require Import Model.Variation Model.Problems Spec.Variation Spec.Problems Proofs.Variation Proofs.Problems.

Lemma agreements_ones l : agreements l (repeat 1%Z (length l)) = ones l.
Proof.
  induction l as [|x l IH]; cbn; auto. unfold ones in *. cbn. rewrite IH. destruct (Z.eq_dec x 1); auto.
Qed.

Lemma max_ones_score g : score (no_decoder 0) (max_ones_problem 0) g = Ok (NInt (Z.of_nat (ones g))).
Proof.
  unfold score, no_decoder, max_ones_problem. destruct (max_ones_spec None g I) as (-> & _). cbn [bind target_of].
  rewrite agreements_ones. auto.
Qed.

Lemma bit_ops n expected us skip masks :
  1 <= n -> (0 <= expected)%Q -> (expected <= inject_Z (Z.of_nat n))%Q ->
  (forall k, length (us k) = n) -> (forall k, length (masks k) = n) ->
  let ops := bit_pipeline expected us skip masks in
  clone_vary_evaluate ops /\ Forall (stays_within (bit_string n)) ops /\ Forall (works_on (bit_string n)) ops.
Proof.
  intros Hn H0 H1 Hu Hm ops.
  assert (Hflip : forall k g, bit_string n g -> exists g', genome_mutate_bitflip (Some expected) None (us k) g = Ok g' /\ bit_string n g').
  { intros k g [Hl Hb].
    assert (Hq : (0 < inject_Z (Z.of_nat n))%Q) by (unfold Qlt; cbn; lia).
    destruct (bitflip_full (Some expected) None (us k) g (expected / inject_Z (Z.of_nat n))) as (g' & E & Hb' & Hl' & _); auto.
    - rewrite Hl. apply Hu.
    - right. exists expected. repeat split; auto; [lia|]. rewrite Hl. field. intros C. rewrite C in Hq. discriminate.
    - apply Qle_shift_div_l; auto.
    - apply Qle_shift_div_r; auto. setoid_replace (1 * inject_Z (Z.of_nat n))%Q with (inject_Z (Z.of_nat n)) by ring. auto.
    - exists g'. split; auto. split; [congruence|exact Hb']. }
  assert (Hx : forall k a b, bit_string n a -> bit_string n b ->
    exists c d, uniform_recombine (masks k) a b = Ok (c, d) /\ bit_string n c /\ bit_string n d).
  { intros k a b [La Ba] [Lb Bb]. destruct (uniform_full (masks k) a b) as (c & d & E & (L1 & L2 & _) & HP & _).
    - rewrite Hm. auto.
    - rewrite Hm. auto.
    - exists c, d. split; auto.
      assert (HF : Forall (fun x => x = 0%Z \/ x = 1%Z) (c ++ d)).
      { rewrite Forall_forall in *. intros x Hx. apply (Permutation_in _ HP) in Hx. apply in_app_or in Hx. destruct Hx; auto. }
      apply Forall_app in HF. destruct HF. split; split; auto; congruence. }
  split; [|split].
  - exists [uniform_op skip masks; bitflip_op expected us]. split; auto.
  - constructor; [exact I|]. constructor.
    { intros k a b c d Ha Hb H3. destruct (Hx k a b Ha Hb) as (c' & d' & E & A & B). rewrite E in H3. injection H3 as <- <-. auto. }
    constructor; [|constructor; [exact I|constructor]].
    intros k g ip fr Hg. destruct (Hflip k g Hg) as (g' & E & Hg'). rewrite E. cbn. intros E2. injection E2 as <- <-. exact Hg'.
  - constructor; [exact I|]. constructor.
    { intros k a b Ha Hb. destruct (Hx k a b Ha Hb) as (c & d & E & _). rewrite E. eauto. }
    constructor; [|constructor; [exact I|constructor]].
    intros k g Hg. destruct (Hflip k g Hg) as (g' & E & _). rewrite E. cbn [bind]. eauto.
Qed.

Lemma bit_run n expected us skip masks coin max_generations k_elites size pick stop initialize pop_size start
    (w : world Z unit num) :
  1 <= n -> (0 <= expected)%Q -> (expected <= inject_Z (Z.of_nat n))%Q ->
  (forall i k, length (us i k) = n) -> (forall i k, length (masks i k) = n) ->
  (forall i w l k, l <> [] -> pick i w l k < length l) ->
  (forall k, bit_string n (initialize k)) -> 1 <= pop_size -> 1 <= size -> 1 <= k_elites ->
  exists final w' earlier gc',
    heap_ea no_decoder max_ones_problem true coin max_generations k_elites size
      (fun i => bit_pipeline expected (us i) (skip i) (masks i)) pick stop initialize 0 0 false pop_size start w
      = Some (Ok (final, w', earlier), gc') /\
    ((forall i w l, stop i w l = false) -> length earlier = Z.to_nat (max_generations - start)) /\
    (forall p i, In p (earlier ++ [final]) -> In i p ->
       bit_string n (genes w' i) /\ i_fitness (w_ind w' i) = Some (NInt (Z.of_nat (ones (genes w' i))))) /\
    forall j1 j2 p1 p2, j1 <= j2 ->
      nth_error (earlier ++ [final]) j1 = Some p1 -> nth_error (earlier ++ [final]) j2 = Some p2 ->
      forall x, In x p1 -> exists y, In y p2 /\ ones (genes w' x) <= ones (genes w' y).
Proof.
  intros Hn H0 H1 Hu Hm Hpk Hi Hp Hs Hk.
  set (operators := fun i => bit_pipeline expected (us i) (skip i) (masks i)).
  assert (Hops : forall i, clone_vary_evaluate (operators i) /\ Forall (stays_within (bit_string n)) (operators i)).
  { intros i. destruct (bit_ops n expected (us i) (skip i) (masks i) Hn H0 H1 (Hu i) (Hm i)) as (A & B & _). auto. }
  assert (Hwk : forall i, Forall (works_on (bit_string n)) (operators i)).
  { intros i. destruct (bit_ops n expected (us i) (skip i) (masks i) Hn H0 H1 (Hu i) (Hm i)) as (_ & _ & C). auto. }
  assert (Hsc : false = true \/ forall g, bit_string n g -> exists f, score (no_decoder 0) (max_ones_problem 0) g = Ok f).
  { right. intros g _. rewrite max_ones_score. eauto. }
  destruct (run_works no_decoder max_ones_problem (bit_string n) 0 0 false true coin k_elites max_generations size operators
              pick stop Hops Hsc Hwk Hpk initialize pop_size start w Hi Hp Hs)
    as (final & w' & earlier & gc' & E & HN).
  exists final, w', earlier, gc'. split; [exact E|]. split; [exact HN|]. split.
  - intros p i Hin Hip. apply run_good with (D := bit_string n) in E; auto. cbn zeta in E. destruct E as (_ & _ & _ & _ & E).
    destruct (E p Hin) as (_ & _ & F). destruct (F i Hip) as (A & _ & _ & B). rewrite max_ones_score in B. auto.
  - intros j1 j2 p1 p2 Hle E1 E2 x Hx.
    destruct (run_monotone no_decoder max_ones_problem (bit_string n) 0 0 false true coin k_elites max_generations size operators
                pick stop Hops initialize pop_size start w final w' earlier gc' Hi Hk Hs) with (j1 := j1) (j2 := j2) (p1 := p1) (p2 := p2) (x := x)
      as (y & Hy & Hnb); auto.
    + intros g h m _ _. cbn zeta. rewrite !max_ones_score. intros ((e & C) & _). discriminate C.
    + exists y. split; auto. rewrite !max_ones_score in Hnb. cbn in Hnb. unfold Qlt in Hnb. cbn in Hnb. lia.
Qed.
