(** Proofs about whole island runs on the heap. *)
From Coq Require Import Lia Permutation.
From Verif Require Import Model.Base Model.PyList Model.Scalar Model.Selection Model.Counters Model.Heap Model.Pipeline
  Model.HeapEa Model.HeapIslands Spec.Order Spec.Heap Spec.HeapEa Spec.HeapIslands
  Proofs.Heap Proofs.Pipeline Proofs.ScalarSel Proofs.Distrib Proofs.HeapEa.
Local Open Scope nat_scope.
Local Open Scope list_scope.

Lemma concat_set {A} j (x y : list A) l : nth_error l j = Some x ->
  Permutation (concat l) (x ++ concat (set_nth j [] l)) /\
  Permutation (concat (set_nth j y l)) (y ++ concat (set_nth j [] l)).
Proof.
  revert j. induction l as [|a l IH]; intros [|j] H; try discriminate; cbn [nth_error] in H.
  - injection H as ->. cbn. auto.
  - destruct (IH j H) as [H1 H2]. cbn [set_nth concat]. split.
    + eapply perm_trans; [apply Permutation_app_head; exact H1|]. rewrite !app_assoc.
      apply Permutation_app_tail, Permutation_app_comm.
    + eapply perm_trans; [apply Permutation_app_head; exact H2|]. rewrite !app_assoc.
      apply Permutation_app_tail, Permutation_app_comm.
Qed.

Lemma set_nth_mid {A} (a : list A) x y b : set_nth (length a) y (a ++ x :: b) = a ++ y :: b.
Proof. induction a; cbn; auto. rewrite IHa. auto. Qed.
Lemma nth_error_mid {A} (a : list A) x b : nth_error (a ++ x :: b) (length a) = Some x.
Proof. induction a; cbn; auto. Qed.

Lemma part_trans {A} (a b c : list A) : part_of a b -> part_of b c -> part_of a c.
Proof.
  intros [r H] [s K]. exists (r ++ s). eapply perm_trans; [exact K|]. rewrite app_assoc.
  apply Permutation_app_tail. exact H.
Qed.
Lemma part_app {A} (a b c : list A) : part_of a b -> part_of (a ++ c) (b ++ c).
Proof.
  intros [r H]. exists r. eapply perm_trans; [apply Permutation_app_tail; exact H|]. rewrite <- !app_assoc.
  apply Permutation_app_head, Permutation_app_comm.
Qed.
Lemma part_set {A} idx (x : A) l : part_of (set_nth idx x l) (l ++ [x]).
Proof.
  revert idx. induction l as [|a l IH]; intros [|idx]; cbn [set_nth app].
  - exists [x]. auto.
  - exists [x]. auto.
  - exists [a]. cbn [app]. eapply perm_trans; [apply perm_skip; symmetry; apply Permutation_cons_append|].
    eapply perm_trans; [apply perm_swap|]. apply perm_skip. apply Permutation_cons_append.
  - destruct (IH idx) as [r H]. exists r. cbn [app]. apply perm_skip. exact H.
Qed.

Section Islands.
Context {G P : Type}.
Variable decoder_of : nat -> option (list G -> result P).
Variable problem_of : nat -> phen_value G P -> result num.
Variable direction : nat -> bool.
Variable D : list G -> Prop.
Variable pb : nat -> nat.
Variable decoder : nat.
Variable robust : bool.
Implicit Types w : world G P num.
Notation good p := (HeapEa.good decoder_of problem_of D p decoder robust).
Notation kind p := (HeapEa.kind D p decoder robust).
Notation value p := (HeapEa.value decoder_of problem_of p decoder).
Notation gen w := (fun i => i_genome (w_ind w i)).

(** separate existing individuals *)
Definition sep w (l : list nat) : Prop :=
  NoDup l /\ NoDup (map (gen w) l) /\ forall i, In i l -> i < w_nind w /\ i_genome (w_ind w i) < w_narr w.

Definition fits w (p : nat) (x : nat) : Prop := kind p w x /\ i_fitness (w_ind w x) = Some (value p w x).

(** nothing but the listed individuals changed, and their genomes stayed *)
Definition moves (t : list nat) w w' : Prop :=
  w_nind w <= w_nind w' /\ w_narr w <= w_narr w' /\
  (forall i, i < w_nind w -> ~ In i t -> w_ind w' i = w_ind w i) /\
  (forall a, a < w_narr w -> w_arr w' a = w_arr w a) /\
  (forall i, i < w_nind w -> i_genome (w_ind w' i) = i_genome (w_ind w i)).

Lemma moves_refl t w : moves t w w.
Proof. repeat split; auto. Qed.
Lemma moves_grows t w w' : grows w w' -> moves t w w'.
Proof. intros (A & B & C1 & C2). repeat split; auto. intros i Hi. rewrite C1; auto. Qed.
Lemma moves_trans t u v a b c : moves t a b -> moves u b c ->
  (forall i, i < w_nind a -> In i t \/ In i u -> In i v) -> moves v a c.
Proof.
  intros (A1 & A2 & A3 & A4 & A5) (B1 & B2 & B3 & B4 & B5) H. repeat split; try lia.
  - intros i Hi Hn. rewrite B3, A3; auto; try lia; intros C; apply Hn, H; auto.
  - intros i Hi. rewrite B4, A4; auto; lia.
  - intros i Hi. rewrite B5, A5; auto; lia.
Qed.
Lemma moves_same t w w' i : moves t w w' -> i < w_nind w -> i_genome (w_ind w i) < w_narr w -> ~ In i t -> same_object w w' i.
Proof. intros (_ & _ & A & B & _) Hi Hg Hn. split; auto. unfold genes. rewrite A; auto. Qed.

Lemma fits_same w w' p x : same_object w w' x -> fits w p x -> fits w' p x.
Proof.
  intros [S1 S2] [K E]. split; [eapply kind_same; [split; eauto|auto]|]. rewrite S1, E. unfold HeapEa.value. rewrite S2. auto.
Qed.
Lemma sep_part w l m : part_of l m -> sep w m -> sep w l.
Proof.
  intros H (A & B & C). split; [eapply part_NoDup; eauto|]. split; [eapply part_NoDup; [apply part_map; exact H|auto]|].
  intros i Hi. apply C. eapply part_in; eauto.
Qed.
Lemma sep_moves t w w' l : moves t w w' -> sep w l -> sep w' l.
Proof.
  intros (M1 & M2 & M3 & M4 & M5) (A & B & C). split; auto. split.
  - erewrite map_ext_in; [exact B|]. intros i Hi. cbn. apply M5. apply C. auto.
  - intros i Hi. destruct (C i Hi). rewrite M5 by auto. lia.
Qed.
Lemma good_sep p w l : good p w l <-> sep w l /\ forall x, In x l -> fits w p x.
Proof.
  unfold HeapEa.good, sep, fits. split.
  - intros (A & B & C). repeat split; auto; try (apply C; auto); destruct (C x H) as (_ & _ & K & E); auto; apply K.
  - intros ((A & B & C) & E). repeat split; auto; try (apply C; auto); try (apply E; auto).
Qed.
Lemma good_moves t p w w' l : moves t w w' -> (forall x, In x l -> ~ In x t) -> good p w l -> good p w' l.
Proof.
  intros HM Hn HG. apply good_sep in HG. destruct HG as [HS HF]. apply good_sep. split; [eapply sep_moves; eauto|].
  intros x Hx. eapply fits_same; [|apply HF; auto]. destruct HS as (_ & _ & HS). destruct (HS x Hx).
  eapply moves_same; eauto.
Qed.
Lemma sep_join w l m : sep w l -> sep w m -> (forall x, In x l -> ~ In x m) ->
  (forall x y, In x l -> In y m -> i_genome (w_ind w x) <> i_genome (w_ind w y)) -> sep w (l ++ m).
Proof.
  intros (A & B & C) (A' & B' & C') H1 H2. split; [apply NoDup_join; auto|]. split.
  - rewrite map_app. apply NoDup_join; auto. intros a Ha Hb. apply in_map_iff in Ha, Hb.
    destruct Ha as (x & <- & Hx), Hb as (y & E & Hy). apply (H2 x y); auto.
  - intros i Hi. apply in_app_or in Hi. destruct Hi; auto.
Qed.
Lemma sep_disjoint w l m x : sep w (l ++ m) -> In x l -> ~ In x m.
Proof.
  intros (A & _) Hl Hm. apply in_split in Hl. destruct Hl as (l1 & l2 & ->). rewrite <- app_assoc in A. cbn in A.
  apply NoDup_remove_2 in A. apply A. apply in_or_app. right. apply in_or_app. auto.
Qed.
Lemma sep_perm w l m : Permutation l m -> sep w l -> sep w m.
Proof. intros H. apply sep_part. exists []. rewrite app_nil_r. auto. Qed.

(** creation *)
Variable initialize : nat -> nat -> list G.
Hypothesis Hinit : forall i k, D (initialize i k).

Lemma create_islands_spec pop_size n : forall i w pops w',
  create_islands pb decoder robust initialize n i pop_size w = (pops, w') ->
  map (@length nat) pops = repeat pop_size n /\ grows w w' /\ sep w' (concat pops) /\
  (forall x, In x (concat pops) -> w_nind w <= x /\ w_narr w <= i_genome (w_ind w' x)) /\
  forall s p x, nth_error pops s = Some p -> In x p -> kind (pb (i + s)) w' x.
Proof.
  induction n as [|n IH]; intros i w pops w' H; cbn [create_islands] in H.
  - injection H as <- <-. cbn. split; auto. split; [apply grows_refl|]. split; [repeat split; try constructor; contradiction|].
    split; [intros x []|]. intros [|s] p x E; discriminate.
  - destruct (create_all (initialize i) (pb i) decoder robust pop_size 0 w) as [p1 w1] eqn:E1.
    destruct (create_islands pb decoder robust initialize n (S i) pop_size w1) as [r w2] eqn:E2. injection H as <- <-.
    apply create_all_spec in E1. destruct E1 as (L1 & G1 & N1 & N2 & A1).
    destruct (IH _ _ _ _ E2) as (L2 & G2 & S2 & F2 & K2). cbn [map repeat concat]. rewrite L1, L2. split; auto.
    split; [eapply grows_trans; eauto|].
    assert (S1 : sep w1 p1).
    { split; auto. split; auto. intros x Hx. destruct (A1 x Hx) as (B1 & B2 & _). lia. }
    assert (Hs : forall x, In x p1 -> same_object w1 w2 x).
    { intros x Hx. destruct S1 as (_ & _ & S1). destruct (S1 x Hx). apply grows_same; auto. }
    split; [|split].
    + apply sep_join; auto.
      * eapply sep_moves; [apply (moves_grows []); exact G2|auto].
      * intros x Hx C. destruct (F2 x C). destruct S1 as (_ & _ & S1). destruct (S1 x Hx). lia.
      * intros x y Hx Hy. destruct (F2 y Hy). destruct (Hs x Hx) as [-> _]. destruct S1 as (_ & _ & S1). destruct (S1 x Hx). lia.
    + intros x Hx. apply in_app_or in Hx. destruct Hx as [Hx|Hx].
      * destruct (A1 x Hx) as (B1 & B2 & _). destruct (Hs x Hx) as [-> _]. lia.
      * destruct (F2 x Hx). destruct G1. lia.
    + intros [|s] p x Hp Hx; cbn [nth_error] in Hp.
      * injection Hp as <-. rewrite Nat.add_0_r. eapply kind_same; [apply Hs; auto|].
        destruct (A1 x Hx) as (_ & _ & (m & Em) & K). split; [rewrite Em; auto|exact K].
      * replace (i + S s) with (S i + s) by lia. eauto.
Qed.

Lemma evaluate_islands_spec : forall pops i w u w',
  evaluate_islands decoder_of problem_of w pops = (Ok u, w') ->
  sep w (concat pops) -> (forall s p x, nth_error pops s = Some p -> In x p -> kind (pb (i + s)) w x) ->
  w_nind w' = w_nind w /\ w_narr w' = w_narr w /\ moves (concat pops) w w' /\
  forall s p, nth_error pops s = Some p -> good (pb (i + s)) w' p.
Proof.
  induction pops as [|p r IH]; intros i w u w' H HS HK; cbn [evaluate_islands] in H.
  - injection H as _ <-. split; auto. split; auto. split; [apply moves_refl|]. intros [|s] p E; discriminate.
  - destruct (evaluate_population NNan decoder_of problem_of w p) as [[u1|e] w1] eqn:E; [|discriminate].
    pose proof (evaluate_sizes _ _ _ _ _ _ E) as (Z1 & Z2 & Z3).
    apply evaluate_population_spec in E. destruct E as (E1 & E3 & E2 & E4).
    cbn [concat] in HS |- *.
    assert (HM : moves p w w1).
    { repeat split; try lia.
      - intros i0 _ Hn. apply E3. auto.
      - intros a _. rewrite E1. auto.
      - intros j _. apply E2. }
    assert (Kp : forall x, In x p -> kind (pb i) w1 x).
    { intros x Hx. destruct (HK 0 p x eq_refl Hx) as (K1 & K2 & K3 & K4). rewrite Nat.add_0_r in K2.
      destruct (E2 x) as (G1 & G2 & G3). unfold HeapEa.kind, genes. rewrite Z3, E1, G1, G2, G3. auto. }
    assert (Gp : good (pb i) w1 p).
    { apply good_sep. split.
      - eapply sep_moves; [exact HM|]. eapply sep_part; [|exact HS]. exists (concat r). auto.
      - intros x Hx. split; auto. assert (HE := E4 x Hx). rewrite HE. unfold HeapEa.value.
        destruct (Kp x Hx) as (_ & K2 & K3 & _). destruct (E2 x) as (G1 & G2 & G3).
        unfold genes. rewrite <- G2, <- G3, K2, K3, G1, E1. auto. }
    destruct (IH (S i) w1 u w' H) as (Y1 & Y2 & Y3 & Y4).
    + eapply sep_moves; [exact HM|]. eapply sep_part; [|exact HS]. exists p. apply Permutation_app_comm.
    + intros s q x Hq Hx. replace (S i + s) with (i + S s) by lia. eapply kind_same; [|apply (HK (S s) q x Hq Hx)].
      assert (Hr : In x (concat r)) by (apply in_concat; exists q; split; [eapply nth_error_In; eauto|auto]).
      destruct HS as (HS1 & HS2 & HS3). destruct (HS3 x) as [A B]; [apply in_or_app; auto|].
      eapply moves_same; eauto. intros C. apply (sep_disjoint w p (concat r) x); auto. split; auto.
    + split; [lia|]. split; [lia|]. split.
      * eapply moves_trans; [exact HM|exact Y3|]. intros j _ Hj. apply in_or_app. auto.
      * intros [|s] q Hq; cbn [nth_error] in Hq.
        -- injection Hq as <-. rewrite Nat.add_0_r. eapply good_moves; [exact Y3| |exact Gp].
           intros x Hx. eapply sep_disjoint; eauto.
        -- replace (i + S s) with (S i + s) by lia. auto.
Qed.

(** migration *)
Variable stamps : bool.
Hypothesis Hproblem : stamps = true \/ forall i j, pb i = pb j.
Notation customs := (customs decoder_of problem_of pb stamps).

Definition belongs w (x : nat) : Prop := exists s, fits w (pb s) x.

Lemma customs_spec i w imm u w' : customs i w imm = (Ok u, w') ->
  imm < w_nind w -> belongs w imm ->
  w_nind w' = w_nind w /\ w_narr w' = w_narr w /\ moves [imm] w w' /\ fits w' (pb i) imm.
Proof.
  unfold HeapIslands.customs. intros H Hi [s [(K1 & K2 & K3 & K4) KE]]. destruct stamps eqn:Es.
  - set (w1 := upd_ind w imm _) in H.
    assert (A : w_ind w1 imm = mk_indiv (i_genome (w_ind w imm)) (pb i) (i_decoder (w_ind w imm)) (i_fitness (w_ind w imm))
        (i_phenome (w_ind w imm)) (i_uuid (w_ind w imm)) (i_parents (w_ind w imm)) (i_robust (w_ind w imm))
        (i_viable (w_ind w imm)) (i_exc (w_ind w imm))) by (unfold w1, upd_ind; cbn; rewrite upd_same; auto).
    assert (B : forall j, j <> imm -> w_ind w1 j = w_ind w j) by (intros; unfold w1, upd_ind; cbn; apply upd_other; auto).
    assert (C : w_arr w1 = w_arr w /\ w_nind w1 = w_nind w /\ w_narr w1 = w_narr w) by (repeat split).
    clearbody w1. destruct C as (C1 & C2 & C3).
    destruct (evaluate NNan decoder_of problem_of w1 imm) as [[f|e] w2] eqn:E; [|discriminate]. injection H as _ <-.
    apply evaluate_spec in E. destruct E as (V1 & V2 & V3 & V4 & V5 & V6 & V7 & V8 & V9 & V10 & V11 & V12).
    assert (GG : genes w2 imm = genes w imm) by (unfold genes; rewrite V6, V1, A, C1; auto).
    split; [lia|]. split; [lia|]. split.
    + repeat split; try lia.
      * intros j _ Hn. rewrite V5, B; auto; intros ->; apply Hn; left; auto.
      * intros a _. rewrite V1, C1. auto.
      * intros j _. destruct (Nat.eq_dec j imm) as [->|Hne]; [rewrite V6, A; auto|rewrite V5, B; auto].
    + split; [unfold HeapEa.kind; rewrite GG, V7, V8, V11, A; auto|].
      unfold HeapEa.value. rewrite GG. assert (G1 : genes w1 imm = genes w imm) by (unfold genes; rewrite A, C1; auto).
      rewrite G1, A in V12. cbn [i_decoder i_problem i_genome i_robust] in V12. rewrite K3, K4 in V12.
      destruct (score (decoder_of decoder) (problem_of (pb i)) (genes w imm)) as [f'|e'].
      * destruct V12 as (_ & -> & _). auto.
      * destruct robust; destruct V12 as (E' & V12); [destruct V12 as (-> & _); auto|discriminate].
  - injection H as _ <-. destruct Hproblem as [C|Hp]; [discriminate|]. rewrite (Hp i s).
    split; auto. split; auto. split; [apply moves_refl|]. split; auto. repeat split; auto.
Qed.

Variable replace : nat -> nat -> nat -> world G P num -> list nat -> nat.
Variable coin : nat -> nat -> nat -> bool.
Notation immigration := (immigration decoder_of problem_of direction pb stamps replace coin).

Lemma immigration_spec g i : forall imms k w pop pop' w' R,
  immigration g i k imms w pop = Ok (pop', w') ->
  good (pb i) w pop -> sep w (pop ++ imms ++ R) -> (forall x, In x imms -> belongs w x) ->
  moves imms w w' /\ w_nind w' = w_nind w /\ w_narr w' = w_narr w /\ length pop' = length pop /\
  good (pb i) w' pop' /\ part_of pop' (pop ++ imms).
Proof.
  induction imms as [|imm imms IH]; intros k w pop pop' w' R H HG HS HB; cbn [HeapIslands.immigration] in H.
  - injection H as <- <-. split; [apply moves_refl|]. do 3 (split; [reflexivity|]). split; [exact HG|]. exists []. rewrite !app_nil_r. auto.
  - destruct (customs i w imm) as [[u|e] w1] eqn:EC; [|discriminate].
    assert (Hlive : forall x, In x (pop ++ (imm :: imms) ++ R) -> x < w_nind w /\ i_genome (w_ind w x) < w_narr w) by apply HS.
    destruct (customs_spec i w imm u w1 EC) as (N1 & N2 & M1 & F1).
    { apply Hlive. apply in_or_app. right. left. auto. }
    { apply HB. left. auto. }
    destruct (nth_error pop (replace g i k w1 pop)) as [c|] eqn:En; [|discriminate].
    destruct (admitted direction (coin g i k) w1 imm c) as [success|e] eqn:Ea; [|discriminate]. cbn [bind] in H.
    set (pop1 := if success then set_nth (replace g i k w1 pop) imm pop else pop) in *.
    assert (Hnot : forall x, In x pop -> ~ In x [imm]).
    { intros x Hx [->|[]]. apply (sep_disjoint w pop ((x :: imms) ++ R) x); auto. left. auto. }
    assert (Hp1 : part_of pop1 (pop ++ [imm])).
    { unfold pop1. destruct success; [apply part_set|]. exists [imm]. auto. }
    assert (HS1 : sep w1 (pop1 ++ imms ++ R)).
    { eapply sep_moves; [exact M1|]. eapply sep_part; [|exact HS].
      change ((imm :: imms) ++ R) with ([imm] ++ (imms ++ R)). rewrite (app_assoc pop). apply part_app. auto. }
    assert (HG1 : good (pb i) w1 pop1).
    { apply good_sep. split.
      - eapply sep_part; [|exact HS1]. exists (imms ++ R). auto.
      - intros x Hx. assert (Hx' := part_in _ _ _ Hp1 Hx). apply in_app_or in Hx'. destruct Hx' as [Hx'|[<-|[]]]; auto.
        assert (HGp := good_moves _ _ _ _ _ M1 Hnot HG). apply good_sep in HGp. apply HGp. auto. }
    destruct (IH (S k) w1 pop1 pop' w' R H HG1 HS1) as (M2 & Y1 & Y2 & Y3 & Y4 & Y5).
    { intros x Hx. destruct (HB x (or_intror Hx)) as [s Hf]. exists s. eapply fits_same; [|exact Hf].
      assert (Hx' : In x (pop ++ (imm :: imms) ++ R)) by (apply in_or_app; right; right; apply in_or_app; auto).
      destruct (Hlive x Hx'). eapply moves_same; eauto.
      assert (Hs' : sep w ([imm] ++ (imms ++ R))).
      { eapply sep_part; [|exact HS]. exists pop. apply Permutation_app_comm. }
      intros [->|[]]. apply (sep_disjoint w [x] (imms ++ R) x Hs'); [left; auto|apply in_or_app; auto]. }
    split; [|split; [lia|split; [lia|split; [|split; [auto|]]]]].
    + eapply moves_trans; [exact M1|exact M2|]. intros j _ [[->|[]]|Hj]; [left; auto|right; auto].
    + rewrite Y3. unfold pop1. destruct success; auto. apply set_nth_length.
    + eapply part_trans; [exact Y5|]. change (imm :: imms) with ([imm] ++ imms). rewrite app_assoc. apply part_app. auto.
Qed.

Variable sponsor : nat -> nat -> world G P num -> list nat -> nat.
Variable draw : nat -> nat -> nat.
Variable neighbors : nat -> list nat.
Variable gap : Z.
Notation emigration := (emigration sponsor draw neighbors gap).

Lemma emigration_spec g i generation w pop waiting waiting' w' :
  emigration g i generation w pop waiting = Ok (waiting', w') -> good (pb i) w pop ->
  grows w w' /\ length waiting' = length waiting /\
  exists new, Permutation (concat waiting') (concat waiting ++ new) /\ sep w' new /\
    forall x, In x new -> w_nind w <= x /\ w_narr w <= i_genome (w_ind w' x) /\ fits w' (pb i) x.
Proof.
  unfold HeapIslands.emigration. intros H HG. destruct (gap =? 0)%Z; [discriminate|].
  destruct (generation mod gap =? 0)%Z.
  2:{ injection H as <- <-. split; [apply grows_refl|]. split; auto. exists []. rewrite app_nil_r.
      split; auto. split; [repeat split; try constructor; contradiction|]. intros x []. }
  destruct (nth_error pop (sponsor g i w pop)) as [s|] eqn:Es; [|discriminate].
  destruct (clone w s) as [emi w1] eqn:Ec. apply clone_spec in Ec.
  destruct Ec as (-> & C1 & C2 & C3 & C4 & C5 & C6 & C7 & C8 & C9 & C10 & C11 & C12 & C13).
  destruct (nth_error (neighbors i) (draw g i)) as [dest|]; [|discriminate].
  destruct (nth_error waiting dest) as [l|] eqn:Ew; [|discriminate].
  injection H as <- <-. set (w2 := upd_ind w1 _ _).
  assert (Hs : In s pop) by (eapply nth_error_In; eauto).
  destruct HG as (_ & _ & HG). destruct (HG s Hs) as (S1 & S2 & (S3 & S4 & S5 & S6) & S7).
  assert (A : w_ind w2 (w_nind w) = set_fitness (i_fitness (w_ind w1 s)) (w_ind w1 (w_nind w))) by (unfold w2, upd_ind; cbn; apply upd_same).
  assert (B : forall j, j <> w_nind w -> w_ind w2 j = w_ind w1 j) by (intros; unfold w2, upd_ind; cbn; apply upd_other; auto).
  assert (E : w_arr w2 = w_arr w1 /\ w_nind w2 = w_nind w1 /\ w_narr w2 = w_narr w1) by (repeat split).
  clearbody w2. destruct E as (E1 & E2 & E3).
  assert (GG : genes w2 (w_nind w) = genes w s) by (unfold genes in *; rewrite A, E1; cbn; auto).
  split; [|split].
  - split; [lia|]. split; [lia|]. split; intros j Hj; [rewrite B, C12; auto; lia|rewrite E1, C13; auto; lia].
  - apply set_nth_length.
  - exists [w_nind w]. split; [|split].
    + destruct (concat_set dest l (l ++ [w_nind w]) waiting Ew) as [P1 P2]. eapply perm_trans; [exact P2|].
      eapply perm_trans; [|apply Permutation_app_tail; symmetry; exact P1]. rewrite <- !app_assoc.
      apply Permutation_app_head, Permutation_app_comm.
    + split; [repeat constructor; auto|]. split; [repeat constructor; auto|]. intros x [<-|[]]. rewrite A. cbn. lia.
    + intros x [<-|[]]. rewrite A at 1. cbn. split; [lia|]. split; [lia|]. split.
      * unfold HeapEa.kind. rewrite GG, A. cbn. rewrite C6, C7, C8. auto.
      * rewrite A. cbn. rewrite C12 by lia. rewrite S7. unfold HeapEa.value. rewrite GG. auto.
Qed.

(** a generation *)
Variable size : nat.
Variable operators : nat -> nat -> list (op G).
Variable pick : nat -> nat -> world G P num -> list nat -> nat -> nat.
Hypothesis Hops : forall g i, clone_vary_evaluate (operators g i) /\ Forall (stays_within D) (operators g i).
Notation islands_loop := (islands_loop decoder_of problem_of direction pb stamps replace coin sponsor draw neighbors gap
  size operators pick).

Lemma offspring_spec g i w parents pk offspring sts w1 :
  good (pb i) w parents ->
  let stack := operators g i ++ [OpSelect parents pk] in
  pool NNan decoder_of problem_of size stack (start stack) w = Ok (offspring, sts, w1) ->
  grows w w1 /\ length offspring = size /\ good (pb i) w1 offspring /\
  forall x, In x offspring -> w_nind w <= x /\ w_narr w <= i_genome (w_ind w1 x).
Proof.
  intros HG stack HP. destruct (Hops g i) as [HC HF].
  destruct (generation_good decoder_of problem_of D (pb i) decoder robust true (fun _ _ _ => true) 0 0 w parents
              (operators g i) pk size offspring sts w1 HG HC HF HP) as (A & B & s & _ & _ & _ & C & _).
  split; auto. split; auto. split; auto.
  destruct (stack_breeding w (operators g i) parents pk HC) as [HB _]; [intros j Hj; apply HG; auto|].
  assert (I0 : inv w w ([] ++ held (start stack))) by (rewrite held_start; apply inv_init).
  destruct (pool_inv NNan decoder_of problem_of w size stack HB _ _ _ _ _ [] I0 HP) as [I1 _]. cbn [app] in I1.
  destruct I1 as (_ & _ & _ & _ & _ & HI). intros x Hx. destruct (HI x); [apply in_or_app; auto|lia].
Qed.

(** the islands in [done] have had their turn in this generation, those in [rest] have not; [past]: the members
    of all earlier generations and of the islands as they were at the start of this one *)
Definition state w (past : list nat) (done rest waiting : list (list nat)) : Prop :=
  sep w (past ++ concat done ++ concat waiting) /\
  (forall s p, nth_error done s = Some p -> good (pb s) w p) /\
  (forall s p, nth_error rest s = Some p -> good (pb (length done + s)) w p /\ forall x, In x p -> In x past) /\
  (forall x, In x (concat waiting) -> belongs w x).

Lemma island_step g generation parents rest past done waiting w pk off sts w1 off' w2 waiting1 :
  state w past done (parents :: rest) waiting ->
  let stack := operators g (length done) ++ [OpSelect parents pk] in
  pool NNan decoder_of problem_of size stack (start stack) w = Ok (off, sts, w1) ->
  migration decoder_of problem_of direction pb stamps replace coin sponsor draw neighbors gap g
    (length done) generation w1 off waiting = Ok (off', w2, waiting1) ->
  state w2 past (done ++ [off']) rest waiting1 /\ moves (concat waiting) w w2 /\ length waiting1 = length waiting /\
  (forall x, In x (concat waiting1) -> In x (concat waiting) \/ w_nind w <= x) /\ length off' = size.
Proof.
  intros (HS & HD & HR & HW) stack EP EM.
  destruct (HR 0 parents eq_refl) as [HGp Hin]. rewrite Nat.add_0_r in HGp.
  destruct (offspring_spec g (length done) w parents _ off sts w1 HGp EP) as (G1 & L1 & HGo & Hfresh).
  unfold migration in EM. destruct (nth_error waiting (length done)) as [imms|] eqn:EW; [|discriminate].
  destruct (immigration g (length done) 0 imms w1 off) as [[pop' wi]|e] eqn:EI; [|discriminate]. cbn [bind] in EM.
  destruct (emigration g (length done) generation wi pop' (set_nth (length done) [] waiting)) as [[wt we]|e] eqn:EE; [|discriminate].
  cbn [bind] in EM. injection EM as -> -> ->.
  set (waiting0 := set_nth (length done) [] waiting) in *.
  destruct (concat_set _ imms [] waiting EW) as [PW _]. fold waiting0 in PW.
  assert (M1 : moves [] w w1) by (apply moves_grows; auto).
  assert (HSw : sep w1 (past ++ concat done ++ imms ++ concat waiting0)).
  { eapply sep_moves; [exact M1|]. eapply sep_perm; [|exact HS]. do 2 apply Permutation_app_head. exact PW. }
  assert (HSo : sep w1 (off ++ imms ++ past ++ concat done ++ concat waiting0)).
  { apply sep_join.
    - apply good_sep in HGo. apply HGo.
    - eapply sep_perm; [|exact HSw]. rewrite !app_assoc. apply Permutation_app_tail.
      rewrite <- !app_assoc. apply perm_trans with ((past ++ concat done) ++ imms).
      + rewrite <- app_assoc. auto.
      + apply Permutation_app_comm.
    - intros x Hx C. destruct (Hfresh x Hx). assert (C' : In x (past ++ concat done ++ concat waiting)).
      { eapply Permutation_in; [do 2 apply Permutation_app_head; symmetry; exact PW|].
        rewrite !in_app_iff in *. tauto. }
      destruct HS as (_ & _ & HS). destruct (HS x C'). lia.
    - intros x y Hx C. destruct (Hfresh x Hx). assert (C' : In y (past ++ concat done ++ concat waiting)).
      { eapply Permutation_in; [do 2 apply Permutation_app_head; symmetry; exact PW|].
        rewrite !in_app_iff in *. tauto. }
      destruct HS as (_ & _ & HS). destruct (HS y C'). destruct G1 as (_ & _ & G1 & _). rewrite (G1 y) by auto. lia. }
  assert (Bimm : forall x, In x (concat waiting) -> belongs w1 x).
  { intros x Hx. destruct (HW x Hx) as [s Hf]. exists s. eapply fits_same; [|exact Hf].
    destruct HS as (_ & _ & HS). destruct (HS x); [rewrite !in_app_iff; auto|]. apply grows_same; auto. }
  destruct (immigration_spec g (length done) imms 0 w1 off off' wi (past ++ concat done ++ concat waiting0) EI HGo HSo)
    as (M2 & N1 & N2 & L2 & HGi & Hpart).
  { intros x Hx. apply Bimm. eapply Permutation_in; [symmetry; exact PW|]. apply in_or_app. auto. }
  assert (HSi : sep wi (off' ++ past ++ concat done ++ concat waiting0)).
  { eapply sep_moves; [exact M2|]. eapply sep_part; [|exact HSo]. rewrite (app_assoc off). apply part_app. auto. }
  destruct (emigration_spec g (length done) generation wi off' waiting0 waiting1 w2 EE HGi)
    as (G2 & L3 & new & PN & Snew & Fnew).
  assert (Bw : forall x, In x (concat waiting0) -> belongs wi x).
  { intros x Hx. destruct (Bimm x) as [s Hf]; [eapply Permutation_in; [symmetry; exact PW|]; apply in_or_app; auto|].
    exists s. eapply fits_same; [|exact Hf].
    destruct HSo as (HSo1 & HSo2 & HSo3). destruct (HSo3 x); [rewrite !in_app_iff; auto|].
    eapply moves_same; eauto. intros C.
    assert (Hd : sep w1 (imms ++ concat waiting0)).
    { eapply sep_part; [|exact HSw]. exists (past ++ concat done). rewrite (app_assoc past). apply Permutation_app_comm. }
    apply (sep_disjoint w1 imms (concat waiting0) x Hd); auto. }
  assert (HMi : moves imms w wi).
  { eapply moves_trans; [exact M1|exact M2|]. intros j _ [[]|Hj]; auto. }
  assert (HM : moves imms w w2).
  { eapply moves_trans; [exact HMi|apply (moves_grows []); exact G2|]. intros j _ [Hj|[]]; auto. }
  assert (HS2 : sep w2 (past ++ (concat done ++ off') ++ concat waiting1)).
  { eapply sep_perm with (l := (off' ++ past ++ concat done ++ concat waiting0) ++ new).
    - eapply perm_trans; [|do 2 apply Permutation_app_head; symmetry; exact PN].
      rewrite !app_assoc. do 2 apply Permutation_app_tail. rewrite <- !app_assoc.
      eapply perm_trans; [apply Permutation_app_comm|]. rewrite <- app_assoc. auto.
    - apply sep_join; auto.
      + eapply sep_moves; [apply (moves_grows []); exact G2|auto].
      + intros x Hx C. destruct (Fnew x C) as (F1 & _). destruct HSi as (_ & _ & HSi). destruct (HSi x Hx). lia.
      + intros x y Hx C. destruct (Fnew y C) as (_ & F2 & _). destruct HSi as (_ & _ & HSi). destruct (HSi x Hx).
        destruct G2 as (_ & _ & G2 & _). rewrite (G2 x) by auto. lia. }
  assert (Himm : forall x, In x imms -> In x (concat waiting)).
  { intros x Hx. eapply Permutation_in; [symmetry; exact PW|]. apply in_or_app. auto. }
  assert (Hpd : forall x, In x past \/ In x (concat done) -> ~ In x imms).
  { intros x Hx C. apply Himm in C. rewrite app_assoc in HS. eapply sep_disjoint; [exact HS| |exact C]. apply in_or_app. auto. }
  split; [split; [|split; [|split]]|].
  + rewrite concat_app. cbn [concat]. rewrite app_nil_r. exact HS2.
  + intros s p Hp. destruct (Nat.lt_ge_cases s (length done)) as [Hlt|Hge].
    * rewrite nth_error_app1 in Hp by auto. eapply good_moves; [exact HM| |apply HD; eauto].
      intros x Hx. apply Hpd. right. apply in_concat. exists p. split; auto. eapply nth_error_In; eauto.
    * rewrite nth_error_app2 in Hp by auto. destruct (s - length done) as [|[|?]] eqn:Esd; try discriminate.
      cbn in Hp. injection Hp as <-. assert (s = length done) by lia. subst s.
      eapply (good_moves []); [apply moves_grows; exact G2|intros ? _ []|auto].
  + intros s p Hp. destruct (HR (S s) p Hp) as [A B]. rewrite app_length. cbn [length].
    replace (length done + 1 + s) with (length done + S s) by lia. split; auto.
    eapply good_moves; [exact HM| |exact A]. intros x Hx. apply Hpd. auto.
  + intros x Hx. apply (Permutation_in _ PN) in Hx. apply in_app_or in Hx. destruct Hx as [Hx|Hx].
    * destruct (Bw x Hx) as [s Hf]. exists s. eapply fits_same; [|exact Hf].
      destruct HSi as (_ & _ & HSi). destruct (HSi x); [rewrite !in_app_iff; auto|]. apply grows_same; auto.
    * destruct (Fnew x Hx) as (_ & _ & Hf). exists (length done). auto.
  + assert (Wsub : forall x, In x (concat waiting1) -> In x (concat waiting) \/ w_nind w <= x).
    { intros x Hx. apply (Permutation_in _ PN) in Hx. apply in_app_or in Hx. destruct Hx as [Hx|Hx].
      - left. eapply Permutation_in; [symmetry; exact PW|]. apply in_or_app. auto.
      - right. destruct (Fnew x Hx). destruct HMi as (HMi & _). lia. }
    split; [|split; [|split; [exact Wsub|lia]]].
    * eapply moves_trans; [exact HM|apply (moves_refl [])|]. intros j Hj [C|[]]; auto.
    * rewrite L3. apply set_nth_length.
Qed.

Lemma islands_spec g generation : forall rest past done waiting w pops' waiting' w',
  islands_loop (length rest) (length done) g generation w (done ++ rest) waiting = Ok (pops', waiting', w') ->
  state w past done rest waiting ->
  moves (concat waiting) w w' /\ length waiting' = length waiting /\
  (forall x, In x (concat waiting') -> In x (concat waiting) \/ w_nind w <= x) /\
  exists new, pops' = done ++ new /\ map (@length nat) new = repeat size (length rest) /\ state w' past pops' [] waiting'.
Proof.
  induction rest as [|parents rest IH]; intros past done waiting w pops' waiting' w' H HS.
  - cbn in H. injection H as <- <- <-. split; [apply moves_refl|]. split; auto. split; auto.
    exists []. rewrite app_nil_r. repeat (split; auto). 
  - cbn [length HeapIslands.islands_loop] in H. rewrite nth_error_mid in H.
    set (stack := operators g (length done) ++ _) in H.
    destruct (pool NNan decoder_of problem_of size stack (start stack) w) as [[[off sts] w1]|e] eqn:EP; [|discriminate].
    cbn [bind] in H.
    destruct (migration decoder_of problem_of direction pb stamps replace coin sponsor draw neighbors gap g
                (length done) generation w1 off waiting) as [[[off' w2] waiting1]|e] eqn:EM; [|discriminate].
    cbn [bind] in H.
    destruct (island_step g generation parents rest past done waiting w _ off sts w1 off' w2 waiting1 HS EP EM)
      as (HS2 & HM & L1 & Wsub & Lo).
    rewrite set_nth_mid in H. replace (done ++ off' :: rest) with ((done ++ [off']) ++ rest) in H by (rewrite <- app_assoc; auto).
    replace (S (length done)) with (length (done ++ [off'])) in H by (rewrite app_length; cbn; lia).
    destruct (IH past (done ++ [off']) waiting1 w2 pops' waiting' w' H HS2) as (M3 & L4 & W3 & news & -> & Ln & S3).
    split; [|split; [|split]].
    + eapply moves_trans; [exact HM|exact M3|]. intros j Hj [C|C]; auto. destruct (Wsub j C); [auto|lia].
    + lia.
    + intros x Hx. destruct (W3 x Hx) as [C|C]; auto. right. destruct HM as (HM & _). lia.
    + exists (off' :: news). rewrite <- app_assoc in *. cbn [app] in *. split; auto. split; [cbn; rewrite Ln; f_equal; lia|].
      auto.
Qed.

(** whole runs *)
Variable max_generations : Z.
Variable stop : nat -> world G P num -> list (list nat) -> bool.
Notation generations := (generations decoder_of problem_of direction pb stamps replace coin sponsor draw neighbors gap
  max_generations size operators pick stop).
Notation snapshot := (world G P num * list (list nat))%type.
Notation members := (@everybody G P).

Definition recorded w (s : snapshot) : Prop :=
  (forall i p, nth_error (snd s) i = Some p -> good (pb i) w p) /\
  (forall x, In x (concat (snd s)) -> same_object (fst s) w x).

Lemma members_app a b : members (a ++ b) = members a ++ members b.
Proof. unfold everybody. rewrite map_app, concat_app. auto. Qed.
Lemma members_one s : members [s] = concat (snd s).
Proof. unfold everybody. cbn. apply app_nil_r. Qed.
Lemma members_in l s x : In s l -> In x (concat (snd s)) -> In x (members l).
Proof. intros H1 H2. unfold everybody. apply in_concat. exists (concat (snd s)). split; auto. apply in_map_iff. eauto. Qed.

Lemma recorded_moves t w w' s : moves t w w' -> (forall x, In x (concat (snd s)) -> ~ In x t) -> recorded w s -> recorded w' s.
Proof.
  intros HM Hn (A & B). split.
  - intros i p Hp. eapply good_moves; [exact HM| |apply A; auto]. intros x Hx. apply Hn. apply in_concat.
    exists p. split; auto. eapply nth_error_In; eauto.
  - intros x Hx. destruct (B x Hx) as [B1 B2].
    assert (Hb : x < w_nind w /\ i_genome (w_ind w x) < w_narr w).
    { apply in_concat in Hx. destruct Hx as (p & Hp & Hx). apply In_nth_error in Hp. destruct Hp as [i Hp].
      destruct (A i p Hp) as (_ & _ & Hg). destruct (Hg x Hx) as (? & ? & _). auto. }
    destruct Hb. destruct (moves_same t w w' x) as [C1 C2]; auto. split; congruence.
Qed.

Lemma first_state w earlier pops waiting :
  sep w (members earlier ++ concat pops ++ concat waiting) ->
  (forall i p, nth_error pops i = Some p -> good (pb i) w p) ->
  (forall x, In x (concat waiting) -> belongs w x) ->
  state w (members earlier ++ concat pops) [] pops waiting.
Proof.
  intros HS HG HW. split; [cbn [concat app]; rewrite <- app_assoc; auto|]. split; [intros [|s] p Hp; discriminate|]. split; auto.
  intros s p Hp. cbn [length Nat.add]. split; auto. intros x Hx. apply in_or_app. right. apply in_concat.
  exists p. split; auto. eapply nth_error_In; eauto.
Qed.

Lemma generations_spec : forall fuel g gc w earlier pops waiting final w' snaps gc',
  generations fuel g gc w earlier pops waiting = Some (Ok (final, w', snaps), gc') ->
  sep w (members earlier ++ concat pops ++ concat waiting) ->
  Forall (recorded w) earlier -> (forall i p, nth_error pops i = Some p -> good (pb i) w p) ->
  (forall x, In x (concat waiting) -> belongs w x) ->
  moves (concat waiting) w w' /\
  sep w' (members (snaps ++ [(w', final)])) /\ Forall (recorded w') (snaps ++ [(w', final)]) /\
  exists later, snaps ++ [(w', final)] = earlier ++ (w, pops) :: later /\
    Forall (fun s => map (@length nat) (snd s) = repeat size (length pops)) later /\
    gc_curr gc' = (gc_curr gc + Z.of_nat (length later))%Z /\ (gc_ctx gc = gc_curr gc -> gc_ctx gc' = gc_curr gc').
Proof.
  assert (Hend : forall w earlier pops waiting,
    sep w (members earlier ++ concat pops ++ concat waiting) ->
    Forall (recorded w) earlier -> (forall i p, nth_error pops i = Some p -> good (pb i) w p) ->
    sep w (members (earlier ++ [(w, pops)])) /\ Forall (recorded w) (earlier ++ [(w, pops)])).
  { intros w earlier pops waiting HS HE HG. split.
    - rewrite members_app, members_one. cbn [snd]. eapply sep_part; [|exact HS]. exists (concat waiting). rewrite <- app_assoc. auto.
    - apply Forall_app. split; auto. constructor; [|constructor]. split; cbn [fst snd]; auto. intros x _. split; auto. }
  induction fuel as [|fuel IH]; intros g gc w earlier pops waiting final w' snaps gc' H HS HE HG HW;
    cbn [HeapIslands.generations] in H.
  - destruct (Z.ltb (gc_generation gc) max_generations); [destruct (stop g w pops); [|discriminate]|];
      injection H as <- <- <- <-; (split; [apply moves_refl|]); destruct (Hend w earlier pops waiting HS HE HG) as [E1 E2];
      (split; [exact E1|split; [exact E2|]]); exists []; (split; [auto|split; [constructor|split; [cbn; lia|auto]]]).
  - destruct (Z.ltb (gc_generation gc) max_generations);
      [destruct (stop g w pops); [|destruct (islands_loop (length pops) 0 g (gc_ctx gc) w pops waiting)
          as [[[pops1 waiting1] w1]|e] eqn:EL; [|discriminate]]|];
      try (injection H as <- <- <- <-; (split; [apply moves_refl|]); destruct (Hend w earlier pops waiting HS HE HG) as [E1 E2];
           (split; [exact E1|split; [exact E2|]]); exists []; (split; [auto|split; [constructor|split; [cbn; lia|auto]]])).
    destruct (islands_spec g (gc_ctx gc) pops (members earlier ++ concat pops) [] waiting w pops1 waiting1 w1 EL)
      as (M1 & L1 & W1 & new & En & Ln & S1 & G1 & _ & B1).
    { apply first_state; auto. }
    cbn [app] in En. subst new.
    destruct (Hend w earlier pops waiting HS HE HG) as [E1 E2].
    destruct (IH (S g) _ w1 (earlier ++ [(w, pops)]) pops1 waiting1 final w' snaps gc' H) as (M2 & S2 & R2 & later & El & Ls & Lg & Lc).
    { rewrite members_app, members_one. exact S1. }
    { rewrite Forall_forall in E2 |- *. intros s Hs. assert (Hr := E2 s Hs). eapply recorded_moves; [exact M1| |exact Hr].
      intros x Hx C. apply (members_in _ _ _ Hs) in Hx. rewrite members_app, members_one in Hx. cbn [snd] in Hx.
      rewrite app_assoc in HS. eapply sep_disjoint; [exact HS|exact Hx|exact C]. }
    { auto. }
    { auto. }
    split; [|split; [exact S2|split; [exact R2|]]].
    + eapply moves_trans; [exact M1|exact M2|]. intros j Hj [C|C]; auto. destruct (W1 j C); [auto|lia].
    + exists ((w1, pops1) :: later). rewrite El, <- app_assoc. cbn [app]. split; auto.
      assert (Lp : length pops1 = length pops) by (apply (f_equal (@length _)) in Ln; rewrite map_length, repeat_length in Ln; auto).
      split; [constructor; [exact Ln|rewrite Lp in Ls; exact Ls]|].
      split; [rewrite Lg; cbn [gc_increment snd gc_curr length]; lia|auto].
Qed.

Notation heap_islands := (heap_islands decoder_of problem_of direction pb decoder robust initialize stamps replace coin sponsor
  draw neighbors gap max_generations size operators pick stop).

Lemma concat_nils {A} n : concat (repeat (@nil A) n) = [].
Proof. induction n; cbn; auto. Qed.

Lemma initial_islands n pop_size w pops w1 u w2 :
  create_islands pb decoder robust initialize n 0 pop_size w = (pops, w1) ->
  evaluate_islands decoder_of problem_of w1 pops = (Ok u, w2) ->
  map (@length nat) pops = repeat pop_size n /\ grows w w2 /\ sep w2 (concat pops) /\
  forall i p, nth_error pops i = Some p -> good (pb i) w2 p.
Proof.
  intros EC EE. destruct (create_islands_spec pop_size n 0 w pops w1 EC) as (L & HG & HS & HF & HK).
  destruct (evaluate_islands_spec pops 0 w1 u w2 EE HS HK) as (Z1 & Z2 & HM & HGd).
  split; auto. split; [|split].
  - destruct HG as (A1 & A2 & A3 & A4). destruct HM as (_ & _ & B3 & B4 & _). split; [lia|]. split; [lia|]. split.
    + intros i Hi. rewrite B3, A3; auto; [lia|]. intros C. destruct (HF i C). lia.
    + intros a Ha. rewrite B4, A4; auto; lia.
  - eapply sep_moves; eauto.
  - intros i p Hp. apply (HGd i p Hp).
Qed.

Lemma island_run n pop_size w final w' earlier gc' :
  heap_islands n pop_size w = Some (Ok (final, w', earlier), gc') ->
  let recorded := earlier ++ [(w', final)] in
  gc_curr gc' = Z.of_nat (length earlier) /\ gc_ctx gc' = gc_curr gc' /\ untouched w w' /\
  (exists w1 init later, recorded = (w1, init) :: later /\ map (@length nat) init = repeat pop_size n /\
     Forall (fun s => map (@length nat) (snd s) = repeat size n) later) /\
  NoDup (everybody recorded) /\ NoDup (map (fun x => i_genome (w_ind w' x)) (everybody recorded)) /\
  forall ws pops i p x, In (ws, pops) recorded -> nth_error pops i = Some p -> In x p ->
    w_ind w' x = w_ind ws x /\ genes w' x = genes ws x /\ D (genes w' x) /\
    i_problem (w_ind w' x) = pb i /\ i_decoder (w_ind w' x) = decoder /\
    i_fitness (w_ind w' x) = Some (outcome NNan (score (decoder_of decoder) (problem_of (pb i)) (genes w' x))).
Proof.
  unfold HeapIslands.heap_islands. intros H.
  destruct (create_islands pb decoder robust initialize n 0 pop_size w) as [pops w1] eqn:EC.
  destruct (evaluate_islands decoder_of problem_of w1 pops) as [[u|e] w2] eqn:EE; [|discriminate].
  destruct (initial_islands n pop_size w pops w1 u w2 EC EE) as (L & HG & HS & HGd).
  assert (Ln : length pops = n) by (apply (f_equal (@length _)) in L; rewrite map_length, repeat_length in L; auto).
  destruct (generations_spec _ 0 (inc_generation 0) w2 [] pops (repeat [] n) final w' earlier gc' H) as (HM & HS' & HR & later & El & Ls & Lg & Lc).
  - rewrite concat_nils, app_nil_r. cbn. auto.
  - constructor.
  - auto.
  - rewrite concat_nils. intros x [].
  - cbn [app] in El. rewrite Ln in Ls. cbn [inc_generation gc_curr gc_ctx] in Lg, Lc.
    split; [|split; [apply Lc; auto|split; [|split; [|split; [apply HS'|split; [apply HS'|]]]]]].
    + rewrite Lg. apply (f_equal (@length _)) in El. rewrite app_length in El. cbn [length] in El. lia.
    + rewrite concat_nils in HM. destruct HG as (A1 & A2 & A3 & A4). destruct HM as (_ & _ & B3 & B4 & _). split.
      * intros i Hi. rewrite B3, A3; auto; lia.
      * intros a Ha. rewrite B4, A4; auto; lia.
    + exists w2, pops, later. auto.
    + intros ws ps i p x Hin Hp Hx. rewrite Forall_forall in HR. destruct (HR _ Hin) as [R1 R2]. cbn [fst snd] in R1, R2.
      destruct (R2 x) as [S1 S2]; [apply in_concat; exists p; split; auto; eapply nth_error_In; eauto|].
      destruct (R1 i p Hp) as (_ & _ & R3). destruct (R3 x Hx) as (_ & _ & (K1 & K2 & K3 & _) & K5).
      repeat (split; auto).
Qed.

(** nothing raises *)
Hypothesis scored : robust = true \/ forall i g, D g -> exists f, score (decoder_of decoder) (problem_of (pb i)) g = Ok f.
Hypothesis works : forall g i, Forall (works_on D) (operators g i).
Hypothesis picks : forall g i w l k, l <> [] -> pick g i w l k < length l.
Hypothesis replaces : forall g i k w l, l <> [] -> replace g i k w l < length l.
Hypothesis sponsors : forall g i w l, l <> [] -> sponsor g i w l < length l.
Hypothesis Hgap : gap <> 0%Z.
Hypothesis Hsize : 1 <= size.

Lemma scored_at i : robust = true \/ forall g, D g -> exists f, score (decoder_of decoder) (problem_of (pb i)) g = Ok f.
Proof. destruct scored; auto. Qed.

Lemma customs_works i w imm : belongs w imm -> exists w', customs i w imm = (Ok tt, w').
Proof.
  intros [s [(K1 & K2 & K3 & K4) _]]. unfold HeapIslands.customs. destruct stamps; [|eauto].
  set (w1 := upd_ind w imm _).
  assert (A : w_ind w1 imm = mk_indiv (i_genome (w_ind w imm)) (pb i) (i_decoder (w_ind w imm)) (i_fitness (w_ind w imm))
      (i_phenome (w_ind w imm)) (i_uuid (w_ind w imm)) (i_parents (w_ind w imm)) (i_robust (w_ind w imm))
      (i_viable (w_ind w imm)) (i_exc (w_ind w imm))) by (unfold w1, upd_ind; cbn; rewrite upd_same; auto).
  destruct (evaluate_works NNan decoder_of problem_of D (pb i) decoder robust (scored_at i) w1 imm) as (f & w2 & ->); [|eauto].
  unfold HeapEa.kind. rewrite A. cbn [i_problem i_decoder i_robust]. repeat split; auto. unfold genes in *. rewrite A. exact K1.
Qed.

Lemma nth_ok {A} (l : list A) k : k < length l -> exists x, nth_error l k = Some x.
Proof. intros H. destruct (nth_error l k) eqn:E; eauto. apply nth_error_None in E. lia. Qed.

Lemma immigration_works g i : forall imms k w pop R,
  good (pb i) w pop -> pop <> [] -> sep w (pop ++ imms ++ R) -> (forall x, In x imms -> belongs w x) ->
  exists r, immigration g i k imms w pop = Ok r.
Proof.
  induction imms as [|imm imms IH]; intros k w pop R HG Hne HS HB; cbn [HeapIslands.immigration]; [eauto|].
  destruct (customs_works i w imm) as [w1 EC]; [apply HB; left; auto|]. rewrite EC.
  assert (Hlive : forall x, In x (pop ++ (imm :: imms) ++ R) -> x < w_nind w /\ i_genome (w_ind w x) < w_narr w) by apply HS.
  destruct (customs_spec i w imm tt w1 EC) as (N1 & N2 & M1 & F1).
  { apply Hlive. apply in_or_app. right. left. auto. }
  { apply HB. left. auto. }
  destruct (nth_ok pop (replace g i k w1 pop)) as [c Ec]; [apply replaces; auto|]. rewrite Ec.
  assert (Hnot : forall x, In x pop -> ~ In x [imm]).
  { intros x Hx [->|[]]. apply (sep_disjoint w pop ((x :: imms) ++ R) x); auto. left. auto. }
  assert (HGp := good_moves _ _ _ _ _ M1 Hnot HG).
  assert (Ea : exists b, admitted direction (coin g i k) w1 imm c = Ok b).
  { unfold admitted. destruct F1 as [_ ->]. destruct HGp as (_ & _ & HGp).
    destruct (HGp c) as (_ & _ & _ & ->); [eapply nth_error_In; eauto|]. eauto. }
  destruct Ea as [success ->]. cbn [bind]. set (pop1 := if success then _ else pop).
  assert (Hp1 : part_of pop1 (pop ++ [imm])).
  { unfold pop1. destruct success; [apply part_set|]. exists [imm]. auto. }
  assert (HS1 : sep w1 (pop1 ++ imms ++ R)).
  { eapply sep_moves; [exact M1|]. eapply sep_part; [|exact HS].
    change ((imm :: imms) ++ R) with ([imm] ++ (imms ++ R)). rewrite (app_assoc pop). apply part_app. auto. }
  apply (IH (S k) w1 pop1 R); auto.
  - apply good_sep. split; [eapply sep_part; [|exact HS1]; exists (imms ++ R); auto|].
    intros x Hx. assert (Hx' := part_in _ _ _ Hp1 Hx). apply in_app_or in Hx'. destruct Hx' as [Hx'|[<-|[]]]; auto.
    apply good_sep in HGp. apply HGp. auto.
  - unfold pop1. destruct success; auto. intros C. apply Hne. apply length_zero_iff_nil.
    rewrite <- (set_nth_length (replace g i k w1 pop) imm pop), C. auto.
  - intros x Hx. destruct (HB x (or_intror Hx)) as [s Hf]. exists s. eapply fits_same; [|exact Hf].
    assert (Hx' : In x (pop ++ (imm :: imms) ++ R)) by (apply in_or_app; right; right; apply in_or_app; auto).
    destruct (Hlive x Hx'). eapply moves_same; eauto.
    assert (Hs' : sep w ([imm] ++ (imms ++ R))).
    { eapply sep_part; [|exact HS]. exists pop. apply Permutation_app_comm. }
    intros [->|[]]. apply (sep_disjoint w [x] (imms ++ R) x Hs'); [left; auto|apply in_or_app; auto].
Qed.

Lemma offspring_works g i w parents : good (pb i) w parents -> parents <> [] ->
  let stack := operators g i ++ [OpSelect parents (pick g i w parents)] in
  exists off sts w1, pool NNan decoder_of problem_of size stack (start stack) w = Ok (off, sts, w1).
Proof.
  intros HG Hne stack. destruct (Hops g i) as [Hc Hs].
  destruct (stack_breeding w (operators g i) parents (pick g i w parents) Hc) as [HB _]; [intros j Hj; apply HG; auto|].
  fold stack in HB.
  assert (I0 : inv w w ([] ++ held (start stack))) by (rewrite held_start; apply inv_init).
  assert (HFs : Forall (stays_within D) stack).
  { unfold stack. apply Forall_app. split; auto. constructor; [exact I|constructor]. }
  assert (HWs : Forall (works_on D) stack).
  { unfold stack. apply Forall_app. split; auto. constructor; [exact I|constructor]. }
  assert (Hns : Forall (fun o : op G => is_source o = false) (operators g i)).
  { destruct Hc as (between & -> & HFb). constructor; auto. apply Forall_app. split; auto. }
  assert (HPs : Forall picks_ok stack).
  { unfold stack. apply Forall_app. split; [|constructor; [intros k; apply picks; auto|constructor]].
    eapply Forall_impl; [|exact Hns]. intros o Ho. destruct o; try discriminate; exact I. }
  assert (HSo : sources_ok D (pb i) decoder robust w stack).
  { intros o j Ho Hj. unfold stack in Ho. apply in_app_or in Ho. destruct Ho as [Ho|[<-|[]]].
    - rewrite Forall_forall in Hns. specialize (Hns o Ho). destruct o; try discriminate; destruct Hj.
    - cbn in Hj. destruct HG as (_ & _ & HG). destruct (HG j Hj) as (A & B & C & _). auto. }
  apply (pool_works NNan decoder_of problem_of D (pb i) decoder robust w (scored_at i) size stack HB HFs HWs HPs HSo
              (start stack) w []); auto.
  - unfold start. apply map_length.
  - rewrite held_start. intros j [].
Qed.

Section Topology.
Variable n : nat.
Hypothesis draws : forall g i, i < n -> draw g i < length (neighbors i).
Hypothesis islands : forall i j, i < n -> In j (neighbors i) -> j < n.

Lemma migration_works g i generation w1 off waiting R :
  i < n -> length waiting = n -> good (pb i) w1 off -> off <> [] ->
  (forall imms, nth_error waiting i = Some imms -> sep w1 (off ++ imms ++ R) /\ forall x, In x imms -> belongs w1 x) ->
  exists r, migration decoder_of problem_of direction pb stamps replace coin sponsor draw neighbors gap g i generation w1 off waiting = Ok r.
Proof.
  intros Hi Hl HG Hne Him. unfold migration. destruct (nth_ok waiting i) as [imms Ei]; [lia|]. rewrite Ei.
  destruct (Him imms Ei) as [HS HB].
  destruct (immigration_works g i imms 0 w1 off R HG Hne HS HB) as [[pop' wi] EI]. rewrite EI. cbn [bind].
  destruct (immigration_spec g i imms 0 w1 off pop' wi R EI HG HS HB) as (_ & _ & _ & Lp & HGi & _).
  assert (Hne' : pop' <> []) by (intros ->; destruct off; [auto|discriminate]).
  unfold HeapIslands.emigration. destruct (Z.eqb_spec gap 0); [contradiction|].
  destruct (generation mod gap =? 0)%Z; [|cbn [bind]; eauto].
  destruct (nth_ok pop' (sponsor g i wi pop')) as [s ->]; [apply sponsors; auto|].
  destruct (clone wi s) as [emi wc]. destruct (nth_ok (neighbors i) (draw g i)) as [dest Ed]; [auto|]. rewrite Ed.
  apply nth_error_In in Ed. destruct (nth_ok (set_nth i [] waiting) dest) as [l ->].
  { rewrite set_nth_length, Hl. eauto. }
  cbn [bind]. eauto.
Qed.

Lemma islands_works g generation : forall rest past done waiting w,
  state w past done rest waiting -> length done + length rest = n -> length waiting = n -> (forall p, In p rest -> p <> []) ->
  exists r, islands_loop (length rest) (length done) g generation w (done ++ rest) waiting = Ok r.
Proof.
  induction rest as [|parents rest IH]; intros past done waiting w HS Hn Hw Hne; [cbn; eauto|].
  cbn [length HeapIslands.islands_loop]. rewrite nth_error_mid. pose proof HS as (HS1 & HS2 & HS3 & HS4).
  destruct (HS3 0 parents eq_refl) as [HG Hin]. rewrite Nat.add_0_r in HG.
  destruct (offspring_works g (length done) w parents HG) as (off & sts & w1 & EP); [apply Hne; left; auto|]. cbv zeta.
  rewrite EP. cbn [bind]. cbn [length] in Hn.
  destruct (offspring_spec g (length done) w parents _ off sts w1 HG EP) as (G1 & L1 & HGo & Hfresh).
  destruct (migration_works g (length done) generation w1 off waiting []) as [[[off' w2] waiting1] EM]; auto; [lia| | |].
  - intros ->. cbn in L1. lia.
  - intros imms Ei. rewrite app_nil_r. destruct (concat_set _ imms [] waiting Ei) as [PW _].
    assert (Hi : forall x, In x imms -> In x (past ++ concat done ++ concat waiting)).
    { intros x Hx. rewrite !in_app_iff. right. right. eapply Permutation_in; [symmetry; exact PW|]. apply in_or_app. auto. }
    assert (HSi : sep w imms).
    { eapply sep_part; [|exact HS1]. exists (concat (set_nth (length done) [] waiting) ++ past ++ concat done).
      eapply perm_trans; [do 2 apply Permutation_app_head; exact PW|]. rewrite !app_assoc.
      eapply perm_trans; [rewrite <- (app_assoc (past ++ concat done)); apply Permutation_app_comm|].
      rewrite <- !app_assoc. auto. }
    split.
    + apply sep_join.
      * apply good_sep in HGo. apply HGo.
      * eapply sep_moves; [apply (moves_grows []); exact G1|auto].
      * intros x Hx C. destruct (Hfresh x Hx). destruct HSi as (_ & _ & HSi). destruct (HSi x C). lia.
      * intros x y Hx C. destruct (Hfresh x Hx). destruct HSi as (_ & _ & HSi). destruct (HSi y C).
        destruct G1 as (_ & _ & G1 & _). rewrite (G1 y) by auto. lia.
    + intros x Hx. destruct (HS4 x) as [s Hf]; [eapply Permutation_in; [symmetry; exact PW|]; apply in_or_app; auto|].
      exists s. eapply fits_same; [|exact Hf]. destruct HSi as (_ & _ & HSi). destruct (HSi x Hx). apply grows_same; auto.
  - rewrite EM. cbn [bind]. rewrite set_nth_mid.
    destruct (island_step g generation parents rest past done waiting w _ off sts w1 off' w2 waiting1 HS EP EM)
      as (HS' & _ & L2 & _).
    replace (done ++ off' :: rest) with ((done ++ [off']) ++ rest) by (rewrite <- app_assoc; auto).
    replace (S (length done)) with (length (done ++ [off'])) by (rewrite app_length; cbn; lia).
    apply (IH past (done ++ [off']) waiting1 w2 HS').
    + rewrite app_length. cbn. lia.
    + lia.
    + intros p Hp. apply Hne. right. auto.
Qed.

Lemma generations_works : forall fuel g gc w earlier pops waiting,
  sep w (members earlier ++ concat pops ++ concat waiting) ->
  Forall (recorded w) earlier -> (forall i p, nth_error pops i = Some p -> good (pb i) w p) ->
  (forall x, In x (concat waiting) -> belongs w x) ->
  length pops = n -> length waiting = n -> (forall p, In p pops -> p <> []) ->
  (max_generations - gc_curr gc <= Z.of_nat fuel)%Z ->
  exists final w' snaps gc', generations fuel g gc w earlier pops waiting = Some (Ok (final, w', snaps), gc') /\
    ((forall i w l, stop i w l = false) ->
     Z.of_nat (length snaps) = (Z.of_nat (length earlier) + Z.max 0 (max_generations - gc_curr gc))%Z).
Proof.
  induction fuel as [|fuel IH]; intros g gc w earlier pops waiting HS HE HG HW Hp Hw Hne Hf; cbn [HeapIslands.generations];
    unfold gc_generation; destruct (Z.ltb_spec (gc_curr gc) max_generations) as [Hlt|Hge];
    try (eexists _, _, _, _; split; [reflexivity|]; lia); [lia|].
  destruct (stop g w pops) eqn:Est.
  { eexists _, _, _, _. split; [reflexivity|]. intros C. rewrite C in Est. discriminate. }
  assert (H0 := first_state w earlier pops waiting HS HG HW).
  destruct (islands_works g (gc_ctx gc) pops _ [] waiting w H0) as [[[pops1 waiting1] w1] EL]; auto.
  cbn [app length] in EL. rewrite EL.
  destruct (islands_spec g (gc_ctx gc) pops _ [] waiting w pops1 waiting1 w1 EL H0)
    as (M1 & L1 & W1 & new & En & Ln & S1 & G1 & _ & B1).
  cbn [app] in En. subst new.
  destruct (IH (S g) (snd (gc_increment [] gc)) w1 (earlier ++ [(w, pops)]) pops1 waiting1) as (final & w' & snaps & gc' & E & HN).
  - rewrite members_app, members_one. exact S1.
  - rewrite Forall_forall in HE |- *. intros s Hs.
    assert (Hr : recorded w s).
    { apply in_app_or in Hs. destruct Hs as [Hs|[<-|[]]]; auto. split; cbn [fst snd]; auto. intros x _. split; auto. }
    eapply recorded_moves; [exact M1| |exact Hr].
    intros x Hx C. apply (members_in _ _ _ Hs) in Hx. rewrite members_app, members_one in Hx. cbn [snd] in Hx.
    rewrite app_assoc in HS. eapply sep_disjoint; [exact HS|exact Hx|exact C].
  - auto.
  - auto.
  - apply (f_equal (@length _)) in Ln. rewrite map_length, repeat_length in Ln. lia.
  - lia.
  - intros p Hp1 ->. apply (in_map (@length nat)) in Hp1. rewrite Ln in Hp1. apply repeat_spec in Hp1. cbn in Hp1. lia.
  - cbn [gc_increment snd gc_curr]. lia.
  - exists final, w', snaps, gc'. split; auto. intros Hst. rewrite (HN Hst). cbn [gc_increment snd gc_curr].
    rewrite app_length. cbn [length]. lia.
Qed.

Lemma create_works pop_size m : forall i w, exists pops w1, create_islands pb decoder robust initialize m i pop_size w = (pops, w1).
Proof. intros. destruct (create_islands pb decoder robust initialize m i pop_size w) as [a b]. eauto. Qed.

Lemma evaluate_islands_works : forall pops i w, sep w (concat pops) ->
  (forall s p x, nth_error pops s = Some p -> In x p -> kind (pb (i + s)) w x) ->
  exists w', evaluate_islands decoder_of problem_of w pops = (Ok tt, w').
Proof.
  induction pops as [|p r IH]; intros i w HS HK; cbn [evaluate_islands]; [eauto|].
  destruct (population_works decoder_of problem_of D (pb i) decoder robust (scored_at i) p w) as (u & w1 & E).
  { intros x Hx. specialize (HK 0 p x eq_refl Hx). rewrite Nat.add_0_r in HK. auto. }
  rewrite E. pose proof (evaluate_sizes _ _ _ _ _ _ E) as (Z1 & Z2 & Z3).
  apply evaluate_population_spec in E. destruct E as (E1 & E3 & E2 & E4).
  apply (IH (S i)).
  - cbn [concat] in HS. eapply sep_part with (l := concat r) in HS; [|exists p; apply Permutation_app_comm].
    eapply (sep_moves p); [|exact HS]. repeat split; try lia.
    + intros j _ Hn. apply E3. auto.
    + intros a _. rewrite E1. auto.
    + intros j _. apply E2.
  - intros s q x Hq Hx. replace (S i + s) with (i + S s) by lia. destruct (HK (S s) q x Hq Hx) as (K1 & K2 & K3 & K4).
    destruct (E2 x) as (G1 & G2 & G3). unfold HeapEa.kind, genes. rewrite Z3, E1, G1, G2, G3. auto.
Qed.

Lemma island_run_works pop_size w : 1 <= pop_size ->
  exists final w' earlier gc', heap_islands n pop_size w = Some (Ok (final, w', earlier), gc') /\
    ((forall i w l, stop i w l = false) -> length earlier = Z.to_nat max_generations).
Proof.
  intros Hps. unfold HeapIslands.heap_islands. destruct (create_works pop_size n 0 w) as (pops & w1 & EC). rewrite EC.
  destruct (create_islands_spec pop_size n 0 w pops w1 EC) as (L & HG & HS & HF & HK).
  destruct (evaluate_islands_works pops 0 w1 HS HK) as [w2 EE]. rewrite EE.
  destruct (initial_islands n pop_size w pops w1 tt w2 EC EE) as (_ & _ & HS2 & HGd).
  destruct (generations_works (Z.to_nat max_generations) 0 (inc_generation 0) w2 [] pops (repeat [] n)) as (final & w' & snaps & gc' & E & HN).
  - rewrite concat_nils, app_nil_r. cbn. auto.
  - constructor.
  - auto.
  - rewrite concat_nils. intros x [].
  - apply (f_equal (@length _)) in L. rewrite map_length, repeat_length in L. auto.
  - apply repeat_length.
  - intros p Hp ->. apply (in_map (@length nat)) in Hp. rewrite L in Hp. apply repeat_spec in Hp. cbn in Hp. lia.
  - cbn [inc_generation gc_curr]. lia.
  - exists final, w', snaps, gc'. split; auto. intros Hst. specialize (HN Hst). cbn [inc_generation gc_curr length] in HN. lia.
Qed.
End Topology.
End Islands.

Lemma foreign_problem :
  exists island_problem stop final w' earlier gc' i p x,
    heap_islands no_decoder two_problems (fun _ => true) island_problem 0 false ex_island_init false
      (fun _ _ _ => ex_at 0) (fun _ _ _ => true) (fun _ _ => ex_at 0) (fun _ _ => 0) other_island 1 1 1 ex_island_ops
      (fun _ _ _ _ _ => 0) stop 2 1 ex_world = Some (Ok (final, w', earlier), gc') /\
    nth_error final i = Some p /\ In x p /\ i_problem (w_ind w' x) <> island_problem i /\
    i_fitness (w_ind w' x) = Some (NInt 3) /\
    score (no_decoder 0) (two_problems (island_problem i)) (genes w' x) = Ok (NInt 0).
Proof.
  exists (fun i => i), (fun _ _ _ => false).
  set (r := heap_islands _ _ _ _ _ _ _ _ _ _ _ _ _ _ _ _ _ _ _ _ _ _).
  assert (H : match r with
    | Some (Ok (final, w', earlier), gc') =>
        exists p x, nth_error final 1 = Some p /\ In x p /\ i_problem (w_ind w' x) <> 1 /\
          i_fitness (w_ind w' x) = Some (NInt 3) /\ score (no_decoder 0) (two_problems 1) (genes w' x) = Ok (NInt 0)
    | _ => False end).
  { unfold r. vm_compute. eexists _, _. split; [reflexivity|]. split; [left; reflexivity|]. repeat split; discriminate. }
  destruct r as [[[[[final w'] earlier]|e] gc']|]; try contradiction. destruct H as (p & x & A & B & C & E & F).
  exists final, w', earlier, gc', 1, p, x. repeat (split; [assumption || reflexivity|]). assumption.
Qed.
