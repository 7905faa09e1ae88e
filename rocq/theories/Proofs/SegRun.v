From Coq Require Import Lia Permutation.
From Verif Require Import Model.Base Model.PyList Model.Variation Model.Segmented Model.SegMutate Model.Selection Model.SegRun
  Spec.Order Spec.Selection Spec.Segmented Spec.SegRun Proofs.Order Proofs.PyList Proofs.ScalarSel Proofs.Algorithm Proofs.Segmented.
From Verif Require Model.Scalar Proofs.HeapEa.

(** ** n-point crossover of lists of any lengths *)
Section Nary.
Context {A : Type}.
Implicit Types a b : list A.

Lemma slice_split s t a : s <= t -> skipn s a = slice s t a ++ skipn t a.
Proof.
  intros H. unfold slice. rewrite <- (firstn_skipn (t - s) (skipn s a)) at 1. f_equal.
  revert s a H. induction t as [|t IH]; intros s a H.
  - replace s with 0 by lia. reflexivity.
  - destruct s as [|s]; [reflexivity|]. destruct a as [|x a]; cbn [skipn]; [destruct (S t - S s); reflexivity|]. apply IH. lia.
Qed.

Fixpoint ascending (s : nat) (pts : list nat) : Prop :=
  match pts with [] => True | p :: r => s <= p /\ ascending p r end.

Lemma sections_part a b n : forall pts s flip, ascending s pts ->
  let r := nary_sections flip (windows (s :: pts ++ [n])) a b in
  exists rest, Permutation (skipn s a ++ skipn s b) ((fst r ++ snd r) ++ rest).
Proof.
  assert (Q0 : forall (u v x y z w : list A), Permutation ((u ++ x) ++ (v ++ y)) ((u ++ v) ++ (x ++ y))).
  { intros. rewrite <- !app_assoc. apply Permutation_app_head. rewrite !app_assoc. apply Permutation_app_tail. apply Permutation_app_comm. }
  induction pts as [|p pts IH]; intros s flip H; cbn [app].
  - cbn [windows nary_sections fst snd]. rewrite !app_nil_r. destruct (Nat.le_gt_cases s n) as [L|L].
    + exists (skipn n a ++ skipn n b). rewrite (slice_split s n a L), (slice_split s n b L).
      eapply perm_trans; [apply Q0; exact a|]. apply Permutation_app_tail. destruct flip; [apply Permutation_app_comm|auto].
    + exists (skipn s a ++ skipn s b). unfold slice. replace (n - s) with 0 by lia. cbn. auto.
  - change (windows (s :: p :: pts ++ [n])) with ((s, p) :: windows (p :: pts ++ [n])). cbn [nary_sections].
    destruct H as [H1 H2]. destruct (IH p (negb flip) H2) as [rest R].
    destruct (nary_sections (negb flip) (windows (p :: pts ++ [n])) a b) as [s1 s2]. cbn [fst snd] in *.
    exists rest. rewrite (slice_split s p a H1), (slice_split s p b H1).
    eapply perm_trans; [apply Q0; exact a|].
    eapply perm_trans; [apply Permutation_app_head; exact R|]. rewrite app_assoc. apply Permutation_app_tail.
    eapply perm_trans; [|symmetry; apply Q0; exact a]. apply Permutation_app_tail. destruct flip; [apply Permutation_app_comm|auto].
Qed.

Lemma slice_nonempty s t a : s < t -> skipn s a <> [] -> slice s t a <> [].
Proof.
  unfold slice. intros H N. destruct (skipn s a); [contradiction|]. destruct (t - s) eqn:E; [lia|]. discriminate.
Qed.

Lemma sections_nonempty a b n : forall pts s flip, ascending s pts -> s < n -> skipn s a <> [] -> skipn s b <> [] ->
  let r := nary_sections flip (windows (s :: pts ++ [n])) a b in fst r <> [] /\ snd r <> [].
Proof.
  induction pts as [|p pts IH]; intros s flip H L Ha Hb; cbn [app].
  - cbn [windows nary_sections fst snd]. rewrite !app_nil_r.
    destruct flip; split; apply slice_nonempty; auto.
  - change (windows (s :: p :: pts ++ [n])) with ((s, p) :: windows (p :: pts ++ [n])). cbn [nary_sections].
    destruct H as [H1 H2]. destruct (Nat.eq_dec s p) as [->|N].
    + destruct (IH p (negb flip) H2 L Ha Hb) as [A1 A2].
      destruct (nary_sections (negb flip) (windows (p :: pts ++ [n])) a b) as [s1 s2]. cbn [fst snd] in *.
      split; intros C; apply app_eq_nil in C; destruct C; contradiction.
    + destruct (nary_sections (negb flip) (windows (p :: pts ++ [n])) a b) as [s1 s2]. cbn [fst snd].
      assert (s < p) by lia. split; intros C; apply app_eq_nil in C; destruct C as [C _]; revert C;
        destruct flip; apply slice_nonempty; auto.
Qed.
End Nary.

Lemma insert_nat_asc x : forall l s, s <= x -> ascending s l -> ascending s (insert_nat x l).
Proof.
  induction l as [|y l IH]; intros s H K; cbn [insert_nat]; [cbn; auto|].
  destruct K as [K1 K2]. destruct (Nat.leb_spec x y); cbn; [repeat split; auto; lia|]. split; auto. apply IH; auto. lia.
Qed.
Lemma sort_nat_asc l : ascending 0 (sort_nat l).
Proof. induction l as [|x l IH]; cbn [sort_nat]; [exact I|]. apply insert_nat_asc; auto. lia. Qed.

Lemma nary_part {A} n draws (a b c d : list A) : nary_recombine n draws a b = Ok (c, d) ->
  exists rest, Permutation (a ++ b) ((c ++ d) ++ rest).
Proof.
  unfold nary_recombine. destruct (_ || _); [discriminate|]. intros H. apply (f_equal (fun r => match r with Ok v => v | Err _ => (c, d) end)) in H.
  pose proof (sections_part a b (length a) (sort_nat draws) 0 false (sort_nat_asc draws)) as K.
  unfold pick_crossover_points in H. change ([0] ++ sort_nat draws ++ [length a]) with (0 :: sort_nat draws ++ [length a]) in H.
  rewrite H in K. exact K.
Qed.
Lemma nary_nonempty {A} n draws (a b c d : list A) : nary_recombine n draws a b = Ok (c, d) ->
  a <> [] -> b <> [] -> c <> [] /\ d <> [].
Proof.
  unfold nary_recombine. destruct (_ || _); [discriminate|]. intros H Ha Hb. apply (f_equal (fun r => match r with Ok v => v | Err _ => (c, d) end)) in H.
  pose proof (sections_nonempty a b (length a) (sort_nat draws) 0 false (sort_nat_asc draws)) as K.
  unfold pick_crossover_points in H. change ([0] ++ sort_nat draws ++ [length a]) with (0 :: sort_nat draws ++ [length a]) in H.
  rewrite H in K. apply K; auto.
  destruct a; [contradiction|cbn; lia].
Qed.

Lemma NoDup_app_l {A} (l m : list A) : NoDup (l ++ m) -> NoDup l.
Proof. induction l; cbn; intros H; constructor; apply NoDup_cons_iff in H; destruct H as [H1 H2]; auto. intros C. apply H1, in_or_app. auto. Qed.
Lemma NoDup_app_r {A} (l m : list A) : NoDup (l ++ m) -> NoDup m.
Proof. induction l; cbn; auto. intros H. apply NoDup_cons_iff in H. apply IHl, H. Qed.
Lemma NoDup_app_disj {A} (l m : list A) x : NoDup (l ++ m) -> In x l -> ~ In x m.
Proof.
  induction l as [|y l IH]; cbn; [intros _ []|]. intros H K C. apply NoDup_cons_iff in H. destruct H as [H1 H2].
  destruct K as [->|K]; [apply H1; apply in_or_app; auto|]. apply IH; auto.
Qed.

Section Proofs.
Context {G : Type}.
Implicit Types st : store G.

(** ** clone *)
Lemma deepcopy_spec : forall genome memo st base l st',
  base <= s_next st -> Forall (fun a => a < base) genome ->
  (forall a b, memo_get a memo = Some b -> a < base /\ base <= b < s_next st /\ s_seg st b = s_seg st a) ->
  (forall a a' b, memo_get a memo = Some b -> memo_get a' memo = Some b -> a = a') ->
  deepcopy genome memo st = (l, st') ->
  s_next st <= s_next st' /\ (forall c, c < s_next st -> s_seg st' c = s_seg st c) /\
  exists f, l = map f genome /\ (forall a b, memo_get a memo = Some b -> f a = b) /\
    (forall a, In a genome -> base <= f a < s_next st' /\ s_seg st' (f a) = s_seg st a) /\
    (forall a a', In a genome \/ memo_get a memo <> None -> In a' genome \/ memo_get a' memo <> None -> f a = f a' -> a = a').
Proof.
  induction genome as [|a genome IH]; intros memo st base l st' HB HF HM HI H; cbn [deepcopy] in H.
  - injection H as <- <-. split; auto. split; auto.
    exists (fun a => match memo_get a memo with Some b => b | None => 0 end). split; auto. split; [intros x b ->; auto|].
    split; [intros x []|]. intros x y [[]|Hx] [[]|Hy].
    destruct (memo_get x memo) as [b|] eqn:E1; [|contradiction]. destruct (memo_get y memo) as [c|] eqn:E2; [|contradiction].
    intros ->. eauto.
  - pose proof (Forall_inv HF) as Ha. apply Forall_inv_tail in HF. cbn in Ha.
    destruct (memo_get a memo) as [b|] eqn:E.
    + destruct (deepcopy genome memo st) as [l1 st1] eqn:R. injection H as <- <-.
      destruct (IH memo st base l1 st1 HB HF HM HI R) as (N & FR & f & -> & F1 & F2 & F3).
      split; auto. split; auto. exists f. split; [cbn; f_equal; symmetry; auto|]. split; auto. split.
      * intros x [<-|Hx]; [|auto]. rewrite (F1 _ _ E). destruct (HM _ _ E) as (_ & A & B). split; [lia|]. rewrite FR by lia. auto.
      * intros x y Hx Hy. apply F3.
        -- destruct Hx as [[<-|Hx]|Hx]; auto. right. congruence.
        -- destruct Hy as [[<-|Hy]|Hy]; auto. right. congruence.
    + cbn [new_seg] in H. set (st1 := mk_store _ _) in H. set (b := s_next st) in *.
      destruct (deepcopy genome ((a, b) :: memo) st1) as [l1 st2] eqn:R. injection H as <- <-.
      assert (K1 : forall c, c < b -> s_seg st1 c = s_seg st c).
      { intros c Hc. unfold st1. cbn. destruct (Nat.eqb_spec c b); [lia|auto]. }
      assert (K2 : s_seg st1 b = s_seg st a) by (unfold st1; cbn; rewrite Nat.eqb_refl; auto).
      assert (K3 : s_next st1 = S b) by reflexivity.
      destruct (IH ((a, b) :: memo) st1 base l1 st2) as (N & FR & f & -> & F1 & F2 & F3); auto; try lia.
      * intros x y. cbn [memo_get]. destruct (Nat.eqb_spec x a) as [->|D].
        -- intros [= <-]. rewrite K2, K1 by lia. repeat split; auto; lia.
        -- intros M. destruct (HM _ _ M) as (A & B & C). rewrite !K1 by lia. repeat split; auto; lia.
      * intros x y z. cbn [memo_get]. destruct (Nat.eqb_spec x a) as [->|D1], (Nat.eqb_spec y a) as [->|D2]; auto.
        -- intros [= <-] M. apply HM in M. fold b in M. lia.
        -- intros M [= <-]. apply HM in M. fold b in M. lia.
        -- apply HI.
      * assert (Fa : f a = b) by (apply F1; cbn; rewrite Nat.eqb_refl; auto).
        split; [lia|]. split; [intros c Hc; rewrite FR by lia; apply K1; auto|].
        exists f. split; [cbn; f_equal; auto|]. split; [|split].
        -- intros x y M. apply F1. cbn [memo_get]. destruct (Nat.eqb_spec x a); [congruence|auto].
        -- intros x [<-|Hx]; [rewrite Fa; split; [lia|rewrite FR by lia; auto]|].
           destruct (F2 x Hx) as [A B]. split; auto. rewrite B. apply K1. rewrite Forall_forall in HF. specialize (HF x Hx). cbn in HF. lia.
        -- assert (T : forall x, In x (a :: genome) \/ memo_get x memo <> None -> In x genome \/ memo_get x ((a, b) :: memo) <> None).
           { intros x Hx. cbn [memo_get]. destruct (Nat.eqb_spec x a) as [->|D]; [right; discriminate|].
             destruct Hx as [[Hx|Hx]|Hx]; auto; congruence. }
           intros x y Hx Hy. apply F3; auto.
Qed.

Lemma clone_spec st x c st' : seg_sane st x -> clone_seg st x = (c, st') ->
  s_next st <= s_next st' /\ (forall a, a < s_next st -> s_seg st' a = s_seg st a) /\
  exists f, sg_genome c = map f (sg_genome x) /\ sg_fitness c = None /\
    (forall a, In a (sg_genome x) -> s_next st <= f a < s_next st' /\ s_seg st' (f a) = s_seg st a) /\
    (forall a a', In a (sg_genome x) -> In a' (sg_genome x) -> f a = f a' -> a = a').
Proof.
  unfold clone_seg. intros HS H. destruct (deepcopy (sg_genome x) [] st) as [l st1] eqn:E. injection H as <- <-.
  destruct (deepcopy_spec _ [] st (s_next st) _ _ (le_n _) HS ltac:(discriminate) ltac:(discriminate) E) as (A & B & f & C & _ & D & F).
  split; auto. split; auto. exists f. cbn. split; auto.
Qed.

(** ** operators *)
Definition step_ok st (x : sind) st' (x' : sind) : Prop :=
  s_next st <= s_next st' /\ seg_sane st' x' /\
  (forall a, In a (sg_genome x') -> In a (sg_genome x) \/ s_next st <= a) /\
  (forall c, c < s_next st -> ~ In c (sg_genome x) -> s_seg st' c = s_seg st c).

Lemma step_refl st x : seg_sane st x -> step_ok st x st x.
Proof. intros H. repeat split; auto. Qed.
Lemma step_trans st x st1 x1 st2 x2 : step_ok st x st1 x1 -> step_ok st1 x1 st2 x2 -> step_ok st x st2 x2.
Proof.
  intros (A1 & B1 & C1 & D1) (A2 & B2 & C2 & D2). split; [lia|]. split; auto. split.
  - intros a Ha. apply C2 in Ha. destruct Ha as [Ha|Ha]; [auto|right; lia].
  - intros c Hc Hn. rewrite D2; auto; [lia|]. intros K. apply C1 in K. destruct K; [auto|lia].
Qed.

Variable D : list G -> Prop.
(** flags: no array occurs twice in a genome; a bound on the number of arrays in a genome *)
Variable nodup : bool.
Variable bound : option nat.

Definition kept st (x : sind) : Prop :=
  sg_genome x <> [] /\ (forall a, In a (sg_genome x) -> D (s_seg st a)) /\ (nodup = true -> NoDup (sg_genome x)) /\
  (forall n, bound = Some n -> exists l, length l <= n /\ incl (sg_genome x) l).
Definition op_fits (op : seg_op G) : Prop :=
  stays_in D op /\ (nodup = true -> is_copy op = false) /\ (bound <> None -> in_place op).

Lemma kept_same st st' x x' : sg_genome x' = sg_genome x -> (forall a, In a (sg_genome x) -> s_seg st' a = s_seg st a) ->
  kept st x -> kept st' x'.
Proof. intros E H (A & B & C & F). unfold kept. rewrite E. repeat (split; auto). intros a Ha. rewrite H; auto. Qed.

Lemma mutate_segments_step (mutator : nat -> list G -> result (list G)) : forall genome k st st',
  mutate_segments mutator k genome st = Ok st' ->
  s_next st' = s_next st /\ (forall c, ~ In c genome -> s_seg st' c = s_seg st c) /\
  ((forall k g g', D g -> mutator k g = Ok g' -> D g') ->
   forall S : nat -> Prop, (forall a, S a -> D (s_seg st a)) -> (forall a, In a genome -> S a) -> forall a, S a -> D (s_seg st' a)).
Proof.
  induction genome as [|a genome IH]; intros k st st' H; cbn [mutate_segments] in H.
  - injection H as <-. auto.
  - destruct (mutator k (s_seg st a)) as [g|] eqn:E; cbn [bind Pipeline.in_generator] in H; [|discriminate].
    destruct (IH _ _ _ H) as (A & B & C). split; [rewrite A; auto|]. split.
    + intros c Hc. rewrite B; [|intros K; apply Hc; right; auto]. cbn. destruct (Nat.eqb_spec c a); auto. subst. destruct Hc. left. auto.
    + intros HM S HS Hin c Hc. apply (C HM S); auto; [|intros; apply Hin; right; auto].
      intros b Hb. cbn. destruct (Nat.eqb_spec b a); auto. eapply HM; [|exact E]. apply HS, Hin. left. auto.
Qed.

Lemma call_step (m : smutator G) st a st1 b : call_mutator m st a = (st1, Ok b) -> a < s_next st ->
  s_next st <= s_next st1 /\ b < s_next st1 /\ (b = a \/ b = s_next st /\ exists w h, m (s_seg st a) = (w, Ok (Some h))) /\
  (forall c, c < s_next st -> c <> a -> s_seg st1 c = s_seg st c) /\
  ((forall w r, m (s_seg st a) = (w, r) -> D w /\ (forall h, r = Ok (Some h) -> D h)) -> D (s_seg st1 a) /\ D (s_seg st1 b)).
Proof.
  unfold call_mutator. destruct (m (s_seg st a)) as [w [[h|]|e]] eqn:E; [| |discriminate]; intros H L.
  - cbn [new_seg] in H. injection H as <- <-. cbn. rewrite !Nat.eqb_refl. repeat split; auto; try lia.
    + right. split; eauto.
    + intros c H1 H2. destruct (Nat.eqb_spec c (s_next st)); [lia|]. destruct (Nat.eqb_spec c a); [contradiction|auto].
    + destruct (H _ _ eq_refl). destruct (Nat.eqb_spec a (s_next st)); [lia|]. auto.
    + destruct (H _ _ eq_refl). auto.
  - injection H as <- <-. cbn. rewrite !Nat.eqb_refl. repeat split; auto; try lia.
    + intros c H1 H2. destruct (Nat.eqb_spec c a); [contradiction|auto].
    + destruct (H _ _ eq_refl). auto.
    + destruct (H _ _ eq_refl). auto.
Qed.

Lemma mutate_each_step (ms : list (smutator G)) : forall segments st acc st1 l,
  mutate_each segments ms st acc = (st1, Ok l) -> length segments = length ms ->
  Forall (fun a => a < s_next st) segments -> Forall (fun a => a < s_next st) acc ->
  s_next st <= s_next st1 /\ Forall (fun a => a < s_next st1) l /\ length l = length acc + length segments /\
  (forall a, In a l -> In a acc \/ In a segments \/ s_next st <= a) /\
  (forall c, c < s_next st -> ~ In c segments -> s_seg st1 c = s_seg st c) /\
  ((forall m, In m ms -> forall g w r, D g -> m g = (w, r) -> D w /\ (forall h, r = Ok (Some h) -> D h)) ->
   (forall a, In a (acc ++ segments) -> D (s_seg st a)) -> forall a, In a l -> D (s_seg st1 a)) /\
  (NoDup (acc ++ segments) -> NoDup l) /\
  ((forall m, In m ms -> forall g w h, m g <> (w, Ok (Some h))) -> incl l (acc ++ segments)).
Proof.
  induction ms as [|m ms IH]; intros segments st acc st1 l H L HS HA; destruct segments as [|a segments]; try discriminate L; cbn [mutate_each] in H.
  - injection H as <- <-. rewrite app_nil_r. cbn. split; [lia|]. split; auto. split; [lia|]. repeat (split; [solve [auto]|]). intros. apply incl_refl.
  - cbn in L. destruct (call_mutator m st a) as [st2 [b|e]] eqn:E; [|discriminate].
    pose proof (Forall_inv HS) as Ha. apply Forall_inv_tail in HS. cbn in Ha.
    destruct (call_step _ _ _ _ _ E Ha) as (N1 & B1 & OR & FR & DD).
    destruct (IH segments st2 (acc ++ [b]) st1 l H) as (P1 & P2 & P3 & P4 & P5 & P6 & P7 & P8); [lia| | |].
    { eapply Forall_impl; [|exact HS]. cbn. intros. lia. }
    { apply Forall_app. split; [eapply Forall_impl; [|exact HA]; cbn; intros; lia|auto]. }
    rewrite app_length in P3. cbn [length] in *.
    split; [lia|]. split; auto. split; [lia|]. split; [|split; [|split; [|split]]].
    + intros c Hc. apply P4 in Hc. rewrite in_app_iff in Hc. cbn in Hc. destruct Hc as [[Hc|[<-|[]]]|[Hc|Hc]]; auto.
      * destruct OR as [->|[-> _]]; [right; left; left; auto|right; right; lia].
      * right; left; right; auto.
      * right; right; lia.
    + intros c Hc Hn. rewrite P5; [|lia|intros K; apply Hn; right; auto]. apply FR; auto. intros ->. apply Hn. left. auto.
    + intros HM HD c Hc. apply P6; auto; [intros m' Hm'; apply HM; right; auto|].
      destruct (DD (fun w r R => HM m (or_introl eq_refl) _ w r (HD a ltac:(apply in_or_app; right; left; auto)) R)) as [Da Db].
      intros z Hz. destruct (Nat.eq_dec z a) as [->|Za]; auto. destruct (Nat.eq_dec z b) as [->|Zb]; auto.
      rewrite <- app_assoc in Hz. apply in_app_or in Hz. destruct Hz as [Hz|[Hz|Hz]]; [|congruence|].
      * rewrite FR; auto; [apply HD; apply in_or_app; auto|]. rewrite Forall_forall in HA. apply HA. auto.
      * rewrite FR; auto; [apply HD; apply in_or_app; right; right; auto|]. rewrite Forall_forall in HS. apply HS. auto.
    + intros HN. apply P7. rewrite <- app_assoc. cbn [app]. destruct OR as [->|[-> _]]; auto.
      apply NoDup_remove in HN. destruct HN as [HN _]. eapply Permutation_NoDup; [apply Permutation_middle|]. constructor; auto.
      intros K. apply in_app_or in K. rewrite Forall_forall in HA, HS. destruct K as [K|K]; [apply HA in K|apply HS in K]; lia.
    + intros HM. destruct OR as [->|[-> (w & h & C)]]; [|exfalso; eapply HM; [left; reflexivity|exact C]].
      rewrite <- app_assoc in P8. cbn [app] in P8. apply P8. intros m' Hm'. apply HM. right. auto.
Qed.

Lemma op_good op st x x' st' : op_fits op -> seg_sane st x -> kept st x -> apply_op op st x = Ok (x', st') ->
  step_ok st x st' x' /\ kept st' x'.
Proof.
  intros (F1 & F2 & F3) HS (K1 & K2 & K3 & K4) H. destruct op as [p u init app d|p u d|p u app d1 d2|mu ex|ms]; cbn [apply_op] in H.
  - unfold add_segment in H. destruct (Qltb u p); [|injection H as <- <-; split; [apply step_refl; auto|repeat (split; auto)]].
    cbn [new_seg] in H. set (st1 := mk_store _ _) in H. cbn in F1.
    assert (R : forall l, Permutation (s_next st :: sg_genome x) l -> step_ok st x st1 (mk_sind l None) /\ kept st1 (mk_sind l None)).
    { intros l P. assert (M : forall a, In a l -> a = s_next st \/ In a (sg_genome x)).
      { intros a Ha. apply (Permutation_in _ (Permutation_sym P)) in Ha. destruct Ha; auto. }
      unfold seg_sane in HS. rewrite Forall_forall in HS. split; [split; [cbn; lia|split; [|split]]|split; [|split; [|split]]].
      - apply Forall_forall. cbn. intros a Ha. destruct (M a Ha) as [->|Hx]; [lia|]. apply HS in Hx. lia.
      - cbn. intros a Ha. destruct (M a Ha) as [->|Hx]; auto.
      - intros c Hc _. cbn. destruct (Nat.eqb_spec c (s_next st)); [lia|auto].
      - cbn. intros ->. apply Permutation_sym, Permutation_nil_cons in P. auto.
      - cbn. intros a Ha. destruct (Nat.eqb_spec a (s_next st)); auto. destruct (M a Ha) as [->|Hx]; [contradiction|auto].
      - cbn. intros N. eapply Permutation_NoDup; [exact P|]. constructor; auto. intros C. apply HS in C. lia.
      - intros n B. exfalso. apply F3. congruence. }
    destruct app.
    + injection H as <- <-. apply R. apply Permutation_cons_append.
    + destruct (randrange d _) as [k|]; cbn [bind Pipeline.in_generator] in H; [|discriminate]. injection H as <- <-. apply R.
      unfold insert_at. rewrite <- (firstn_skipn k (sg_genome x)) at 1. apply Permutation_middle.
  - unfold remove_segment in H.
    assert (R : forall y, (forall a, In a (sg_genome y) -> In a (sg_genome x)) -> sg_genome y <> [] -> (NoDup (sg_genome x) -> NoDup (sg_genome y)) ->
              step_ok st x st y /\ kept st y).
    { intros y A B C. unfold seg_sane in HS. rewrite Forall_forall in HS. split; [split; [lia|split; [apply Forall_forall; auto|split; auto]]|].
      split; auto. split; auto. split; auto. intros n E. destruct (K4 n E) as (l & L1 & L2). exists l. split; auto. intros a Ha. apply L2, A, Ha. }
    destruct (Nat.ltb_spec 1 (length (sg_genome x))) as [L|L]; [|injection H as <- <-; apply R; auto].
    destruct (Qltb u p); [|injection H as <- <-; apply R; auto].
    destruct (randrange_ok d (length (sg_genome x))) as (k & Ek & Hk); [lia|]. rewrite Ek in H. cbn [bind Pipeline.in_generator] in H. injection H as <- <-.
    destruct (delete_at_spec k _ Hk) as (l1 & z & l2 & E1 & E2). cbn [sg_genome] in *. apply R; cbn; rewrite E2; rewrite E1 in *.
    + intros a Ha. apply in_app_or in Ha. apply in_or_app. destruct Ha; [auto|right; right; auto].
    + intros C. apply app_eq_nil in C. destruct C as [-> ->]. cbn in L. lia.
    + apply NoDup_remove_1.
  - unfold copy_segment in H. destruct (Qltb u p); [|injection H as <- <-; split; [apply step_refl; auto|repeat (split; auto)]].
    assert (R : forall l b, In b (sg_genome x) -> Permutation (b :: sg_genome x) l -> step_ok st x st (mk_sind l None) /\ kept st (mk_sind l None)).
    { intros l b Hb P. assert (M : forall a, In a l -> In a (sg_genome x)).
      { intros a Ha. apply (Permutation_in _ (Permutation_sym P)) in Ha. destruct Ha as [<-|]; auto. }
      unfold seg_sane in HS. rewrite Forall_forall in HS. split; [split; [lia|split; [apply Forall_forall; cbn; auto|split; auto]]|].
      split; [cbn; intros ->; apply Permutation_sym, Permutation_nil_cons in P; auto|]. split; [cbn; auto|].
      split; [intros N; discriminate (F2 N)|]. intros n E. destruct (K4 n E) as (l' & L1 & L2). exists l'. split; auto. intros a Ha. apply L2, M, Ha. }
    destruct (randrange d1 _) as [k|]; cbn [bind Pipeline.in_generator] in H; [|discriminate].
    destruct (nth_error (sg_genome x) k) as [b|] eqn:E; [|discriminate]. apply nth_error_In in E. destruct app.
    + injection H as <- <-. apply (R _ b E). apply Permutation_cons_append.
    + destruct (randrange d2 _) as [q|]; cbn [bind Pipeline.in_generator] in H; [|discriminate]. injection H as <- <-. apply (R _ b E).
      unfold insert_at. rewrite <- (firstn_skipn q (sg_genome x)) at 1. apply Permutation_middle.
  - unfold apply_mutation in H. destruct (compute_expected_probability _ _) as [p|]; cbn [bind Pipeline.in_generator] in H; [|discriminate].
    destruct (mutate_segments (mu p) 0 (sg_genome x) st) as [st1|] eqn:E; cbn [bind Pipeline.in_generator] in H; [|discriminate]. injection H as <- <-.
    destruct (mutate_segments_step _ _ _ _ _ E) as (A & B & C). split.
    + split; [lia|]. split; [unfold seg_sane; rewrite A; exact HS|]. split; [auto|]. intros c _ Hc. auto.
    + split; [exact K1|]. split; [|split; auto]. cbn. intros a Ha. apply (C ltac:(intros; eapply F1; eauto) (fun a => In a (sg_genome x))); auto.
  - unfold segmented_mutate in H. destruct (Nat.eqb_spec (length (sg_genome x)) (length ms)) as [L|]; [|discriminate].
    destruct (mutate_each (sg_genome x) ms st []) as [st1 [l|]] eqn:E; [|discriminate]. injection H as <- <-.
    destruct (mutate_each_step _ _ _ _ _ _ E L HS (Forall_nil _)) as (P1 & P2 & P3 & P4 & P5 & P6 & P7 & P8). cbn in *. split.
    + split; auto. split; [exact P2|]. split; [|auto]. cbn. intros a Ha. apply P4 in Ha. destruct Ha as [[]|Ha]; auto.
    + split; [cbn; intros ->; cbn in P3; destruct (sg_genome x); [contradiction|discriminate]|].
      split; [cbn; auto|]. split; [cbn; auto|]. cbn. intros n Bn. destruct (K4 n Bn) as (l' & L1 & L2). exists l'. split; auto.
      intros a Ha. apply L2. apply P8; auto. apply F3. congruence.
Qed.

Lemma ops_good : forall ops st x x' st', Forall op_fits ops -> seg_sane st x -> kept st x -> apply_ops ops st x = Ok (x', st') ->
  step_ok st x st' x' /\ kept st' x'.
Proof.
  induction ops as [|op ops IH]; intros st x x' st' HF HS HK H; cbn [apply_ops] in H.
  - injection H as <- <-. split; auto. apply step_refl. auto.
  - destruct (apply_op op st x) as [[y st1]|] eqn:E; cbn [bind Pipeline.in_generator] in H; [|discriminate].
    destruct (op_good op st x y st1 (Forall_inv HF) HS HK E) as [A B].
    destruct (IH st1 y x' st' (Forall_inv_tail HF)) as [A' B']; auto; [apply A|]. split; auto. eapply step_trans; eauto.
Qed.
End Proofs.

(** ** generations *)
Section Gen.
Context {G : Type}.
Implicit Types st : store G.
Variable score : list (list G) -> result num.
Variable D : list G -> Prop.
Variable nodup : bool.
Variable bound : option nat.
Notation kept := (kept D nodup bound).
Notation op_fits := (op_fits D nodup bound).

Definition fit st (x : sind) : Prop := exists f, sg_fitness x = Some f /\ score (contents st x) = Ok f.
Definition good st (x : sind) : Prop := seg_sane st x /\ kept st x.
Definition born (lo hi : nat) (x : sind) : Prop := Forall (fun a => lo <= a < hi) (sg_genome x).

Lemma contents_same st st' x : (forall a, In a (sg_genome x) -> s_seg st' a = s_seg st a) -> contents st' x = contents st x.
Proof. intros H. unfold contents. apply map_ext_in. auto. Qed.
Lemma good_same st st' x : s_next st <= s_next st' -> (forall a, In a (sg_genome x) -> s_seg st' a = s_seg st a) ->
  good st x -> good st' x.
Proof.
  intros N H [A B]. split; [|eapply kept_same; eauto]. unfold seg_sane in *. eapply Forall_impl; [|exact A]. cbn. intros. lia.
Qed.
Lemma fit_same st st' x : (forall a, In a (sg_genome x) -> s_seg st' a = s_seg st a) -> fit st x -> fit st' x.
Proof. intros H (f & A & B). exists f. rewrite (contents_same _ _ _ H). auto. Qed.
Lemma sane_in st (x : sind) a : seg_sane st x -> In a (sg_genome x) -> a < s_next st.
Proof. unfold seg_sane. rewrite Forall_forall. auto. Qed.

Lemma finish_good ops st x y st' : Forall op_fits ops -> good st x -> finish score ops st x = Ok (y, st') ->
  step_ok st x st' y /\ good st' y /\ fit st' y.
Proof.
  unfold finish. intros HF [HS HK] H. destruct (apply_ops ops st x) as [[z st1]|] eqn:E; cbn [bind Pipeline.in_generator] in H; [|discriminate].
  destruct (ops_good _ _ _ _ _ _ _ _ HF HS HK E) as [A B]. unfold evaluate_seg in H.
  destruct (score (contents st1 z)) as [f|] eqn:S; cbn [bind Pipeline.in_generator] in H; [|discriminate]. injection H as <- <-.
  split; [exact A|]. split; [split; [apply A|exact B]|]. exists f. auto.
Qed.

Lemma clone_good st x c st' : good st x -> clone_seg st x = (c, st') ->
  s_next st <= s_next st' /\ (forall a, a < s_next st -> s_seg st' a = s_seg st a) /\ good st' c /\ born (s_next st) (s_next st') c.
Proof.
  intros [HS (K1 & K2 & K3 & K4)] H. destruct (clone_spec _ _ _ _ HS H) as (A & B & f & C & _ & F1 & F2).
  assert (Bn : born (s_next st) (s_next st') c).
  { apply Forall_forall. rewrite C. intros b Hb. apply in_map_iff in Hb. destruct Hb as (a & <- & Ha). apply F1. auto. }
  split; auto. split; auto. split; auto. split; [unfold seg_sane; eapply Forall_impl; [|exact Bn]; cbn; intros; lia|].
  unfold SegRun.kept. rewrite C. split; [destruct (sg_genome x); [contradiction|discriminate]|]. split; [|split].
  - intros b Hb. apply in_map_iff in Hb. destruct Hb as (a & <- & Ha). destruct (F1 a Ha) as [_ ->]. auto.
  - intros N. specialize (K3 N). revert F2 K3. generalize (sg_genome x). clear.
    induction l as [|a l IH]; intros F N; cbn; constructor; apply NoDup_cons_iff in N; destruct N as [N1 N2].
    + intros C. apply in_map_iff in C. destruct C as (b & E & Hb). apply F in E; [|right; auto|left; auto]. subst. auto.
    + apply IH; auto. intros. apply F; auto; right; auto.
  - intros n E. destruct (K4 n E) as (l & L1 & L2). exists (map f l). rewrite map_length. split; auto. apply incl_map. auto.
Qed.

Lemma born_wider lo hi lo' hi' x : lo' <= lo -> hi <= hi' -> born lo hi x -> born lo' hi' x.
Proof. intros A B H. unfold born in *. eapply Forall_impl; [|exact H]. cbn. intros. lia. Qed.
Lemma born_apart lo mid hi x y : born lo mid x -> born mid hi y -> apart x y.
Proof. unfold born, apart. rewrite !Forall_forall. intros A B a Ha Hb. apply A in Ha. apply B in Hb. lia. Qed.
Lemma born_in lo hi x a : born lo hi x -> In a (sg_genome x) -> lo <= a < hi.
Proof. unfold born. rewrite Forall_forall. auto. Qed.
Lemma apart_sym x y : apart x y -> apart y x.
Proof. unfold apart. intros H a A B. eapply H; eauto. Qed.

Lemma step_born st x st' y lo : lo <= s_next st -> born lo (s_next st) x -> step_ok st x st' y -> born lo (s_next st') y.
Proof.
  intros L B (N & S & I & _). apply Forall_forall. intros a Ha. pose proof (sane_in _ _ _ S Ha).
  apply I in Ha. destruct Ha as [Ha|Ha]; [apply (born_in _ _ _ _ B) in Ha|]; lia.
Qed.

(** the state after a batch of offspring *)
Definition batch st st' (ys : list sind) : Prop :=
  s_next st <= s_next st' /\ (forall a, a < s_next st -> s_seg st' a = s_seg st a) /\
  Forall (fun y => good st' y /\ fit st' y /\ born (s_next st) (s_next st') y) ys /\ ForallOrdPairs apart ys.

Lemma batch_app st st1 st2 ys zs : batch st st1 ys -> batch st1 st2 zs -> batch st st2 (ys ++ zs).
Proof.
  intros (A1 & B1 & C1 & D1) (A2 & B2 & C2 & D2). split; [lia|]. split; [intros a Ha; rewrite B2 by lia; auto|]. split.
  - apply Forall_app. split.
    + eapply Forall_impl; [|exact C1]. cbn. intros y (Y1 & Y2 & Y3).
      assert (E : forall a, In a (sg_genome y) -> s_seg st2 a = s_seg st1 a) by (intros a Ha; apply B2; apply (born_in _ _ _ _ Y3) in Ha; lia).
      split; [eapply good_same; eauto|]. split; [eapply fit_same; eauto|]. eapply born_wider; [| |exact Y3]; lia.
    + eapply Forall_impl; [|exact C2]. cbn. intros y (Y1 & Y2 & Y3). split; auto. split; auto. eapply born_wider; [| |exact Y3]; lia.
  - revert C1 D1. clear - C2 D2. intros C1 D1. induction D1 as [|y ys H D1 IH]; cbn; auto. constructor; [|apply IH; eapply Forall_inv_tail; eauto].
    apply Forall_app. split; auto. eapply Forall_impl; [|exact C2]. cbn. intros z (_ & _ & Z). apply Forall_inv in C1.
    eapply born_apart; [apply C1|exact Z].
Qed.

Lemma breed_good : forall plans parents st ys st', Forall (good st) parents -> Forall op_fits (flat_map pl_ops plans) ->
  breed score plans parents st = Ok (ys, st') -> batch st st' ys /\ length ys = length plans.
Proof.
  induction plans as [|p plans IH]; intros parents st ys st' HP HF H; cbn [breed] in H.
  - injection H as <- <-. split; auto. repeat split; auto; constructor.
  - cbn [flat_map] in HF. apply Forall_app in HF. destruct HF as [HF1 HF2].
    unfold picked in H. destruct (nth_error parents (pl_pick p)) as [x|] eqn:E; cbn [bind Pipeline.in_generator] in H; [|discriminate].
    apply nth_error_In in E. assert (Gx : good st x) by (rewrite Forall_forall in HP; auto).
    destruct (clone_seg st x) as [c st1] eqn:C. destruct (clone_good _ _ _ _ Gx C) as (N1 & F1 & G1 & B1).
    destruct (finish score (pl_ops p) st1 c) as [[y st2]|] eqn:Fi; cbn [bind Pipeline.in_generator] in H; [|discriminate].
    destruct (finish_good _ _ _ _ _ HF1 G1 Fi) as (S2 & G2 & Ft).
    destruct (breed score plans parents st2) as [[zs st3]|] eqn:R; cbn [bind Pipeline.in_generator] in H; [|discriminate]. injection H as <- <-.
    assert (B : batch st st2 [y]).
    { destruct S2 as (N2 & Sa & I2 & F2). split; [lia|]. split.
      - intros a Ha. rewrite F2, F1; auto; [lia|]. intros K. apply (born_in _ _ _ _ B1) in K. lia.
      - split; [|repeat constructor]. constructor; [|constructor]. split; auto. split; auto.
        eapply step_born; eauto. repeat split; auto. }
    destruct (IH parents st2 zs st3) as [Bz Lz]; auto.
    { eapply Forall_impl; [|exact HP]. cbn. intros q Gq. eapply good_same; [apply B| |exact Gq].
      intros a Ha. apply B. eapply sane_in; [apply Gq|auto]. }
    split; [|cbn; auto]. apply (batch_app st st2 st3 [y] zs); auto.
Qed.

Lemma cross_good n points st c1 c2 d1 d2 : nodup = true -> bound = None -> good st c1 -> good st c2 -> apart c1 c2 ->
  cross n points c1 c2 = Ok (d1, d2) ->
  good st d1 /\ good st d2 /\ apart d1 d2 /\
  (forall a, In a (sg_genome d1) \/ In a (sg_genome d2) -> In a (sg_genome c1) \/ In a (sg_genome c2)).
Proof.
  intros HN HB G1 G2 Ap H. destruct points as [draws|]; cbn [cross] in H; [|injection H as <- <-; auto].
  destruct (nary_recombine n draws (sg_genome c1) (sg_genome c2)) as [[l r]|] eqn:E; cbn [bind Pipeline.in_generator] in H; [|discriminate].
  injection H as <- <-. destruct (nary_part _ _ _ _ _ _ E) as [rest P].
  destruct G1 as [S1 (N1 & K1 & U1 & _)], G2 as [S2 (N2 & K2 & U2 & _)].
  destruct (nary_nonempty _ _ _ _ _ _ E N1 N2) as [L1 L2].
  assert (NDa : NoDup (sg_genome c1 ++ sg_genome c2)) by (apply HeapEa.NoDup_join; auto).
  apply (Permutation_NoDup P) in NDa. assert (ND : NoDup (l ++ r)) by (eapply NoDup_app_l; eauto).
  assert (I : forall a, In a l \/ In a r -> In a (sg_genome c1) \/ In a (sg_genome c2)).
  { intros a Ha. apply in_app_or. eapply Permutation_in; [symmetry; exact P|]. apply in_or_app. left. apply in_or_app. auto. }
  assert (Sn : forall a, In a l \/ In a r -> a < s_next st) by (intros a Ha; apply I in Ha; destruct Ha as [Ha|Ha]; [exact (sane_in _ _ _ S1 Ha)|exact (sane_in _ _ _ S2 Ha)]).
  assert (Kd : forall a, In a l \/ In a r -> D (s_seg st a)) by (intros a Ha; apply I in Ha; destruct Ha; auto).
  split; [|split; [|split; [|exact I]]].
  - split; [apply Forall_forall; cbn; auto|]. unfold SegRun.kept. cbn. repeat split; auto; [intros _; eapply NoDup_app_l; eauto|rewrite HB; discriminate].
  - split; [apply Forall_forall; cbn; auto|]. unfold SegRun.kept. cbn. repeat split; auto; [intros _; eapply NoDup_app_r; eauto|rewrite HB; discriminate].
  - intros a. cbn. apply NoDup_app_disj. auto.
Qed.

Lemma pairs_good n : forall plans parents st ys st', nodup = true -> bound = None ->
  Forall (good st) parents ->
  Forall op_fits (flat_map (fun p => pp_ops1 p ++ match pp_ops2 p with Some l => l | None => [] end) plans) ->
  breed_pairs score n plans parents st = Ok (ys, st') ->
  batch st st' ys /\ length ys = list_sum (map (fun p => match pp_ops2 p with Some _ => 2 | None => 1 end) plans).
Proof.
  induction plans as [|p plans IH]; intros parents st ys st' HN HB HP HF H; cbn [breed_pairs] in H.
  - injection H as <- <-. split; auto. repeat split; auto; constructor.
  - cbn [flat_map] in HF. apply Forall_app in HF. destruct HF as [HF HF3]. apply Forall_app in HF. destruct HF as [HF1 HF2].
    unfold picked in H. destruct (nth_error parents (pp_first p)) as [x1|] eqn:E1; cbn [bind Pipeline.in_generator] in H; [|discriminate].
    apply nth_error_In in E1. assert (Gx1 : good st x1) by (rewrite Forall_forall in HP; auto).
    destruct (clone_seg st x1) as [c1 st1] eqn:C1. destruct (clone_good _ _ _ _ Gx1 C1) as (N1 & F1 & G1 & B1).
    destruct (nth_error parents (pp_second p)) as [x2|] eqn:E2; cbn [bind Pipeline.in_generator] in H; [|discriminate].
    apply nth_error_In in E2.
    assert (Gx2 : good st1 x2).
    { rewrite Forall_forall in HP. specialize (HP _ E2). eapply good_same; [exact N1| |exact HP]. intros a Ha. apply F1. eapply sane_in; [apply HP|auto]. }
    destruct (clone_seg st1 x2) as [c2 st2] eqn:C2. destruct (clone_good _ _ _ _ Gx2 C2) as (N2 & F2 & G2 & B2).
    assert (G1' : good st2 c1). { eapply good_same; [exact N2| |exact G1]. intros a Ha. apply F2. eapply sane_in; [apply G1|auto]. }
    destruct (cross n (pp_points p) c1 c2) as [[d1 d2]|] eqn:Cr; cbn [bind Pipeline.in_generator] in H; [|discriminate].
    destruct (cross_good _ _ _ _ _ _ _ HN HB G1' G2 (born_apart _ _ _ _ _ B1 B2) Cr) as (Gd1 & Gd2 & Ad & Id).
    assert (Bd : forall a, In a (sg_genome d1) \/ In a (sg_genome d2) -> s_next st <= a < s_next st2).
    { intros a Ha. apply Id in Ha. destruct Ha as [Ha|Ha]; [apply (born_in _ _ _ _ B1) in Ha|apply (born_in _ _ _ _ B2) in Ha]; lia. }
    destruct (finish score (pp_ops1 p) st2 d1) as [[y1 st3]|] eqn:Fi; cbn [bind Pipeline.in_generator] in H; [|discriminate].
    destruct (finish_good _ _ _ _ _ HF1 Gd1 Fi) as (S3 & G3 & Ft3).
    assert (By1 : born (s_next st) (s_next st3) y1).
    { apply (step_born st2 d1 st3 y1 (s_next st)); auto; [lia|]. apply Forall_forall. intros a Ha. apply Bd. auto. }
    assert (Ay1 : apart y1 d2).
    { intros a Ha Hb. destruct S3 as (_ & _ & I3 & _). apply I3 in Ha. destruct Ha as [Ha|Ha]; [eapply Ad; eauto|].
      specialize (Bd a (or_intror Hb)). lia. }
    assert (Fr3 : forall a, a < s_next st -> s_seg st3 a = s_seg st a).
    { intros a Ha. destruct S3 as (_ & _ & _ & F3). rewrite F3, F2, F1; auto; try lia. intros K. specialize (Bd a (or_introl K)). lia. }
    assert (N3 : s_next st <= s_next st3) by (destruct S3; lia).
    assert (Bat1 : batch st st3 [y1]).
    { split; auto. split; auto. split; [|repeat constructor]. constructor; [auto|constructor]. }
    assert (REST : forall y2s st4, batch st st4 (y1 :: y2s) -> length y2s = (match pp_ops2 p with Some _ => 1 | None => 0 end) ->
       bind (breed_pairs score n plans parents st4) (fun '(ys0, st5) => Ok (y1 :: y2s ++ ys0, st5)) = Ok (ys, st') ->
       batch st st' ys /\ length ys = list_sum (map (fun p => match pp_ops2 p with Some _ => 2 | None => 1 end) (p :: plans))).
    { intros y2s st4 B4 L4 H4. destruct (breed_pairs score n plans parents st4) as [[zs st5]|] eqn:R; cbn [bind Pipeline.in_generator] in H4; [|discriminate].
      injection H4 as <- <-. destruct (IH parents st4 zs st5 HN HB) as [Bz Lz]; auto.
      { eapply Forall_impl; [|exact HP]. cbn. intros q Gq. eapply good_same; [apply B4| |exact Gq].
        intros a Ha. apply B4. eapply sane_in; [apply Gq|auto]. }
      split; [exact (batch_app st st4 st5 (y1 :: y2s) zs B4 Bz)|]. cbn [length map]. rewrite app_length, Lz, L4. unfold list_sum. cbn [fold_right]. destruct (pp_ops2 p); lia. }
    destruct (pp_ops2 p) as [ops2|] eqn:O2; [|cbn [bind Pipeline.in_generator] in H; apply (REST [] st3); auto].
    destruct (finish score ops2 st3 d2) as [[y2 st4]|] eqn:Fi2; cbn [bind Pipeline.in_generator] in H; [|discriminate].
    assert (Gd2' : good st3 d2).
    { eapply good_same; [| |exact Gd2]; [destruct S3; lia|]. intros a Ha. destruct S3 as (_ & _ & _ & F3). apply F3; [apply Bd; auto|].
      intros K. eapply Ad; eauto. }
    destruct (finish_good _ _ _ _ _ HF2 Gd2' Fi2) as (S4 & G4 & Ft4).
    apply (REST [y2] st4); auto.
    assert (E : forall a, In a (sg_genome y1) -> s_seg st4 a = s_seg st3 a).
    { intros a Ha. destruct S4 as (_ & _ & _ & F4). apply F4; [eapply sane_in; [apply G3|auto]|]. apply Ay1. auto. }
    assert (N4 : s_next st3 <= s_next st4) by (destruct S4; lia).
    split; [lia|]. split; [|split].
    + intros a Ha. destruct S4 as (_ & _ & _ & F4). rewrite F4; auto; [lia|]. intros K. specialize (Bd a (or_intror K)). lia.
    + constructor; [|constructor; [|constructor]].
      * split; [eapply good_same; eauto|]. split; [eapply fit_same; eauto|]. eapply born_wider; [| |exact By1]; lia.
      * split; auto. split; auto. apply (step_born st3 d2 st4 y2 (s_next st)); auto. apply Forall_forall. intros a Ha.
        specialize (Bd a (or_intror Ha)). destruct S3. lia.
    + repeat constructor. intros a Ha Hb. destruct S4 as (_ & _ & I4 & _). apply I4 in Hb. destruct Hb as [Hb|Hb]; [eapply Ay1; eauto|].
      apply (born_in _ _ _ _ By1) in Ha. lia.
Qed.

Definition gen_fits (b : breeding G) : Prop :=
  Forall op_fits (ops_of b) /\ (with_crossover b = true -> nodup = true /\ bound = None).

Lemma offspring_good b parents st ys st' : gen_fits b -> Forall (good st) parents ->
  offspring_of score b parents st = Ok (ys, st') -> batch st st' ys /\ length ys = offspring_count b.
Proof.
  intros [HF HX] HP H. destruct b as [plans|n plans]; cbn in *; [eapply breed_good; eauto|].
  destruct (HX eq_refl). eapply pairs_good; eauto.
Qed.

(** ** survival *)
Variable maximize : bool.
Variable coin : nat -> Scalar.sind -> Scalar.sind -> bool.
Variable k_elites : nat.

Lemma fitnesses_spec : forall l k, (forall x, In x l -> sg_fitness x <> None) ->
  exists s, fitnesses k l = Some s /\ length s = length l /\
    forall j e, nth_error s j = Some e -> Scalar.si_id e = k + j /\ exists x, nth_error l j = Some x /\ sg_fitness x = Some (Scalar.si_fit e).
Proof.
  induction l as [|x l IH]; intros k H; cbn [fitnesses].
  - exists []. split; auto. split; auto. intros [|j]; discriminate.
  - destruct (sg_fitness x) as [f|] eqn:E; [|destruct (H x (or_introl eq_refl)); auto].
    destruct (IH (S k)) as (s & -> & L & F); [intros; apply H; right; auto|].
    eexists. split; [reflexivity|]. split; [cbn; auto|]. intros [|j] e; cbn.
    + intros [= <-]. cbn. split; [lia|]. eauto.
    + intros J. destruct (F j e J) as [A B]. split; [lia|auto].
Qed.

Lemma combined l1 l2 s1 s2 :
  length s1 = length l1 ->
  (forall j e, nth_error s1 j = Some e -> Scalar.si_id e = 0 + j /\ exists x, nth_error l1 j = Some x /\ sg_fitness x = Some (Scalar.si_fit e)) ->
  (forall j e, nth_error s2 j = Some e -> Scalar.si_id e = length l1 + j /\ exists x, nth_error l2 j = Some x /\ sg_fitness x = Some (Scalar.si_fit e)) ->
  forall e, In e (s1 ++ s2) -> exists x, nth_error (l1 ++ l2) (Scalar.si_id e) = Some x /\ sg_fitness x = Some (Scalar.si_fit e).
Proof.
  intros L F1 F2 e He. apply in_app_or in He. destruct He as [He|He]; apply In_nth_error in He; destruct He as [j J].
  - destruct (F1 j e J) as (-> & x & A & B). exists x. split; auto. cbn. rewrite nth_error_app1; auto. apply nth_error_Some. congruence.
  - destruct (F2 j e J) as (-> & x & A & B). exists x. split; auto. rewrite nth_error_app2 by lia.
    replace (length l1 + j - length l1) with j by lia. auto.
Qed.

Definition value (x : sind) : num := match sg_fitness x with Some f => f | None => NNan end.

Lemma survivors_good i off par : (forall x, In x (off ++ par) -> sg_fitness x <> None) ->
  exists next, survivors maximize coin k_elites i off par = Ok next /\ incl next (off ++ par) /\ length next = length off /\
    (NoDup (off ++ par) -> NoDup next) /\
    (1 <= k_elites -> off <> [] ->
     (forall x y m, In x (off ++ par) -> In y (off ++ par) -> blurred (value x) (value y) -> ~ better m (value x) (value y)) ->
     forall x, In x (off ++ par) -> exists y, In y next /\ ~ better maximize (value x) (value y)).
Proof.
  intros H. destruct (fitnesses_spec off 0) as (s1 & E1 & L1 & F1); [intros; apply H, in_or_app; auto|].
  destruct (fitnesses_spec par (length off)) as (s2 & E2 & L2 & F2); [intros; apply H, in_or_app; auto|].
  unfold survivors. rewrite E1, E2. set (kp := fst (elitist_survival _ _ _ s1 s2 k_elites)).
  pose proof (combined off par s1 s2 L1 F1 F2) as C.
  assert (I : incl kp (s1 ++ s2)).
  { intros e He. eapply HeapEa.part_in; [apply HeapEa.elitist_part|exact He]. }
  assert (Lk : length kp = length off) by (unfold kp; rewrite elitist_length; auto).
  set (pick := fun s : Scalar.sind => match nth_error (off ++ par) (Scalar.si_id s) with Some x => [x] | None => [] end).
  exists (flat_map pick kp). split; auto. split; [|split; [|split]].
  - intros x Hx. apply in_flat_map in Hx. destruct Hx as (e & He & Hx). unfold pick in Hx.
    destruct (nth_error (off ++ par) (Scalar.si_id e)) eqn:N; [|destruct Hx]. destruct Hx as [<-|[]]. eapply nth_error_In; eauto.
  - rewrite <- Lk. revert I. generalize kp. induction kp0 as [|e l IH]; intros I; cbn; auto.
    rewrite app_length, IH by (intros z Hz; apply I; right; auto).
    destruct (C e (I e (or_introl eq_refl))) as (x & N & _). unfold pick. rewrite N. auto.
  - intros ND.
    assert (Ids : NoDup (map Scalar.si_id kp)).
    { eapply HeapEa.part_NoDup; [apply HeapEa.part_map, HeapEa.elitist_part|].
      apply NoDup_nth_error. intros j1 j2 Hj E. rewrite map_length in Hj. rewrite !nth_error_map in E.
      assert (Id : forall j e, nth_error (s1 ++ s2) j = Some e -> Scalar.si_id e = j).
      { intros j e Ee. destruct (Nat.lt_ge_cases j (length s1)) as [Lt|Ge].
        - rewrite nth_error_app1 in Ee by auto. apply F1 in Ee. apply Ee.
        - rewrite nth_error_app2 in Ee by auto. apply F2 in Ee. destruct Ee as [-> _]. lia. }
      destruct (nth_error (s1 ++ s2) j1) as [e1|] eqn:E1'; [|apply nth_error_None in E1'; lia].
      destruct (nth_error (s1 ++ s2) j2) as [e2|] eqn:E2'; [|discriminate]. cbn in E. injection E as E.
      rewrite (Id _ _ E1'), (Id _ _ E2') in E. auto. }
    revert I Ids. generalize kp. induction kp0 as [|e l IH]; intros I Ids; cbn; [constructor|].
    destruct (C e (I e (or_introl eq_refl))) as (x & N & _). unfold pick at 1. rewrite N. cbn [app map] in *.
    apply NoDup_cons_iff in Ids. destruct Ids as [Ids1 Ids2]. constructor; [|apply IH; auto; intros z Hz; apply I; right; auto].
    intros Hx. apply in_flat_map in Hx. destruct Hx as (e' & He' & Hx). unfold pick in Hx.
    destruct (nth_error (off ++ par) (Scalar.si_id e')) as [x'|] eqn:N'; [|destruct Hx]. destruct Hx as [->|[]].
    apply Ids1. apply in_map_iff. exists e'. split; auto.
    rewrite NoDup_nth_error in ND. apply ND; [apply nth_error_Some; congruence|congruence].
  - intros Hk Hne Hsh x Hx.
    assert (Back : forall z, In z (off ++ par) -> exists e, In e (s1 ++ s2) /\ Scalar.si_fit e = value z).
    { intros z Hz. apply In_nth_error in Hz. destruct Hz as [j J].
      assert (Lj : j < length (s1 ++ s2)) by (rewrite app_length, L1, L2, <- app_length; apply nth_error_Some; congruence).
      destruct (nth_error (s1 ++ s2) j) as [e|] eqn:Ee; [|apply nth_error_None in Ee; lia].
      exists e. split; [eapply nth_error_In; eauto|].
      assert (Id : Scalar.si_id e = j).
      { destruct (Nat.lt_ge_cases j (length s1)) as [Lt|Ge].
        - rewrite nth_error_app1 in Ee by auto. apply F1 in Ee. apply Ee.
        - rewrite nth_error_app2 in Ee by auto. apply F2 in Ee. destruct Ee as [-> _]. lia. }
      destruct (C e (nth_error_In _ _ Ee)) as (z' & Z1 & Z2). rewrite Id, J in Z1. injection Z1 as <-. unfold value. rewrite Z2. auto. }
    assert (Front : forall e, In e (s1 ++ s2) -> exists z, In z (off ++ par) /\ value z = Scalar.si_fit e).
    { intros e He. destruct (C e He) as (z & Z1 & Z2). exists z. split; [eapply nth_error_In; eauto|]. unfold value. rewrite Z2. auto. }
    assert (Sh : sharp (map Scalar.si_fit (s1 ++ s2))).
    { unfold sharp. intros f f' m Hf Hf'. apply in_map_iff in Hf, Hf'. destruct Hf as (e & <- & He), Hf' as (e' & <- & He').
      destruct (Front e He) as (z & Hz & <-), (Front e' He') as (z' & Hz' & <-). auto. }
    destruct (elitist_keeps_best maximize (coin i) s1 s2 k_elites Sh Hk) as (_ & _ & KB); [destruct off; [contradiction|]; destruct s1; discriminate|].
    destruct (Back x Hx) as (e & He & Ee). destruct (KB e He) as (e' & He' & NB).
    destruct (C e' (I e' He')) as (y & Y1 & Y2). exists y. split.
    + apply in_flat_map. exists e'. split; auto. unfold pick. rewrite Y1. left. auto.
    + rewrite <- Ee. unfold value. rewrite Y2. exact NB.
Qed.

(** ** runs *)
Definition whole st (x : sind) : Prop := good st x /\ fit st x.
Definition separate (l : list sind) : Prop := forall x y, In x l -> In y l -> x = y \/ apart x y.
Definition no_worse (p q : list sind) : Prop :=
  forall x, In x p -> exists y, In y q /\ ~ better maximize (value x) (value y).
Definition chain (pops : list (list sind)) : Prop :=
  forall j p q, nth_error pops j = Some p -> nth_error pops (S j) = Some q -> no_worse p q.

Lemma whole_same st st' x : s_next st <= s_next st' -> (forall a, a < s_next st -> s_seg st' a = s_seg st a) -> whole st x -> whole st' x.
Proof.
  intros N F [A B]. assert (E : forall a, In a (sg_genome x) -> s_seg st' a = s_seg st a) by (intros a Ha; apply F; eapply sane_in; [apply A|auto]).
  split; [eapply good_same; eauto|eapply fit_same; eauto].
Qed.

Lemma ordpairs_separate l : ForallOrdPairs apart l -> separate l.
Proof.
  intros H x y Hx Hy. destruct (ForallOrdPairs_In H x y Hx Hy) as [E|[E|E]]; auto. right. apply apart_sym. auto.
Qed.
Lemma ordpairs_NoDup l : (forall x, In x l -> sg_genome x <> []) -> ForallOrdPairs apart l -> NoDup l.
Proof.
  intros N H. induction H as [|x l A H IH]; constructor; [|apply IH; intros; apply N; right; auto].
  intros C. rewrite Forall_forall in A. specialize (A x C). specialize (N x (or_introl eq_refl)).
  destruct (sg_genome x) as [|a r] eqn:E; [contradiction|]. apply (A a); rewrite E; left; auto.
Qed.

Lemma loop_good : forall gens i st earlier parents final st' pops,
  Forall gen_fits gens ->
  (forall p x, In p (earlier ++ [parents]) -> In x p -> whole st x) -> separate (concat (earlier ++ [parents])) ->
  Forall (@NoDup sind) (earlier ++ [parents]) ->
  seg_loop score maximize coin k_elites gens i st earlier parents = Ok (final, st', pops) ->
  s_next st <= s_next st' /\ (forall a, a < s_next st -> s_seg st' a = s_seg st a) /\
  (forall p x, In p (pops ++ [final]) -> In x p -> whole st' x) /\ separate (concat (pops ++ [final])) /\
  Forall (@NoDup sind) (pops ++ [final]) /\
  exists later, pops ++ [final] = (earlier ++ [parents]) ++ later /\ map (@length sind) later = map offspring_count gens /\
    (1 <= k_elites -> Forall (fun b => 1 <= offspring_count b) gens ->
     (forall gs gs' f f' m, score gs = Ok f -> score gs' = Ok f' -> blurred f f' -> ~ better m f f') ->
     chain (earlier ++ [parents]) -> chain (pops ++ [final])).
Proof.
  induction gens as [|b gens IH]; intros i st earlier parents final st' pops HF HW HSep HND H; cbn [seg_loop] in H.
  - injection H as <- <- <-. split; auto. split; auto. split; auto. split; auto. split; auto. exists []. rewrite app_nil_r. auto.
  - destruct (offspring_of score b parents st) as [[off st1]|] eqn:E; cbn [bind Pipeline.in_generator] in H; [|discriminate].
    assert (HP : forall x, In x parents -> whole st x) by (intros x Hx; apply (HW parents); auto; apply in_or_app; right; left; auto).
    destruct (offspring_good b parents st off st1 (Forall_inv HF)) as [(N1 & F1 & A1 & O1) L1]; auto.
    { apply Forall_forall. intros x Hx. apply HP. auto. }
    rewrite Forall_forall in A1.
    assert (HP1 : forall x, In x parents -> whole st1 x) by (intros x Hx; apply (whole_same st st1); auto).
    assert (HO1 : forall x, In x off -> whole st1 x) by (intros x Hx; destruct (A1 x Hx) as (X1 & X2 & _); split; auto).
    assert (HB : forall x, In x (off ++ parents) -> whole st1 x) by (intros x Hx; apply in_app_or in Hx; destruct Hx; auto).
    destruct (survivors_good i off parents) as (next & En & In1 & Ln & Nn & Mn).
    { intros x Hx. destruct (HB x Hx) as [_ (f & -> & _)]. discriminate. }
    rewrite En in H. cbn [bind Pipeline.in_generator] in H.
    assert (Out : forall x y, In x off -> In y (concat (earlier ++ [parents])) -> apart x y).
    { intros x y Hx Hy a Ha Hb. destruct (A1 x Hx) as (_ & _ & Bx). apply (born_in _ _ _ _ Bx) in Ha.
      apply in_concat in Hy. destruct Hy as (p & Hp & Hy). destruct (HW p y Hp Hy) as [[Sy _] _]. apply (sane_in _ _ _ Sy) in Hb. lia. }
    assert (InPar : forall x, In x parents -> In x (concat (earlier ++ [parents]))).
    { intros x Hx. apply in_concat. exists parents. split; auto. apply in_or_app. right. left. auto. }
    destruct (IH (S i) st1 (earlier ++ [parents]) next final st' pops) as (R1 & R2 & R3 & R4 & R5 & later & R6 & R7 & R8); auto.
    + eapply Forall_inv_tail; eauto.
    + intros p x Hp Hx. apply in_app_or in Hp. destruct Hp as [Hp|[<-|[]]]; [|apply HB, In1; auto].
      apply (whole_same st st1); auto. eapply HW; eauto.
    + intros x y Hx Hy. rewrite concat_app in Hx, Hy. cbn [concat] in Hx, Hy. rewrite app_nil_r in Hx, Hy.
      assert (T : forall z, In z (concat (earlier ++ [parents]) ++ next) -> In z off \/ In z (concat (earlier ++ [parents]))).
      { intros z Hz. apply in_app_or in Hz. destruct Hz as [Hz|Hz]; auto. apply In1 in Hz. apply in_app_or in Hz. destruct Hz; auto. }
      apply T in Hx, Hy. destruct Hx as [Hx|Hx], Hy as [Hy|Hy].
      * apply (ordpairs_separate off O1); auto.
      * right. apply Out; auto.
      * right. apply apart_sym. apply Out; auto.
      * apply HSep; auto.
    + apply Forall_app. split; auto. constructor; auto. apply Nn.
      apply HeapEa.NoDup_join.
      * apply ordpairs_NoDup; auto. intros x Hx. destruct (HO1 x Hx) as [[_ (X & _)] _]. auto.
      * apply Forall_app in HND. destruct HND as [_ HND]. apply Forall_inv in HND. auto.
      * intros x Hx Hy. apply InPar in Hy. specialize (Out x x Hx Hy). destruct (HO1 x Hx) as [[_ (X & _)] _].
        destruct (sg_genome x) as [|a r] eqn:Eg; [contradiction|]. apply (Out a); rewrite Eg; left; auto.
    + split; [lia|]. split; [intros a Ha; rewrite R2 by lia; auto|]. split; auto. split; auto. split; auto.
      exists (next :: later). split; [rewrite R6; rewrite <- !app_assoc; auto|]. split; [cbn; f_equal; congruence|].
      intros Hk Hc Hs Hch. apply R8; auto; [eapply Forall_inv_tail; eauto|]. apply Forall_inv in Hc.
      intros j p q Hp Hq. destruct (Nat.lt_ge_cases (S j) (length (earlier ++ [parents]))) as [Lt|Ge].
      * rewrite nth_error_app1 in Hp, Hq by lia. eapply Hch; eauto.
      * assert (Lq : S j < length ((earlier ++ [parents]) ++ [next])) by (apply nth_error_Some; congruence).
        rewrite (app_length (earlier ++ [parents])) in Lq. cbn [length] in Lq.
        assert (Ej : S j = length (earlier ++ [parents])) by lia.
        rewrite nth_error_app2 in Hq by lia. rewrite Ej, Nat.sub_diag in Hq. injection Hq as <-.
        rewrite nth_error_app1 in Hp by lia. rewrite app_length in Ej. cbn in Ej.
        rewrite nth_error_app2 in Hp by lia. replace (j - length earlier) with 0 in Hp by lia. injection Hp as <-.
        intros x Hx. apply Mn; auto; [destruct off; [cbn in L1; lia|discriminate]| |apply in_or_app; auto].
        intros u v m Hu Hv. destruct (HB u Hu) as [_ (f & U1 & U2)], (HB v Hv) as [_ (g & V1 & V2)].
        unfold value. rewrite U1, V1. eapply Hs; eauto.
Qed.

Lemma new_segments_spec : forall gs st l st', new_segments gs st = (l, st') ->
  s_next st <= s_next st' /\ (forall a, a < s_next st -> s_seg st' a = s_seg st a) /\
  Forall (fun a => s_next st <= a < s_next st') l /\ NoDup l /\ map (s_seg st') l = gs.
Proof.
  induction gs as [|g gs IH]; intros st l st' H; cbn [new_segments] in H.
  - injection H as <- <-. repeat split; auto; constructor.
  - cbn [new_seg] in H. set (st1 := mk_store _ _) in H. destruct (new_segments gs st1) as [r st2] eqn:E. injection H as <- <-.
    destruct (IH st1 r st2 E) as (A & B & C & F & M). cbn [s_next st1] in A, B, C.
    split; [lia|]. split; [|split; [|split]].
    + intros a Ha. rewrite B by lia. unfold st1. cbn. destruct (Nat.eqb_spec a (s_next st)); [lia|auto].
    + constructor; [lia|]. eapply Forall_impl; [|exact C]. cbn. intros. lia.
    + constructor; auto. intros K. rewrite Forall_forall in C. apply C in K. lia.
    + cbn [map]. f_equal; auto. rewrite B by lia. unfold st1. cbn. rewrite Nat.eqb_refl. auto.
Qed.

Lemma create_good : forall genomes st xs st',
  (forall gs, In gs genomes -> gs <> [] /\ Forall D gs /\ (forall n, bound = Some n -> length gs <= n)) ->
  create_segs genomes st = (xs, st') ->
  s_next st <= s_next st' /\ (forall a, a < s_next st -> s_seg st' a = s_seg st a) /\
  Forall (fun x => good st' x /\ born (s_next st) (s_next st') x) xs /\ ForallOrdPairs apart xs /\ map (contents st') xs = genomes.
Proof.
  induction genomes as [|gs genomes IH]; intros st xs st' HG H; cbn [create_segs] in H.
  - injection H as <- <-. repeat split; auto; constructor.
  - destruct (new_segments gs st) as [l st1] eqn:E1. destruct (create_segs genomes st1) as [r st2] eqn:E2. injection H as <- <-.
    destruct (new_segments_spec _ _ _ _ E1) as (A1 & B1 & C1 & N1 & M1).
    destruct (IH st1 r st2) as (A2 & B2 & C2 & O2 & M2); auto; [intros; apply HG; right; auto|].
    assert (Ml : map (s_seg st2) l = gs).
    { rewrite <- M1. apply map_ext_in. intros a Ha. apply B2. rewrite Forall_forall in C1. apply C1. auto. }
    split; [lia|]. split; [intros a Ha; rewrite B2 by lia; auto|]. split; [|split].
    + constructor.
      * split; [split|]; cbn.
        -- unfold seg_sane. cbn. eapply Forall_impl; [|exact C1]. cbn. intros. lia.
        -- destruct (HG gs (or_introl eq_refl)) as (G1 & G2 & G3). unfold SegRun.kept. cbn. split; [|split; [|split]].
           ++ intros ->. cbn in Ml. auto.
           ++ intros a Ha. rewrite Forall_forall in G2. apply G2. rewrite <- Ml. apply in_map. auto.
           ++ auto.
           ++ intros n Bn. exists l. split; [|apply incl_refl]. rewrite <- (G3 n Bn), <- Ml, map_length. auto.
        -- unfold born. cbn. eapply Forall_impl; [|exact C1]. cbn. intros. lia.
      * eapply Forall_impl; [|exact C2]. cbn. intros x [X1 X2]. split; auto. eapply born_wider; [| |exact X2]; lia.
    + constructor; auto. eapply Forall_impl; [|exact C2]. cbn. intros x [X1 X2]. eapply (born_apart (s_next st) (s_next st1)); eauto.
    + cbn [map]. f_equal; auto.
Qed.

Lemma evaluate_segs_spec st : forall xs ys, evaluate_segs score st xs = Ok ys ->
  map sg_genome ys = map sg_genome xs /\ Forall (fit st) ys.
Proof.
  induction xs as [|x xs IH]; intros ys H; cbn [evaluate_segs] in H.
  - injection H as <-. split; auto.
  - unfold evaluate_seg in H. destruct (score (contents st x)) as [f|] eqn:E; cbn [bind Pipeline.in_generator] in H; [|discriminate].
    destruct (evaluate_segs score st xs) as [r|] eqn:R; cbn [bind Pipeline.in_generator] in H; [|discriminate]. injection H as <-.
    destruct (IH r eq_refl) as [A B]. cbn. split; [f_equal; auto|]. constructor; auto. exists f. auto.
Qed.

Lemma ordpairs_genomes : forall xs ys, map sg_genome ys = map sg_genome xs -> ForallOrdPairs apart xs -> ForallOrdPairs apart ys.
Proof.
  induction xs as [|x xs IH]; intros [|y ys] E H; try discriminate; [constructor|]. cbn in E. injection E as E1 E2.
  apply ForallOrdPairs_ind with (P := fun l => l = x :: xs -> ForallOrdPairs apart (y :: ys)) in H; auto; [discriminate|].
  intros a l HA HO _ [= -> ->]. constructor; [|apply IH; auto]. apply Forall_forall. intros z Hz.
  assert (K : In (sg_genome z) (map sg_genome xs)) by (rewrite <- E2; apply in_map; auto).
  apply in_map_iff in K. destruct K as (w & Ew & Hw). rewrite Forall_forall in HA. specialize (HA w Hw).
  intros c. rewrite E1, <- Ew. apply HA.
Qed.

Lemma run_good genomes gens st final st' earlier :
  (forall gs, In gs genomes -> gs <> [] /\ Forall D gs /\ (forall n, bound = Some n -> length gs <= n)) ->
  Forall gen_fits gens ->
  seg_run score maximize coin k_elites genomes gens st = Ok (final, st', earlier) ->
  (forall a, a < s_next st -> s_seg st' a = s_seg st a) /\
  (forall p x, In p (earlier ++ [final]) -> In x p -> whole st' x) /\ separate (concat (earlier ++ [final])) /\
  Forall (@NoDup sind) (earlier ++ [final]) /\
  exists init later, earlier ++ [final] = init :: later /\ map (contents st') init = genomes /\
    map (@length sind) later = map offspring_count gens /\
    (1 <= k_elites -> Forall (fun b => 1 <= offspring_count b) gens ->
     (forall gs gs' f f' m, score gs = Ok f -> score gs' = Ok f' -> blurred f f' -> ~ better m f f') ->
     chain (earlier ++ [final])).
Proof.
  intros HG HF H. unfold seg_run in H. destruct (create_segs genomes st) as [xs st1] eqn:E.
  destruct (create_good genomes st xs st1 HG E) as (N & F & C & O & M).
  destruct (evaluate_segs score st1 xs) as [init|] eqn:Ev; cbn [bind Pipeline.in_generator] in H; [|discriminate].
  destruct (evaluate_segs_spec _ _ _ Ev) as [Eg Ef]. rewrite Forall_forall in C, Ef.
  assert (W : forall x, In x init -> whole st1 x).
  { intros x Hx. split; [|auto]. assert (K : In (sg_genome x) (map sg_genome xs)) by (rewrite <- Eg; apply in_map; auto).
    apply in_map_iff in K. destruct K as (z & Ez & Hz). destruct (C z Hz) as [[Z1 Z2] _].
    split; [unfold seg_sane in *; rewrite <- Ez; auto|apply (kept_same D nodup bound st1 st1 z x); auto]. }
  assert (O' : ForallOrdPairs apart init) by (eapply ordpairs_genomes; eauto).
  destruct (loop_good gens 0 st1 [] init final st' earlier HF) as (R1 & R2 & R3 & R4 & R5 & later & R6 & R7 & R8); auto.
  - cbn. intros p x [<-|[]] Hx. auto.
  - cbn. rewrite app_nil_r. apply ordpairs_separate. auto.
  - constructor; auto. apply ordpairs_NoDup; auto. intros x Hx. destruct (W x Hx) as [[_ (K & _)] _]. auto.
  - split; [intros a Ha; rewrite R2 by lia; auto|]. split; auto. split; auto. split; auto.
    exists init, later. split; [exact R6|]. split; [|split; auto].
    + rewrite <- M. transitivity (map (contents st1) init).
      * apply map_ext_in. intros x Hx. apply contents_same. intros a Ha. apply R2. destruct (W x Hx) as [[S _] _]. eapply sane_in; eauto.
      * assert (K : forall l, map (contents st1) l = map (map (s_seg st1)) (map sg_genome l)) by (intros l; rewrite map_map; auto).
        rewrite !K, Eg. auto.
    + intros Hk Hc Hs. apply R8; auto. intros [|j] p q Hp Hq; cbn in Hq; [discriminate|destruct j; discriminate].
Qed.
End Gen.

Section Final.
Context {G : Type}.
Implicit Types st : store G.
Variable score : list (list G) -> result num.
Variable D : list G -> Prop.
Variable maximize : bool.
Variable coin : nat -> Scalar.sind -> Scalar.sind -> bool.
Variable k_elites : nat.

Lemma fits_of (gens : list (breeding G)) :
  (forall b op, In b gens -> In op (ops_of b) -> stays_in D op) ->
  (forall b b' op, In b gens -> with_crossover b = true -> In b' gens -> In op (ops_of b') -> is_copy op = false) ->
  Forall (gen_fits D (existsb with_crossover gens) None) gens.
Proof.
  intros H1 H2. apply Forall_forall. intros b Hb. split.
  - apply Forall_forall. intros op Ho. split; [eauto|]. split; [|congruence]. intros X. apply existsb_exists in X.
    destruct X as (b' & Hb' & X). exact (H2 b' b op Hb' X Hb Ho).
  - intros X. split; auto. apply existsb_exists. eauto.
Qed.

Lemma whole_run genomes (gens : list (breeding G)) st final st' earlier :
  (forall gs, In gs genomes -> gs <> [] /\ Forall D gs) ->
  (forall b op, In b gens -> In op (ops_of b) -> stays_in D op) ->
  (forall b b' op, In b gens -> with_crossover b = true -> In b' gens -> In op (ops_of b') -> is_copy op = false) ->
  seg_run score maximize coin k_elites genomes gens st = Ok (final, st', earlier) ->
  let pops := earlier ++ [final] in
  (exists init later, pops = init :: later /\ map (contents st') init = genomes /\
     map (@length sind) later = map offspring_count gens) /\
  (forall a, a < s_next st -> s_seg st' a = s_seg st a) /\
  (forall p, In p pops -> NoDup p) /\
  (forall p x, In p pops -> In x p -> sg_genome x <> [] /\ Forall D (contents st' x) /\
     exists f, sg_fitness x = Some f /\ score (contents st' x) = Ok f) /\
  (forall p q x y, In p pops -> In q pops -> In x p -> In y q -> x = y \/ apart x y).
Proof.
  intros HG H1 H2 H pops.
  destruct (run_good score D (existsb with_crossover gens) None maximize coin k_elites genomes gens st final st' earlier)
    as (A & B & C & E & init & later & F1 & F2 & F3 & _); auto.
  { intros gs Hg. destruct (HG gs Hg). repeat split; auto. discriminate. }
  { apply fits_of; auto. }
  split; [eauto|]. split; auto. split; [apply Forall_forall; auto|]. split.
  - intros p x Hp Hx. destruct (B p x Hp Hx) as [[_ (K1 & K2 & _)] K3]. split; auto. split; auto.
    apply Forall_forall. intros g Hg. unfold contents in Hg. apply in_map_iff in Hg. destruct Hg as (a & <- & Ha). auto.
  - intros p q x y Hp Hq Hx Hy. apply C; apply in_concat; eauto.
Qed.

Lemma monotone genomes (gens : list (breeding G)) st final st' earlier :
  (forall gs, In gs genomes -> gs <> [] /\ Forall D gs) ->
  (forall b op, In b gens -> In op (ops_of b) -> stays_in D op) ->
  (forall b b' op, In b gens -> with_crossover b = true -> In b' gens -> In op (ops_of b') -> is_copy op = false) ->
  1 <= k_elites -> (forall b, In b gens -> 1 <= offspring_count b) ->
  (forall gs gs' f f' m, score gs = Ok f -> score gs' = Ok f' -> blurred f f' -> ~ better m f f') ->
  seg_run score maximize coin k_elites genomes gens st = Ok (final, st', earlier) ->
  forall j1 j2 p1 p2, j1 <= j2 ->
  nth_error (earlier ++ [final]) j1 = Some p1 -> nth_error (earlier ++ [final]) j2 = Some p2 ->
  forall x fx, In x p1 -> score (contents st' x) = Ok fx ->
  exists y fy, In y p2 /\ score (contents st' y) = Ok fy /\ ~ better maximize fx fy.
Proof.
  intros HG H1 H2 Hk Hc Hs H j1 j2 p1 p2 L J1 J2 x fx Hx Sx.
  destruct (run_good score D (existsb with_crossover gens) None maximize coin k_elites genomes gens st final st' earlier)
    as (_ & B & _ & _ & init & later & _ & _ & _ & Ch); auto.
  { intros gs Hg. destruct (HG gs Hg). repeat split; auto. discriminate. }
  { apply fits_of; auto. }
  specialize (Ch Hk (proj2 (Forall_forall _ _) Hc) Hs).
  assert (V : forall p z, In p (earlier ++ [final]) -> In z p -> score (contents st' z) = Ok (value z)).
  { intros p z Hp Hz. destruct (B p z Hp Hz) as [_ (f & F1 & F2)]. unfold value. rewrite F1. auto. }
  assert (T : no_worse maximize p1 p2).
  { clear x fx Hx Sx. revert p2 J2. induction L as [|j2 L IH]; intros p2 J2.
    - rewrite J1 in J2. injection J2 as <-. intros x Hx. exists x. split; auto. apply better_irrefl.
    - destruct (nth_error (earlier ++ [final]) j2) as [p|] eqn:E; [|apply nth_error_None in E; assert (S j2 < length (earlier ++ [final])) by (apply nth_error_Some; congruence); lia].
      intros x Hx. destruct (IH p eq_refl x Hx) as (y & Hy & N1). destruct (Ch j2 p p2 E J2 y Hy) as (z & Hz & N2).
      exists z. split; auto.
      apply (nbi_trans maximize (Scalar.mk_sind 0 (value x)) (Scalar.mk_sind 0 (value y)) (Scalar.mk_sind 0 (value z))); auto. }
  destruct (T x Hx) as (y & Hy & N). exists y, (value y). split; auto.
  rewrite (V p1 x (nth_error_In _ _ J1) Hx) in Sx. injection Sx as <-. split; auto. apply (V p2); auto. eapply nth_error_In; eauto.
Qed.

Lemma variety n genomes (gens : list (breeding G)) st final st' earlier :
  (forall gs, In gs genomes -> gs <> [] /\ length gs <= n) ->
  (forall b, In b gens -> with_crossover b = false /\ Forall in_place (ops_of b)) ->
  seg_run score maximize coin k_elites genomes gens st = Ok (final, st', earlier) ->
  forall p x, In p (earlier ++ [final]) -> In x p -> kinds_of_segments n (contents st' x).
Proof.
  intros HG H1 H p x Hp Hx.
  destruct (run_good score (fun _ => True) false (Some n) maximize coin k_elites genomes gens st final st' earlier)
    as (_ & B & _); auto.
  { intros gs Hg. destruct (HG gs Hg). split; auto. split; [apply Forall_forall; auto|]. intros m [= <-]. auto. }
  { apply Forall_forall. intros b Hb. destruct (H1 b Hb) as [X Y]. split; [|congruence]. rewrite Forall_forall in *.
    intros op Ho. split; [|split; [discriminate|auto]]. destruct op; cbn; auto. }
  destruct (B p x Hp Hx) as [[_ (_ & _ & _ & K)] _]. destruct (K n eq_refl) as (l & L1 & L2).
  exists (map (s_seg st') l). rewrite map_length. split; auto. unfold contents. apply incl_map. auto.
Qed.

(** completion *)
Lemma op_works op st x : never_raises op -> sg_genome x <> [] -> exists r, apply_op op st x = Ok r.
Proof.
  intros H N. assert (L : 0 < length (sg_genome x)) by (destruct (sg_genome x); [contradiction|cbn; lia]).
  destruct op as [p u init app d|p u d|p u app d1 d2|mu ex|ms]; cbn [apply_op never_raises] in *.
  - unfold add_segment. destruct (Qltb u p); [|eauto]. cbn [new_seg]. destruct app; [eauto|].
    destruct (randrange_ok d (length (sg_genome x) + 1)) as (k & -> & _); [lia|]. cbn [bind Pipeline.in_generator]. eauto.
  - unfold remove_segment. destruct (1 <? length (sg_genome x)); [|eauto]. destruct (Qltb u p); [|eauto].
    destruct (randrange_ok d (length (sg_genome x)) L) as (k & -> & _). cbn [bind Pipeline.in_generator]. eauto.
  - destruct (copy_spec p u app d1 d2 st x N) as (x' & -> & _). eauto.
  - unfold apply_mutation, compute_expected_probability. destruct (Nat.eqb_spec (length (sg_genome x)) 0); [lia|]. cbn [bind Pipeline.in_generator].
    set (q := (1 / _ * ex)%Q). assert (T : forall genome k s, exists s', mutate_segments (mu q) k genome s = Ok s').
    { clear - H. induction genome as [|a r IH]; intros k s; cbn [mutate_segments]; [eauto|].
      destruct (H q k (s_seg s a)) as [g ->]. cbn [bind Pipeline.in_generator]. apply IH. }
    destruct (T (sg_genome x) 0 st) as [s' ->]. cbn [bind Pipeline.in_generator]. eauto.
  - destruct H.
Qed.

Notation op_fits := (op_fits D false None).
Notation good := (good D false None).
Hypothesis Hscore : forall gs, gs <> [] -> Forall D gs -> exists f, score gs = Ok f.

Lemma score_works st x : good st x -> exists y, evaluate_seg score st x = Ok y.
Proof.
  intros [_ (A & B & _)]. unfold evaluate_seg. destruct (Hscore (contents st x)) as [f ->]; [| |cbn [bind Pipeline.in_generator]; eauto].
  - unfold contents. destruct (sg_genome x); [contradiction|discriminate].
  - apply Forall_forall. intros g Hg. apply in_map_iff in Hg. destruct Hg as (a & <- & Ha). auto.
Qed.

Lemma finish_works ops : forall st x, Forall op_fits ops -> Forall never_raises ops -> good st x ->
  exists r, finish score ops st x = Ok r.
Proof.
  unfold finish. induction ops as [|op ops IH]; intros st x HF HN HG; cbn [apply_ops].
  - cbn [bind Pipeline.in_generator]. destruct (score_works st x HG) as [y ->]. cbn [bind Pipeline.in_generator]. eauto.
  - destruct (op_works op st x (Forall_inv HN)) as [[x1 st1] E]; [apply HG|]. rewrite E. cbn [bind Pipeline.in_generator].
    destruct (op_good _ _ _ op st x x1 st1 (Forall_inv HF)) with (3 := E) as [S K]; try apply HG.
    apply IH; [eapply Forall_inv_tail; eauto|eapply Forall_inv_tail; eauto|]. split; auto. apply S.
Qed.

Lemma breed_works : forall plans parents st, Forall (good st) parents -> Forall op_fits (flat_map pl_ops plans) ->
  Forall (fun p => pl_pick p < length parents /\ Forall never_raises (pl_ops p)) plans ->
  exists r, breed score plans parents st = Ok r.
Proof.
  induction plans as [|p plans IH]; intros parents st HP HF HN; cbn [breed]; [eauto|].
  cbn [flat_map] in HF. apply Forall_app in HF. destruct HF as [HF1 HF2]. destruct (Forall_inv HN) as [N1 N2].
  unfold picked. destruct (nth_error parents (pl_pick p)) as [x|] eqn:E; [|apply nth_error_None in E; lia]. cbn [bind Pipeline.in_generator].
  apply nth_error_In in E. assert (Gx : good st x) by (rewrite Forall_forall in HP; auto).
  destruct (clone_seg st x) as [c st1] eqn:C. destruct (clone_good _ _ _ _ _ _ _ Gx C) as (M1 & F1 & G1 & B1).
  destruct (finish_works (pl_ops p) st1 c HF1 N2 G1) as [[y st2] Fi]. rewrite Fi. cbn [bind Pipeline.in_generator].
  destruct (finish_good _ _ _ _ _ _ _ _ _ HF1 G1 Fi) as ((A2 & _ & _ & F2) & _).
  destruct (IH parents st2) as [[zs st3] ->]; auto; [|eapply Forall_inv_tail; eauto|cbn [bind Pipeline.in_generator]; eauto].
  eapply Forall_impl; [|exact HP]. intros q Gq. eapply good_same; [| |exact Gq]; [lia|].
  intros a Ha. assert (a < s_next st) by (eapply sane_in; [apply Gq|auto]). rewrite F2, F1; auto; [lia|].
  intros K. apply (born_in _ _ _ _ B1) in K. lia.
Qed.

Lemma loop_works : forall gens i st earlier parents, sound_gens (length parents) gens ->
  (forall b op, In b gens -> In op (ops_of b) -> stays_in D op) ->
  (forall x, In x parents -> whole score D false None st x) ->
  exists r, seg_loop score maximize coin k_elites gens i st earlier parents = Ok r.
Proof.
  induction gens as [|b gens IH]; intros i st earlier parents HS HO HP; cbn [seg_loop]; [eauto|].
  destruct b as [plans|n plans]; [|destruct HS]. destruct HS as [HS1 HS2]. cbn [offspring_of].
  assert (HF : Forall op_fits (flat_map pl_ops plans)).
  { apply Forall_forall. intros op Ho. split; [apply (HO (Singly plans)); auto; left; auto|split; congruence]. }
  assert (HG : Forall (good st) parents) by (apply Forall_forall; intros x Hx; apply HP; auto).
  destruct (breed_works plans parents st HG HF HS1) as [[off st1] E]. rewrite E. cbn [bind Pipeline.in_generator].
  destruct (breed_good _ _ _ _ _ _ _ _ _ HG HF E) as [(N1 & F1 & A1 & O1) L1]. rewrite Forall_forall in A1.
  assert (HB : forall x, In x (off ++ parents) -> whole score D false None st1 x).
  { intros x Hx. apply in_app_or in Hx. destruct Hx as [Hx|Hx]; [destruct (A1 x Hx) as (X1 & X2 & _); split; auto|].
    eapply whole_same; eauto. }
  destruct (survivors_good maximize coin k_elites i off parents) as (next & -> & I1 & Ln & _).
  { intros x Hx. destruct (HB x Hx) as [_ (f & -> & _)]. discriminate. }
  cbn [bind Pipeline.in_generator]. apply IH.
  - rewrite Ln, L1. auto.
  - intros b op Hb. apply HO. right. auto.
  - intros x Hx. apply HB, I1. auto.
Qed.

Lemma run_works genomes gens st :
  (forall gs, In gs genomes -> gs <> [] /\ Forall D gs) ->
  (forall b op, In b gens -> In op (ops_of b) -> stays_in D op) ->
  sound_gens (length genomes) gens ->
  exists r, seg_run score maximize coin k_elites genomes gens st = Ok r.
Proof.
  intros HG HO HS. unfold seg_run. destruct (create_segs genomes st) as [xs st1] eqn:E.
  destruct (create_good D false None genomes st xs st1) as (N & F & C & O & M); auto.
  { intros gs Hg. destruct (HG gs Hg). repeat split; auto. discriminate. }
  rewrite Forall_forall in C.
  assert (Ev : exists init, evaluate_segs score st1 xs = Ok init).
  { assert (T : forall x, In x xs -> good st1 x) by (intros x Hx; apply C; auto). clear - Hscore T.
    induction xs as [|x xs IH]; cbn [evaluate_segs]; [eauto|]. destruct (score_works st1 x) as [y ->]; [apply T; left; auto|].
    cbn [bind Pipeline.in_generator]. destruct IH as [ys ->]; [intros; apply T; right; auto|]. cbn [bind Pipeline.in_generator]. eauto. }
  destruct Ev as [init Ev]. rewrite Ev. cbn [bind Pipeline.in_generator]. destruct (evaluate_segs_spec _ _ _ _ Ev) as [Eg Ef].
  rewrite Forall_forall in Ef. apply loop_works; auto.
  - replace (length init) with (length genomes); auto. rewrite <- M, map_length, <- (map_length sg_genome xs), <- Eg, map_length. auto.
  - intros x Hx. split; [|auto]. assert (K : In (sg_genome x) (map sg_genome xs)) by (rewrite <- Eg; apply in_map; auto).
    apply in_map_iff in K. destruct K as (z & Ez & Hz). destruct (C z Hz) as [[Z1 Z2] _].
    split; [unfold seg_sane in *; rewrite <- Ez; auto|apply (kept_same D false None st1 st1 z x); auto].
Qed.
End Final.
