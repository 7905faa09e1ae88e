From Verif Require Import Model.Base Model.Heap Model.Pipeline Spec.Heap Proofs.Heap.
From Coq Require Import Lia Permutation.

Section Grouped.
Context {G P F : Type}.
Variable decoder_of : nat -> option (list G -> result P).
Variable problem_of : nat -> phen_value G P -> result F.
Variable takes_individuals : nat -> bool.
Implicit Types w : world G P F.
Notation score_of w i := (score (decoder_of (i_decoder (w_ind w i))) (problem_of (i_problem (w_ind w i))) (genes w i)).

(** worlds that differ only in cached phenomes *)
Definition same_but_cache w w' : Prop :=
  w_arr w' = w_arr w /\ w_nind w' = w_nind w /\ w_narr w' = w_narr w /\ w_uuid w' = w_uuid w /\
  forall j, set_phenome None (w_ind w' j) = set_phenome None (w_ind w j).

Lemma sbc_refl w : same_but_cache w w.
Proof. repeat split; auto. Qed.
Lemma sbc_trans a b c : same_but_cache a b -> same_but_cache b c -> same_but_cache a c.
Proof.
  intros (A1 & A2 & A3 & A4 & A5) (B1 & B2 & B3 & B4 & B5).
  repeat split; congruence.
Qed.
Lemma sbc_fields w w' j : same_but_cache w w' ->
  i_genome (w_ind w' j) = i_genome (w_ind w j) /\ i_problem (w_ind w' j) = i_problem (w_ind w j) /\
  i_decoder (w_ind w' j) = i_decoder (w_ind w j) /\ genes w' j = genes w j.
Proof.
  intros (A1 & _ & _ & _ & A5). specialize (A5 j). unfold set_phenome in A5.
  injection A5 as E1 E2 E3 E4 E5 E6 E7 E8 E9. repeat split; auto. unfold genes. congruence.
Qed.
Lemma sbc_score w w' j : same_but_cache w w' -> score_of w' j = score_of w j.
Proof. intros H. destruct (sbc_fields _ _ j H) as (E1 & E2 & E3 & E4). rewrite E2, E3, E4. auto. Qed.

Lemma get_phenome_ok w i : cache_current decoder_of w i -> (exists f, score_of w i = Ok f) ->
  exists p w', get_phenome decoder_of w i = (Ok p, w') /\ same_but_cache w w' /\
    (forall j, j <> i -> w_ind w' j = w_ind w j) /\ cache_current decoder_of w' i /\
    forall pr, problem_of pr (resolve w' p) = score (decoder_of (i_decoder (w_ind w i))) (problem_of pr) (genes w i).
Proof.
  intros HC (f & Hf). unfold get_phenome. unfold cache_current in HC.
  destruct (i_phenome (w_ind w i)) as [p|] eqn:Ep.
  - exists p, w. split; auto. split; [apply sbc_refl|]. split; auto. split; [unfold cache_current; rewrite Ep; exact HC|].
    intros pr. unfold score. destruct (decoder_of (i_decoder (w_ind w i))) as [d|].
    + destruct HC as (v & E & ->). rewrite E. auto.
    + rewrite HC. auto.
  - destruct (decode decoder_of w i) as [r w'] eqn:E. apply decode_spec in E.
    destruct E as (E1 & E2 & E3 & E4 & E5 & (q & E6) & E7).
    assert (S : same_but_cache w w').
    { repeat split; auto. intros j. destruct (Nat.eq_dec j i) as [->|H]; [rewrite E6; reflexivity|].
      rewrite E5; auto. }
    destruct (sbc_fields _ _ i S) as (F1 & F2 & F3 & F4).
    destruct r as [p|e].
    + exists p, w'. split; auto. split; auto. split; auto. destruct E7 as [Ec Ed]. split.
      * unfold cache_current. rewrite Ec, F3, F4. destruct (decoder_of (i_decoder (w_ind w i))).
        -- destruct Ed as (v & ? & ?). eauto.
        -- subst p. cbn. rewrite E1. auto.
      * intros pr. unfold score. destruct (decoder_of (i_decoder (w_ind w i))).
        -- destruct Ed as (v & -> & ->). auto.
        -- subst p. cbn. rewrite E1. auto.
    + destruct E7 as (d & Ed & E7). unfold score in Hf. rewrite Ed, E7 in Hf. discriminate.
Qed.

Lemma get_phenomes_ok l : forall w, (forall i, In i l -> cache_current decoder_of w i /\ exists f, score_of w i = Ok f) ->
  exists ps w', get_phenomes decoder_of w l = (Ok ps, w') /\ same_but_cache w w' /\
    (forall j, ~ In j l -> w_ind w' j = w_ind w j) /\ (forall i, In i l -> cache_current decoder_of w' i) /\
    Forall2 (fun i p => forall pr, problem_of pr (resolve w' p) =
                         score (decoder_of (i_decoder (w_ind w i))) (problem_of pr) (genes w i)) l ps.
Proof.
  induction l as [|i l IH]; intros w H; cbn.
  - exists [], w. repeat split; auto. intros i [].
  - destruct (H i (or_introl eq_refl)) as [HC HS].
    destruct (get_phenome_ok w i HC HS) as (p & w1 & E & S1 & O1 & C1 & V1). rewrite E.
    assert (H1 : forall k, In k l -> cache_current decoder_of w1 k /\ exists f, score_of w1 k = Ok f).
    { intros k Hk. rewrite (sbc_score _ _ k S1). split; [|apply H; right; auto].
      destruct (Nat.eq_dec k i) as [->|Hne]; auto.
      destruct (H k (or_intror Hk)) as [HCk _]. unfold cache_current in *.
      destruct (sbc_fields _ _ k S1) as (_ & _ & F3 & F4). rewrite F4. rewrite O1 in * by auto.
      destruct (i_phenome (w_ind w k)) as [q|]; auto. destruct (decoder_of (i_decoder (w_ind w k))); auto.
      destruct S1 as (A & _). destruct q; cbn in *; auto. rewrite A; auto. }
    destruct (IH w1 H1) as (ps & w2 & E2 & S2 & O2 & C2 & V2). rewrite E2.
    exists (p :: ps), w2. split; auto. split; [eapply sbc_trans; eauto|]. split; [|split].
    + intros j Hj. rewrite O2 by (intros C; apply Hj; right; auto). apply O1. intros ->. apply Hj; left; auto.
    + intros k [<-|Hk]; auto. destruct (in_dec Nat.eq_dec i l) as [Hin|Hin]; auto.
      unfold cache_current in *. destruct (sbc_fields _ _ i S2) as (_ & _ & F3 & F4). rewrite F4.
      rewrite O2 in * by auto. destruct (i_phenome (w_ind w1 i)) as [q|]; auto.
      destruct (decoder_of (i_decoder (w_ind w1 i))); auto.
      destruct S2 as (A & _). destruct q; cbn in *; auto. rewrite A; auto.
    + constructor.
      * intros pr. rewrite <- V1. f_equal. destruct S2 as (A & _). destruct p; cbn; auto. rewrite A; auto.
      * clear - V2 S1. induction V2 as [|k q l ps HH V2 IHV]; constructor; auto.
        intros pr. rewrite HH. destruct (sbc_fields _ _ k S1) as (_ & _ & F3 & F4). rewrite F3, F4. auto.
Qed.

Lemma mapM_ok {A B} (f : A -> result B) l : (forall x, In x l -> exists y, f x = Ok y) ->
  exists ys, mapM f l = Ok ys /\ Forall2 (fun x y => f x = Ok y) l ys.
Proof.
  induction l as [|x l IH]; intros H; cbn; [exists []; auto|].
  destruct (H x (or_introl eq_refl)) as [y Ey]. destruct (IH (fun z Hz => H z (or_intror Hz))) as (ys & E & V).
  rewrite Ey. cbn. rewrite E. cbn. exists (y :: ys). auto.
Qed.

Lemma F2_compose {A B C} (R : A -> B -> Prop) (S : B -> C -> Prop) (T : A -> C -> Prop) l m n :
  (forall a b c, R a b -> S b c -> T a c) -> Forall2 R l m -> Forall2 S m n -> Forall2 T l n.
Proof.
  intros H HR. revert n. induction HR; intros n HS; inversion HS; subst; constructor; eauto.
Qed.
Lemma F2_impl_in {A B} (R S : A -> B -> Prop) l m :
  (forall a b, In a l -> In b m -> R a b -> S a b) -> Forall2 R l m -> Forall2 S l m.
Proof.
  intros H HR. induction HR; constructor.
  - apply H; simpl; auto.
  - apply IHHR. intros a b Ha Hb. apply H; simpl; auto.
Qed.

Lemma F2_in_r {A B} (R : A -> B -> Prop) l m y : Forall2 R l m -> In y m -> exists x, In x l /\ R x y.
Proof.
  induction 1; intros Hy; [destruct Hy|]. destruct Hy as [<-|Hy]; [eauto using in_eq|].
  destruct (IHForall2 Hy) as (z & ? & ?). eauto using in_cons.
Qed.

Lemma evaluate_chunks_ok pr : takes_individuals pr = true -> forall cs w,
  (forall i, In i (concat cs) -> i_problem (w_ind w i) = pr /\ cache_current decoder_of w i /\ exists f, score_of w i = Ok f) ->
  exists fs w', evaluate_chunks decoder_of problem_of takes_individuals pr w cs = (Ok fs, w') /\
    same_but_cache w w' /\ (forall j, ~ In j (concat cs) -> w_ind w' j = w_ind w j) /\
    Forall2 (fun i f => score_of w i = Ok f) (concat cs) fs.
Proof.
  intros HT. induction cs as [|c cs IH]; intros w H; cbn.
  - exists [], w. repeat split; auto.
  - destruct (get_phenomes_ok c w) as (ps & w1 & E & S1 & O1 & C1 & V1).
    { intros i Hi. apply H. apply in_or_app; auto. }
    rewrite E. unfold evaluate_multiple. rewrite HT.
    destruct (@mapM_ok _ _ (fun p => problem_of pr (resolve w1 p)) ps) as (fs & E2 & V2).
    { intros p Hp. destruct (F2_in_r _ _ _ _ V1 Hp) as (i & Hi & Hv). rewrite Hv.
      destruct (H i) as (Epr & _ & f & Hf); [apply in_or_app; auto|]. rewrite Epr in Hf. eauto. }
    rewrite E2.
    assert (V3 : Forall2 (fun i f => score_of w i = Ok f) c fs).
    { assert (V1' : Forall2 (fun i p => i_problem (w_ind w i) = pr /\
        problem_of pr (resolve w1 p) = score (decoder_of (i_decoder (w_ind w i))) (problem_of pr) (genes w i)) c ps).
      { eapply F2_impl_in; [|exact V1]. intros i p Hi _ Hv. split; auto. apply H. apply in_or_app; auto. }
      eapply F2_compose; [|exact V1'|exact V2].
      intros i p f [Epr Hv] Hf. cbn in *. rewrite Epr, <- Hv. auto. }
    destruct (IH w1) as (gs & w2 & E3 & S2 & O2 & V4).
    { intros i Hi. destruct (H i) as (Epr & HC & HS); [apply in_or_app; auto|].
      destruct (sbc_fields _ _ i S1) as (F1 & F2 & F3 & F4). rewrite F2. split; auto. split.
      - destruct (in_dec Nat.eq_dec i c) as [Hin|Hin]; auto.
        unfold cache_current in *. rewrite F4. rewrite O1 in * by auto.
        destruct (i_phenome (w_ind w i)) as [q|]; auto.
        destruct (decoder_of (i_decoder (w_ind w i))); auto.
        destruct S1 as (A & _). destruct q; cbn in *; auto. rewrite A; auto.
      - rewrite F3, F4. exact HS. }
    rewrite E3. exists (fs ++ gs), w2. split; auto. split; [eapply sbc_trans; eauto|]. split.
    + intros j Hj. rewrite O2 by (intros C; apply Hj, in_or_app; auto).
      apply O1. intros C; apply Hj, in_or_app; auto.
    + apply Forall2_app; auto. clear - V4 S1. induction V4 as [|k q l gs HH V4 IHV]; constructor; auto.
      rewrite <- (sbc_score _ _ k S1). auto.
Qed.

Lemma concat_chunks {A} n : 0 < n -> forall fuel (l : list A), length l <= fuel -> concat (chunks fuel n l) = l.
Proof.
  intros Hn. induction fuel as [|fuel IH]; intros l Hl.
  - destruct l; [auto|simpl in Hl; lia].
  - destruct l as [|x l]; [auto|]. cbn [chunks concat]. rewrite IH.
    + apply firstn_skipn.
    + rewrite skipn_length. cbn [length] in *. lia.
Qed.

Lemma assign_spec (R : nat -> F -> Prop) : (forall i f g, R i f -> R i g -> f = g) ->
  forall l fs w, Forall2 R l fs ->
  let w' := assign_fitnesses w l fs in
  w_arr w' = w_arr w /\ (forall j, ~ In j l -> w_ind w' j = w_ind w j) /\
  (forall j, set_fitness None (w_ind w' j) = set_fitness None (w_ind w j)) /\
  (forall j, In j l -> exists f, i_fitness (w_ind w' j) = Some f /\ R j f).
Proof.
  intros HR l fs w HF. revert w. induction HF as [|i f l fs Hif HF IH]; intros w; cbn.
  - repeat split; auto. intros j [].
  - destruct (IH (upd_ind w i (set_fitness (Some f)))) as (A1 & A2 & A3 & A4). cbn in *.
    split; auto. split; [|split].
    + intros j Hj. rewrite A2 by (intros C; apply Hj; auto). cbn. apply upd_other. intros ->; apply Hj; auto.
    + intros j. rewrite A3. unfold upd. destruct (Nat.eqb_spec j i); subst; auto.
    + intros j Hj. destruct (in_dec Nat.eq_dec j l) as [Hin|Hin]; [apply A4; auto|].
      destruct Hj as [->|Hj]; [|contradiction]. exists f. split; auto. rewrite A2 by auto. cbn.
      rewrite upd_same. auto.
Qed.

Lemma grouped_spec n pr w l : takes_individuals pr = true -> l <> [] -> n <> Some 0 ->
  (forall i, In i l -> i_problem (w_ind w i) = pr /\ cache_current decoder_of w i /\ exists f, score_of w i = Ok f) ->
  exists w', grouped_evaluate decoder_of problem_of takes_individuals n w l = (Ok tt, w') /\
    w_arr w' = w_arr w /\ (forall j, ~ In j l -> w_ind w' j = w_ind w j) /\
    (forall j, i_genome (w_ind w' j) = i_genome (w_ind w j)) /\
    forall j f, In j l -> score_of w j = Ok f -> i_fitness (w_ind w' j) = Some f.
Proof.
  intros HT Hl Hn H. unfold grouped_evaluate. destruct l as [|i0 l0] eqn:El; [congruence|].
  rewrite <- El in *. assert (Hi0 : In i0 l) by (subst; left; auto).
  destruct (H i0 Hi0) as (Ep & _ & _). rewrite Ep.
  assert (Hall : forallb (fun j => i_problem (w_ind w j) =? pr) l = true).
  { apply forallb_forall. intros j Hj. apply Nat.eqb_eq. apply H; auto. }
  rewrite Hall. set (m := match n with Some k => k | None => length l end).
  assert (Hm : 0 < m). { unfold m. destruct n as [k|]; [destruct k; [congruence|lia]|subst l; simpl; lia]. }
  destruct (Nat.eqb_spec m 0); [lia|].
  pose proof (concat_chunks m Hm (length l) l (le_n _)) as EC.
  destruct (evaluate_chunks_ok pr HT (chunks (length l) m l) w) as (fs & w1 & E & S & O & V).
  { rewrite EC. exact H. }
  rewrite E. eexists. split; [reflexivity|]. rewrite EC in *.
  destruct (assign_spec (fun i f => score_of w i = Ok f) ltac:(intros; congruence) l fs w1 V) as (A1 & A2 & A3 & A4).
  cbv zeta in *. split; [destruct S; congruence|]. split; [|split].
  - intros j Hj. rewrite A2; auto.
  - intros j. specialize (A3 j). unfold set_fitness in A3. injection A3 as E1 _ _ _ _ _ _ _ _.
    rewrite E1. apply (sbc_fields _ _ j S).
  - intros j f Hj Hf. destruct (A4 j Hj) as (g & Eg & Hg). congruence.
Qed.

(** ** any caches *)
Notation shown := (presented decoder_of).
Definition same_shown w w' : Prop := same_but_cache w w' /\ forall j, shown w' j = shown w j.
Lemma ss_refl w : same_shown w w.
Proof. split; [apply sbc_refl|auto]. Qed.
Lemma ss_trans a b c : same_shown a b -> same_shown b c -> same_shown a c.
Proof. intros (A & B) (C & D). split; [eapply sbc_trans; eauto|]. intros j. rewrite D. apply B. Qed.

Lemma get_phenome_any w i r w' : get_phenome decoder_of w i = (r, w') ->
  same_shown w w' /\ (forall j, j <> i -> w_ind w' j = w_ind w j) /\
  match r with Ok p => shown w i = Ok (resolve w p) | Err e => shown w i = Err e end.
Proof.
  unfold get_phenome. destruct (i_phenome (w_ind w i)) as [p|] eqn:Ep.
  - intros E. injection E as <- <-. split; [apply ss_refl|]. split; [auto|]. unfold presented. rewrite Ep. destruct p; reflexivity.
  - unfold decode. destruct (decoder_of (i_decoder (w_ind w i))) as [d|] eqn:Ed; [destruct (d (w_arr w (i_genome (w_ind w i)))) as [v|e] eqn:Ev|]; intros E; injection E as <- <-.
    + split; [split|].
      * repeat split. intros j. cbn. destruct (Nat.eq_dec j i) as [-> | N]; [rewrite upd_same; reflexivity|rewrite upd_other by exact N; reflexivity].
      * intros j. unfold presented. cbn. destruct (Nat.eq_dec j i) as [-> | N]; [rewrite upd_same, Ep, Ed, Ev; reflexivity|rewrite upd_other by exact N; reflexivity].
      * split; [intros j N; cbn; apply upd_other; exact N|]. unfold presented. rewrite Ep, Ed, Ev. reflexivity.
    + split; [apply ss_refl|]. split; [auto|]. unfold presented. rewrite Ep, Ed, Ev. reflexivity.
    + split; [split|].
      * repeat split. intros j. cbn. destruct (Nat.eq_dec j i) as [-> | N]; [rewrite upd_same; reflexivity|rewrite upd_other by exact N; reflexivity].
      * intros j. unfold presented. cbn. destruct (Nat.eq_dec j i) as [-> | N]; [rewrite upd_same, Ep, Ed; reflexivity|rewrite upd_other by exact N; reflexivity].
      * split; [intros j N; cbn; apply upd_other; exact N|]. unfold presented. rewrite Ep, Ed. reflexivity.
Qed.

Lemma resolve_arr w w' p : w_arr w' = w_arr w -> resolve w' p = resolve w p.
Proof. intros E. destruct p; cbn; rewrite ?E; reflexivity. Qed.

Lemma get_phenomes_any l : forall w r w', get_phenomes decoder_of w l = (r, w') ->
  same_shown w w' /\ (forall j, ~ In j l -> w_ind w' j = w_ind w j) /\
  match r with
  | Ok ps => Forall2 (fun i p => shown w i = Ok (resolve w p)) l ps
  | Err e => exists i, In i l /\ shown w i = Err e
  end.
Proof.
  induction l as [|i l IH]; intros w r w' E; cbn in E.
  - injection E as <- <-. split; [apply ss_refl|]. split; [auto|constructor].
  - destruct (get_phenome decoder_of w i) as [[p|e] w1] eqn:E1; destruct (get_phenome_any _ _ _ _ E1) as (S1 & O1 & V1).
    + destruct (get_phenomes decoder_of w1 l) as [[ps|e] w2] eqn:E2; destruct (IH _ _ _ E2) as (S2 & O2 & V2); injection E as <- <-.
      * split; [eapply ss_trans; eauto|]. split; [intros j Hj; rewrite O2 by (intros C; apply Hj; right; exact C); apply O1; intros ->; apply Hj; left; reflexivity|].
        constructor; [exact V1|]. eapply F2_impl_in; [|exact V2]. intros k q _ _ Hk. cbv beta in *. rewrite <- (proj2 S1 k), Hk. f_equal. apply resolve_arr. apply (proj1 S1).
      * split; [eapply ss_trans; eauto|]. split; [intros j Hj; rewrite O2 by (intros C; apply Hj; right; exact C); apply O1; intros ->; apply Hj; left; reflexivity|].
        destruct V2 as (k & Hk & Ek). exists k. split; [right; exact Hk|]. rewrite <- (proj2 S1 k). exact Ek.
    + injection E as <- <-. split; [exact S1|]. split; [intros j Hj; apply O1; intros ->; apply Hj; left; reflexivity|]. exists i. split; [left; reflexivity|exact V1].
Qed.

Lemma mapM_any {A B} (f : A -> result B) l :
  match mapM f l with Ok ys => Forall2 (fun x y => f x = Ok y) l ys | Err e => exists x, In x l /\ f x = Err e end.
Proof.
  induction l as [|x l IH]; cbn; [constructor|]. destruct (f x) as [y|e] eqn:E; cbn; [|exists x; auto].
  destruct (mapM f l) as [ys|e]; cbn; [constructor; assumption|]. destruct IH as (z & Hz & Ez). exists z. auto.
Qed.

Definition scored pr w i : result F := match shown w i with Err e => Err e | Ok v => problem_of pr v end.

Lemma evaluate_chunks_any pr : forall cs w r w', evaluate_chunks decoder_of problem_of takes_individuals pr w cs = (r, w') ->
  same_shown w w' /\ (forall j, ~ In j (concat cs) -> w_ind w' j = w_ind w j) /\
  match r with
  | Ok fs => Forall2 (fun i f => scored pr w i = Ok f) (concat cs) fs /\ (cs <> [] -> takes_individuals pr = true)
  | Err e => (takes_individuals pr = false /\ e = TypeError) \/ exists i, In i (concat cs) /\ scored pr w i = Err e
  end.
Proof.
  induction cs as [|c cs IH]; intros w r w' E; cbn in E.
  - injection E as <- <-. split; [apply ss_refl|]. split; [auto|]. split; [constructor|congruence].
  - destruct (get_phenomes decoder_of w c) as [[ps|e] w1] eqn:E1; destruct (get_phenomes_any _ _ _ _ E1) as (S1 & O1 & V1); cbn [concat].
    2:{ injection E as <- <-. split; [exact S1|]. split; [intros j Hj; apply O1; intros C; apply Hj, in_or_app; auto|]. right. destruct V1 as (i & Hi & Ei). exists i. split; [apply in_or_app; auto|].
        unfold scored. rewrite Ei. reflexivity. }
    assert (Oc : forall j, ~ In j (c ++ concat cs) -> w_ind w1 j = w_ind w j) by (intros j Hj; apply O1; intros C; apply Hj, in_or_app; auto).
    unfold evaluate_multiple in E. destruct (takes_individuals pr) eqn:HT.
    2:{ injection E as <- <-. split; [exact S1|]. split; [exact Oc|]. left. auto. }
    pose proof (mapM_any (fun p => problem_of pr (resolve w1 p)) ps) as M.
    destruct (mapM (fun p => problem_of pr (resolve w1 p)) ps) as [fs|e].
    2:{ injection E as <- <-. split; [exact S1|]. split; [exact Oc|]. right. destruct M as (p & Hp & Ep). destruct (F2_in_r _ _ _ _ V1 Hp) as (i & Hi & Ei).
        exists i. split; [apply in_or_app; auto|]. cbv beta in Ei. unfold scored. rewrite Ei. rewrite (resolve_arr w w1) in Ep by apply (proj1 S1). exact Ep. }
    assert (V3 : Forall2 (fun i f => scored pr w i = Ok f) c fs).
    { eapply F2_compose; [|exact V1|exact M]. intros i p f Hi Hf. cbv beta in *. unfold scored. rewrite Hi. rewrite (resolve_arr w w1) in Hf by apply (proj1 S1). exact Hf. }
    assert (Sc : forall k, scored pr w1 k = scored pr w k) by (intros k; unfold scored; rewrite (proj2 S1 k); reflexivity).
    destruct (evaluate_chunks decoder_of problem_of takes_individuals pr w1 cs) as [[gs|e] w2] eqn:E3; destruct (IH _ _ _ E3) as (S2 & O2 & V2); injection E as <- <-.
    + split; [eapply ss_trans; eauto|]. split; [intros j Hj; rewrite O2 by (intros C; apply Hj, in_or_app; auto); apply Oc, Hj|]. split; [|auto].
      apply Forall2_app; [exact V3|]. eapply F2_impl_in; [|exact (proj1 V2)]. intros k g _ _ Hk. cbv beta in *. rewrite <- Sc. exact Hk.
    + split; [eapply ss_trans; eauto|]. split; [intros j Hj; rewrite O2 by (intros C; apply Hj, in_or_app; auto); apply Oc, Hj|]. destruct V2 as [(V2 & _) | (k & Hk & Ek)]; [congruence|right].
      exists k. split; [apply in_or_app; auto|]. rewrite <- Sc. exact Ek.
Qed.

Lemma grouped_any n w l r w' : grouped_evaluate decoder_of problem_of takes_individuals n w l = (r, w') ->
  w_arr w' = w_arr w /\ (forall j, ~ In j l -> w_ind w' j = w_ind w j) /\
  (forall j, i_genome (w_ind w' j) = i_genome (w_ind w j) /\ i_problem (w_ind w' j) = i_problem (w_ind w j) /\ shown w' j = shown w j) /\
  match r with
  | Ok _ => l <> [] /\ n <> Some 0 /\
      (forall i j, In i l -> In j l -> i_problem (w_ind w i) = i_problem (w_ind w j)) /\
      forall j, In j l -> takes_individuals (i_problem (w_ind w j)) = true /\
        exists f, presented_score decoder_of problem_of w j = Ok f /\ i_fitness (w_ind w' j) = Some f
  | Err e => (forall j, i_fitness (w_ind w' j) = i_fitness (w_ind w j)) /\
      ((l = [] /\ e = IndexError) \/
       (e = AssertionError /\ exists i j, In i l /\ In j l /\ i_problem (w_ind w i) <> i_problem (w_ind w j)) \/
       (n = Some 0 /\ e = ValueError) \/
       (e = TypeError /\ exists i, In i l /\ takes_individuals (i_problem (w_ind w i)) = false) \/
       (exists i, In i l /\ presented_score decoder_of problem_of w i = Err e))
  end.
Proof.
  unfold grouped_evaluate. destruct l as [|i0 l0] eqn:El.
  - intros E. injection E as <- <-. repeat split; auto.
  - rewrite <- El in *. assert (Hi0 : In i0 l) by (subst; left; auto). set (pr := i_problem (w_ind w i0)).
    destruct (forallb (fun j => i_problem (w_ind w j) =? pr) l) eqn:Hall.
    2:{ intros E. injection E as <- <-. split; [auto|]. split; [auto|]. split; [auto|]. split; [auto|]. right. left. split; [reflexivity|].
        assert (X : existsb (fun j => negb (i_problem (w_ind w j) =? pr)) l = true).
        { clear - Hall. induction l as [|k l IH]; [discriminate|]. cbn in *. destruct (i_problem (w_ind w k) =? pr); cbn in *; auto. }
        apply existsb_exists in X. destruct X as (k & Hk & X). cbv beta in X. apply negb_true_iff, Nat.eqb_neq in X. exists k, i0. auto. }
    assert (Hp : forall j, In j l -> i_problem (w_ind w j) = pr).
    { intros j Hj. rewrite forallb_forall in Hall. apply Nat.eqb_eq. apply Hall. exact Hj. }
    set (m := match n with Some k => k | None => length l end). destruct (Nat.eqb_spec m 0) as [Em | Em].
    { intros E. injection E as <- <-. split; [auto|]. split; [auto|]. split; [auto|]. split; [auto|]. right. right. left. split; [|reflexivity].
      unfold m in Em. destruct n as [k|]; [subst; reflexivity|]. rewrite El in Em. discriminate. }
    pose proof (concat_chunks m ltac:(lia) (length l) l (le_n _)) as EC.
    destruct (evaluate_chunks decoder_of problem_of takes_individuals pr w (chunks (length l) m l)) as [[fs|e] w1] eqn:E1;
      destruct (evaluate_chunks_any _ _ _ _ _ E1) as (S1 & O1 & V1); rewrite EC in *; intros E; injection E as <- <-.
    + destruct V1 as (V1 & HT). destruct (assign_spec (fun i f => scored pr w i = Ok f) ltac:(intros; congruence) l fs w1 V1) as (A1 & A2 & A3 & A4).
      cbv zeta in *. set (w2 := assign_fitnesses w1 l fs) in *. split; [rewrite A1; apply (proj1 S1)|]. split; [intros j Hj; rewrite A2 by exact Hj; apply O1; exact Hj|].
      assert (Fj : forall j, i_genome (w_ind w2 j) = i_genome (w_ind w1 j) /\ i_problem (w_ind w2 j) = i_problem (w_ind w1 j) /\ i_decoder (w_ind w2 j) = i_decoder (w_ind w1 j) /\ i_phenome (w_ind w2 j) = i_phenome (w_ind w1 j)).
      { intros j. specialize (A3 j). unfold set_fitness in A3. injection A3 as G1 G2 G3 G4 _ _ _ _ _. auto. }
      split; [|split; [|split; [|split]]].
      * intros j. destruct (Fj j) as (G1 & G2 & G3 & G4). destruct (sbc_fields _ _ j (proj1 S1)) as (F1 & F2 & F3 & F4). split; [congruence|]. split; [congruence|].
        rewrite <- (proj2 S1 j). unfold presented. rewrite G1, G3, G4, A1. reflexivity.
      * rewrite El. discriminate.
      * unfold m in Em. destruct n as [k|]; [congruence|discriminate].
      * intros i j Hi Hj. rewrite !Hp by assumption. reflexivity.
      * intros j Hj. rewrite Hp by exact Hj. split.
        -- apply HT. rewrite El. cbn. destruct l0; discriminate.
        -- destruct (A4 j Hj) as (f & Ef & Rf). exists f. split; [|exact Ef]. unfold presented_score. rewrite Hp by exact Hj. exact Rf.
    + split; [apply (proj1 S1)|]. split; [exact O1|].
      split; [intros j; destruct (sbc_fields _ _ j (proj1 S1)) as (F1 & F2 & F3 & F4); split; [exact F1|]; split; [exact F2|]; apply (proj2 S1 j)|].
      split; [intros j; destruct S1 as ((_ & _ & _ & _ & A5) & _); specialize (A5 j); unfold set_phenome in A5; injection A5 as _ _ _ A5 _ _ _ _ _; exact A5|].
      right. right. right. destruct V1 as [(V1 & ->) | (i & Hi & Ei)]; [left; split; [reflexivity|exists i0; auto]|right].
      exists i. split; [exact Hi|]. unfold presented_score. rewrite Hp by exact Hi. exact Ei.
Qed.
End Grouped.
