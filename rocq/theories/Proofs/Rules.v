(** Lemmas about Pitt rule systems. *)
From Coq Require Import Lia Lqa Qabs Qround Sorted.
From Verif Require Import Model.Base Model.Rules Spec.Rules.
From Verif Require Import Proofs.Order.

(** ** distances *)
Lemma gap_unique l h x d d' : gap l h x d -> gap l h x d' -> (d == d')%Q.
Proof.
  intros [H1 H2] [H3 H4]. destruct (Qlt_le_dec h l) as [L | L]; [rewrite H1, H3 by exact L; reflexivity|].
  destruct (H2 L) as ((y & A & B & C) & D), (H4 L) as ((y' & A' & B' & C') & D').
  apply Qle_antisym; [rewrite C'; auto|rewrite C; auto].
Qed.
Lemma box_distance_unique box xs D : box_distance box xs D -> forall E, box_distance box xs E -> (D == E)%Q.
Proof.
  induction 1 as [box D H | l h box x xs d D E G B IH H]; intros F HF; inversion HF; subst.
  - match goal with K : (F == 0)%Q |- _ => rewrite K end. exact H.
  - match goal with K : gap l h x ?d0 |- _ => pose proof (gap_unique _ _ _ _ _ G K) as Ed end.
    match goal with K : box_distance box xs ?D0 |- _ => pose proof (IH _ K) as ED end.
    match goal with K : (F == _)%Q |- _ => rewrite K end. rewrite H, Ed, ED. reflexivity.
Qed.
Lemma box_distance_eq box xs D E : (D == E)%Q -> box_distance box xs D -> box_distance box xs E.
Proof.
  intros H B. inversion B; subst; [constructor; rewrite <- H; assumption|]. econstructor; [eassumption|eassumption|]. rewrite <- H. assumption.
Qed.
Lemma box_distance_nonneg box xs D : box_distance box xs D -> (0 <= D)%Q.
Proof. induction 1; [lra|]. nra. Qed.

Lemma cond_diff_gap l h x : exists d, cond_diff (Some l, Some h) (Some x) = Some d /\ gap l h x d.
Proof.
  unfold cond_diff. cbn [gene_ltb gene_leb gene_gap lift2]. destruct (Qltb h l) eqn:E1.
  - exists 0%Q. split; [reflexivity|]. apply Qltb_lt in E1. split; [reflexivity|]. intros. lra.
  - assert (L : (l <= h)%Q) by (destruct (Qlt_le_dec h l) as [L | L]; [apply Qltb_lt in L; congruence|exact L]).
    destruct (Qle_bool l x && Qle_bool x h) eqn:E2.
    + apply andb_true_iff in E2. destruct E2 as [A B]. apply Qle_bool_iff in A, B.
      exists 0%Q. split; [reflexivity|]. split; [lra|]. intros _. split.
      * exists x. split; [exact A|]. split; [exact B|]. setoid_replace (x - x)%Q with 0%Q by ring. reflexivity.
      * intros. apply Qabs_nonneg.
    + unfold gene_min. cbn [gene_ltb].
      assert (H : (x < l \/ h < x)%Q).
      { destruct (Qlt_le_dec x l) as [A | A]; [auto|]. destruct (Qlt_le_dec h x) as [B | B]; [auto|].
        apply Qle_bool_iff in A, B. rewrite A, B in E2. discriminate. }
      destruct H as [H | H].
      * assert (A1 : (Qabs (l - x) == l - x)%Q) by (apply Qabs_pos; lra).
        assert (A2 : (Qabs (h - x) == h - x)%Q) by (apply Qabs_pos; lra).
        exists (Qabs (l - x))%Q. split.
        { destruct (Qltb (Qabs (h - x)) (Qabs (l - x))) eqn:E3; [|reflexivity]. apply Qltb_lt in E3. lra. }
        split; [lra|]. intros _. split.
        -- exists l. split; [lra|]. split; [lra|]. rewrite (Qabs_Qminus l x). reflexivity.
        -- intros y Hy1 Hy2. rewrite A1, (Qabs_Qminus x y), (Qabs_pos (y - x)) by lra. lra.
      * assert (A1 : (Qabs (l - x) == x - l)%Q) by (rewrite Qabs_Qminus; apply Qabs_pos; lra).
        assert (A2 : (Qabs (h - x) == x - h)%Q) by (rewrite Qabs_Qminus; apply Qabs_pos; lra).
        exists (if Qltb (Qabs (h - x)) (Qabs (l - x)) then Qabs (h - x) else Qabs (l - x))%Q. split; [destruct (Qltb (Qabs (h - x)) (Qabs (l - x))); reflexivity|].
        assert (Ev : ((if Qltb (Qabs (h - x)) (Qabs (l - x)) then Qabs (h - x) else Qabs (l - x)) == x - h)%Q).
        { destruct (Qltb (Qabs (h - x)) (Qabs (l - x))) eqn:E3; [exact A2|]. destruct (Qlt_le_dec l h) as [K | K]; [|lra].
          assert (T : Qltb (Qabs (h - x)) (Qabs (l - x)) = true) by (apply Qltb_lt; lra). congruence. }
        split; [lra|]. intros _. split.
        -- exists h. split; [lra|]. split; [lra|]. rewrite Ev, Qabs_pos by lra. reflexivity.
        -- intros y Hy1 Hy2. rewrite Ev, Qabs_pos by lra. lra.
Qed.

Lemma match_score_spec box : forall xs a, length xs <= length box ->
  exists s D, match_score (map real_pair box) (map Some xs) (Some a) = Ok (Some s) /\ box_distance box xs D /\ (s == a + D)%Q.
Proof.
  induction box as [|[l h] box IH]; intros [|x xs] a H; cbn in H; try lia.
  - exists a, 0%Q. split; [reflexivity|]. split; [constructor; reflexivity|ring].
  - exists a, 0%Q. split; [reflexivity|]. split; [constructor; reflexivity|ring].
  - destruct (cond_diff_gap l h x) as (d & E & G).
    cbn [map match_score]. change (real_pair (l, h)) with (Some l, Some h). rewrite E. cbn [lift2].
    destruct (IH xs (a + d * d)%Q) as (s & D & Es & B & Hs); [lia|].
    exists s, (d * d + D)%Q. split; [exact Es|]. split; [econstructor; [exact G|exact B|reflexivity]|]. rewrite Hs. ring.
Qed.

(** ** the match list *)
Definition scored (input : list gene) (rl : rule) (s : Q) : Prop := match_score (conditions rl) input (Some 0%Q) = Ok (Some s).

Lemma skipn_S {A} (x : A) l' : forall r l, skipn r l = x :: l' -> skipn (S r) l = l'.
Proof. induction r as [|r IH]; intros [|y l] H; try discriminate; [cbn in *; congruence|]. cbn in H. apply IH in H. exact H. Qed.
Lemma filter_nil' {A} (f : A -> bool) l : (forall x, In x l -> f x = false) -> filter f l = [].
Proof. induction l as [|x l IH]; intros H; [reflexivity|]. cbn. rewrite (H x) by (left; reflexivity). apply IH. intros y Hy. apply H. right. exact Hy. Qed.

Lemma match_loop_spec input ss : forall rest r ml b,
  Forall2 (scored input) rest (skipn r ss) -> r <= length ss ->
  (r = 0 -> ml = []) ->
  (0 < r -> ml = filter (fun i => Qeq_bool (nth i ss 0%Q) b) (seq 0 r) /\ ml <> [] /\ forall i, i < r -> (b <= nth i ss 0)%Q) ->
  0 < length ss ->
  exists b', match_loop rest input r ml (Some b) = Ok (filter (fun i => Qeq_bool (nth i ss 0%Q) b') (seq 0 (length ss)), Some b') /\
    filter (fun i => Qeq_bool (nth i ss 0%Q) b') (seq 0 (length ss)) <> [] /\
    forall i, i < length ss -> (b' <= nth i ss 0)%Q.
Proof.
  induction rest as [|rl rest IH]; intros r ml b F Hr H0 Hp Hn.
  - assert (r = length ss) by (assert (K := skipn_length r ss); inversion F as [Ex Ey |]; rewrite <- Ey in K; cbn in K; lia).
    subst r. destruct (Hp Hn) as (E & N & M). exists b. cbn [match_loop]. rewrite <- E. auto.
  - inversion F as [|? s ? ss' Hs F' E1 E2]. subst.
    assert (Hlt : r < length ss) by (assert (K := skipn_length r ss); rewrite <- E2 in K; cbn in K; lia).
    assert (Enth : nth r ss 0%Q = s) by (rewrite <- (firstn_skipn r ss), app_nth2; rewrite firstn_length_le by lia; [rewrite Nat.sub_diag, <- E2; reflexivity|lia]).
    assert (Eskip : skipn (S r) ss = ss').
    { apply skipn_S with (x := s). symmetry. exact E2. }
    cbn [match_loop]. unfold scored in Hs. rewrite Hs. cbn [bind].
    assert (Eseq : seq 0 (S r) = seq 0 r ++ [r]) by (rewrite seq_S; reflexivity).
    destruct (match ml with [] => true | _ => false end || gene_ltb (Some s) (Some b)) eqn:Ec.
    + apply IH; [rewrite Eskip; exact F'|lia|lia| |exact Hn]. intros _. rewrite Eseq, filter_app. cbn [filter].
      rewrite Enth. replace (Qeq_bool s s) with true by (symmetry; apply Qeq_bool_iff; reflexivity).
      assert (Hl : forall i, i < r -> (s < nth i ss 0)%Q).
      { intros i Hi. destruct (Hp ltac:(lia)) as (_ & N & M). destruct ml as [|m ml]; [congruence|]. cbn in Ec. apply Qltb_lt in Ec. specialize (M i Hi). lra. }
      split; [|split; [discriminate|]].
      * replace (filter (fun i => Qeq_bool (nth i ss 0%Q) s) (seq 0 r)) with (@nil nat); [reflexivity|].
        symmetry. apply filter_nil'. intros i Hi. apply in_seq in Hi. destruct (Qeq_bool _ _) eqn:Eq; [|reflexivity].
        apply Qeq_bool_iff in Eq. specialize (Hl i ltac:(lia)). lra.
      * intros i Hi. destruct (Nat.eq_dec i r) as [-> | Hn']; [rewrite Enth; lra|]. specialize (Hl i ltac:(lia)). lra.
    + apply orb_false_iff in Ec. destruct Ec as [Em El]. cbn [gene_ltb] in El. destruct ml as [|m ml]; [discriminate|].
      assert (Hr0 : 0 < r) by (destruct r; [specialize (H0 eq_refl); discriminate|lia]).
      destruct (Hp Hr0) as (E & N & M). cbn [gene_eqb]. destruct (Qeq_bool s b) eqn:Eq.
      * apply IH; [rewrite Eskip; exact F'|lia|lia| |exact Hn]. intros _. rewrite Eseq, filter_app. cbn [filter]. rewrite Enth, Eq, <- E.
        split; [reflexivity|]. split; [destruct ml; discriminate|]. intros i Hi. apply Qeq_bool_iff in Eq.
        destruct (Nat.eq_dec i r) as [-> | Hn']; [rewrite Enth; lra|]. apply M. lia.
      * apply IH; [rewrite Eskip; exact F'|lia|lia| |exact Hn]. intros _. rewrite Eseq, filter_app. cbn [filter]. rewrite Enth, Eq, <- E, app_nil_r.
        split; [reflexivity|]. split; [discriminate|]. intros i Hi.
        destruct (Nat.eq_dec i r) as [-> | Hn']; [|apply M; lia]. rewrite Enth. destruct (Qlt_le_dec s b) as [L | L]; [apply Qltb_lt in L; congruence|exact L].
Qed.

Lemma round_even_spec q : rounded q (round_even q).
Proof.
  unfold round_even, rounded. assert (A := Qfloor_le q). assert (B := Qlt_floor q). rewrite inject_Z_plus in B.
  set (f := Qfloor q) in *. change (inject_Z 1) with 1%Q in B.
  destruct (Qltb (q - inject_Z f) (1 # 2)) eqn:E1.
  - apply Qltb_lt in E1. assert (Ea : (Qabs (q - inject_Z f) == q - inject_Z f)%Q) by (apply Qabs_pos; lra).
    split; [rewrite Ea; lra|]. rewrite Ea. intros. lra.
  - assert (G : (1 # 2 <= q - inject_Z f)%Q) by (destruct (Qlt_le_dec (q - inject_Z f) (1 # 2)) as [L | L]; [apply Qltb_lt in L; congruence|exact L]).
    assert (Ea : forall z, z = (f + 1)%Z -> (Qabs (q - inject_Z z) == inject_Z f + 1 - q)%Q).
    { intros z ->. rewrite inject_Z_plus. change (inject_Z 1) with 1%Q. rewrite Qabs_neg by lra. ring. }
    destruct (Qltb (1 # 2) (q - inject_Z f)) eqn:E2.
    + apply Qltb_lt in E2. rewrite (Ea _ eq_refl). split; [lra|]. intros. lra.
    + assert (G2 : (q - inject_Z f <= 1 # 2)%Q) by (destruct (Qlt_le_dec (1 # 2) (q - inject_Z f)) as [L | L]; [apply Qltb_lt in L; congruence|exact L]).
      destruct (Z.even f) eqn:Ev.
      * rewrite Qabs_pos by lra. split; [lra|]. intros _. apply Z.even_spec, Ev.
      * rewrite (Ea _ eq_refl). split; [lra|]. intros _. apply Z.even_spec. rewrite Z.even_add, Ev. reflexivity.
Qed.
Lemma Qabs_case x : (Qabs x == x \/ Qabs x == - x)%Q.
Proof. destruct (Qlt_le_dec x 0); [right; apply Qabs_neg; lra|left; apply Qabs_pos; lra]. Qed.
Lemma rounded_range q z a b : rounded q z -> (inject_Z a <= q)%Q -> (q <= inject_Z b)%Q -> (a <= z <= b)%Z.
Proof.
  intros [H _] Ha Hb. 
  assert (H1 : (inject_Z a - (1#2) <= inject_Z z)%Q /\ (inject_Z z <= inject_Z b + (1#2))%Q) by (apply Qabs_Qle_condition in H; lra).
  destruct H1 as [H1 H2]. split.
  - destruct (Z_lt_le_dec z a) as [L | L]; [|exact L]. assert (inject_Z z <= inject_Z (a - 1))%Q by (rewrite <- Zle_Qle; lia).
    unfold Z.sub in H0. rewrite inject_Z_plus in H0. change (inject_Z (-(1))) with (-(1))%Q in H0. lra.
  - destruct (Z_lt_le_dec b z) as [L | L]; [|exact L]. assert (inject_Z (b + 1) <= inject_Z z)%Q by (rewrite <- Zle_Qle; lia).
    rewrite inject_Z_plus in H0. change (inject_Z 1) with 1%Q in H0. lra.
Qed.
Lemma to_int_rounded q : small q -> rounded q (to_int (Some q)).
Proof.
  intros [H1 H2]. unfold to_int. destruct (rounded_range q (round_even q) _ _ (round_even_spec q) H1 H2) as [A B].
  unfold int64_min. replace ((- 2 ^ 63 <=? round_even q)%Z && (round_even q <? 2 ^ 63)%Z) with true; [apply round_even_spec|].
  symmetry. apply andb_true_iff. split; [apply Z.leb_le; exact A|apply Z.ltb_lt; lia].
Qed.
Lemma presents_spec acts : acts <> [] -> exists out, to_output (length acts) (map to_int acts) = Ok out /\ presents acts out.
Proof.
  intros H. unfold to_output. assert (F : forall qs, acts = map Some qs -> Forall small qs -> Forall2 rounded qs (map to_int acts)).
  { intros qs -> Hs. clear H. induction Hs; constructor; [apply to_int_rounded; assumption|assumption]. }
  destruct acts as [|a [|b acts]]; [congruence| |].
  - exists (One (to_int a)). split; [reflexivity|]. intros qs E Hs. exists [to_int a]. split; [apply (F qs E Hs)|]. right. eexists. split; reflexivity.
  - eexists. split; [reflexivity|]. intros qs E Hs. eexists. split; [apply (F qs E Hs)|]. left. split; [cbn; lia|reflexivity].
Qed.

Lemma match_set_spec rules boxes xs k : rules <> [] -> boxes_of (length xs) k rules boxes ->
  exists ml b, match_set rules [] (map Some xs) = Ok (ml, Some b) /\ ml <> [] /\
    StronglySorted lt ml /\
    (forall w, In w ml <-> exists D, nearest boxes xs w D) /\
    (forall w D, nearest boxes xs w D -> (D == b)%Q).
Proof.
  intros Hne F.
  assert (HS : exists ss, Forall2 (scored (map Some xs)) rules ss /\ Forall2 (fun box s => box_distance box xs s) boxes ss).
  { clear Hne. induction F as [|rl box rules boxes (Hc & Hl & _) F IH]; [exists []; split; constructor|].
    destruct IH as (ss & A & B). destruct (match_score_spec box xs 0%Q Hl) as (s & D & E & Bd & Hs).
    exists (s :: ss). split; constructor; [unfold scored; rewrite Hc; exact E|exact A| |exact B].
    eapply box_distance_eq; [|exact Bd]. rewrite Hs. ring. }
  destruct HS as (ss & Fs & Fb).
  assert (Hlen : length boxes = length ss) by (clear -Fb; induction Fb; cbn; congruence).
  assert (Hpos : 0 < length ss) by (destruct rules; [congruence|]; inversion Fs; cbn; lia).
  destruct (match_loop_spec (map Some xs) ss rules 0 [] (-1)%Q) as (b & E & N & M); [exact Fs|lia|reflexivity|lia|exact Hpos|].
  eexists. exists b. unfold match_set. rewrite app_nil_r. split; [exact E|]. split; [exact N|].
  assert (Hnth : forall i box D, nth_error boxes i = Some box -> box_distance box xs D -> i < length ss /\ (D == nth i ss 0)%Q).
  { clear -Fb. induction Fb as [|bx s bs ss Hd F IH]; intros [|i] box D; cbn; try discriminate.
    - intros [= ->] Hb. split; [lia|]. eapply box_distance_unique; eassumption.
    - intros E Hb. destruct (IH i box D E Hb). split; [lia|assumption]. }
  assert (Hex : forall i, i < length ss -> exists box, nth_error boxes i = Some box /\ box_distance box xs (nth i ss 0%Q)).
  { clear -Fb. induction Fb as [|bx s bs ss Hd F IH]; intros [|i] Hi; cbn in *; try lia; [eauto|]. apply IH. lia. }
  assert (Hb : exists i, i < length ss /\ (nth i ss 0 == b)%Q).
  { destruct (filter _ _) as [|i ml] eqn:Ef; [congruence|]. assert (In i (i :: ml)) as Hi by (left; reflexivity).
    rewrite <- Ef in Hi. apply filter_In in Hi. destruct Hi as [Hi Hq]. apply in_seq in Hi. apply Qeq_bool_iff in Hq. exists i. split; [lia|exact Hq]. }
  assert (Hun : forall w D, nearest boxes xs w D -> (D == b)%Q).
  { intros w D ((box & Ew & Bw) & Hmin). destruct (Hnth _ _ _ Ew Bw) as [Hw Eq]. destruct Hb as (i & Hi & Ei).
    destruct (Hex i Hi) as (bx & Ex & Bx). specialize (Hmin _ _ _ Ex Bx). specialize (M w Hw). rewrite Ei in Hmin. lra. }
  split; [|split; [|exact Hun]].
  - assert (S : StronglySorted lt (seq 0 (length ss))) by (generalize 0; generalize (length ss); intros n; induction n as [|n IH]; intros a; constructor; [apply IH|]; apply Forall_forall; intros x Hx; apply in_seq in Hx; lia).
    revert S. generalize (seq 0 (length ss)). clear. intros l. induction 1 as [|x l S IH H]; cbn; [constructor|]. destruct (Qeq_bool _ _); [|exact IH].
    constructor; [exact IH|]. rewrite Forall_forall in *. intros y Hy. apply filter_In in Hy. apply H, Hy.
  - intros w. rewrite filter_In, in_seq, Qeq_bool_iff. split.
    + intros [Hw Eq]. destruct (Hex w ltac:(lia)) as (bx & Ex & Bx). exists (nth w ss 0%Q). split; [exists bx; auto|].
      intros i box F1 Ei Bi. destruct (Hnth _ _ _ Ei Bi) as [Hi Eq']. specialize (M i Hi). rewrite Eq, Eq'. exact M.
    + intros (D & Hn). assert (Hd := Hun w D Hn). destruct Hn as ((bx & Ex & Bx) & _). destruct (Hnth _ _ _ Ex Bx) as [Hw Eq]. split; [lia|]. rewrite <- Eq. exact Hd.
Qed.

Lemma priorities_seq n : forall r, priorities_from r n (Some RULE_ORDER) = Ok (seq r n).
Proof. induction n as [|n IH]; intros r; [reflexivity|]. cbn. rewrite IH. reflexivity. Qed.
Lemma make_rule_order k rules e : make_executable k rules (Some RULE_ORDER) [] = Ok e ->
  rules <> [] /\ ex_outputs e = k /\ ex_memory e = [] /\ ex_rules e = rules /\ ex_priorities e = seq 0 (length rules).
Proof.
  unfold make_executable. destruct rules as [|a rules]; [discriminate|]. rewrite priorities_seq. intros [= <-]. cbn. split; [discriminate|auto].
Qed.

Lemma min_by_head ps x l : (forall y, In y l -> nth x ps 0 <= nth y ps 0) -> min_by ps x l = x.
Proof.
  induction l as [|y l IH]; intros H; [reflexivity|]. cbn [min_by]. replace (nth y ps 0 <? nth x ps 0) with false.
  - apply IH. intros z Hz. apply H. right. exact Hz.
  - symmetry. apply Nat.ltb_ge, H. left. reflexivity.
Qed.

Definition fired (e : executable) (w : nat) (out : output) : Prop :=
  bind (fire e w) (fun a => to_output (ex_outputs e) (map to_int a)) = Ok out.
Lemma fired_spec rules boxes k e xs w D : 0 < k -> make_executable k rules (Some RULE_ORDER) [] = Ok e ->
  boxes_of (length xs) k rules boxes -> nearest boxes xs w D ->
  exists rl out, nth_error rules w = Some rl /\ fired e w out /\ presents (actions rl) out.
Proof.
  intros Hk Hm F ((box & Eb & Hb) & _). destruct (make_rule_order _ _ _ Hm) as (_ & Ek & Emem & Er & _).
  assert (Hrl : exists rl, nth_error rules w = Some rl /\ length (actions rl) = k).
  { clear -F Eb. revert w Eb. induction F as [|rl bx rules boxes (_ & _ & Hl) F IH]; intros [|w] E; try discriminate; [exists rl; auto|]. apply IH, E. }
  destruct Hrl as (rl & Erl & Hl). exists rl. unfold fired, fire. rewrite Er, Erl, Emem, Ek, Hl, Nat.eqb_refl. cbn [bind].
  destruct (presents_spec (actions rl)) as (out & Eo & Ho); [destruct (actions rl); [cbn in Hl; lia|discriminate]|].
  rewrite Hl in Eo. exists out. auto.
Qed.

Lemma call_spec rules boxes k e xs : 0 < k -> make_executable k rules (Some RULE_ORDER) [] = Ok e ->
  boxes_of (length xs) k rules boxes ->
  (forall d, exists w D out, nearest boxes xs w D /\ call e (map Some xs) d = Ok out /\ fired e w out /\
     ((D == 0)%Q -> forall i E, nearest boxes xs i E -> w <= i)) /\
  (forall w D, nearest boxes xs w D -> ~ (D == 0)%Q -> exists d out, call e (map Some xs) d = Ok out /\ fired e w out).
Proof.
  intros Hk Hm F. destruct (make_rule_order _ _ _ Hm) as (Hne & Ek & Emem & Er & Ep).
  destruct (match_set_spec rules boxes xs k Hne F) as (ml & b & E & N & S & Hin & Hun).
  assert (Hbx : forall w D, nearest boxes xs w D -> w < length rules).
  { intros w D ((bx & Ex & _) & _). assert (w < length boxes) by (apply nth_error_Some; rewrite Ex; discriminate).
    replace (length rules) with (length boxes); [assumption|]. clear -F. induction F; cbn; congruence. }
  assert (Efire : forall w D, nearest boxes xs w D -> exists out, fired e w out) by (intros w D Hw; destruct (fired_spec _ _ _ _ _ _ _ Hk Hm F Hw) as (rl & out & _ & Hf & _); eauto).
  unfold call. rewrite Er, Emem, E. cbn [bind gene_eqb].
  destruct (Qeq_bool b 0) eqn:Eb.
  - apply Qeq_bool_iff in Eb. destruct ml as [|x ml]; [congruence|].
    assert (Sx : forall y, In y ml -> x < y) by (inversion S as [|? ? _ Hall]; subst; apply Forall_forall; exact Hall).
    assert (Hx : exists D, nearest boxes xs x D) by (apply Hin; left; reflexivity). destruct Hx as (D & Hx).
    assert (Hlt : forall y, In y (x :: ml) -> y < length rules) by (intros y Hy; apply Hin in Hy; destruct Hy as (D' & Hy); exact (Hbx _ _ Hy)).
    assert (Hp : forall y, In y (x :: ml) -> nth y (seq 0 (length rules)) 0 = y) by (intros y Hy; rewrite seq_nth by (apply Hlt, Hy); reflexivity).
    rewrite Ep. rewrite (min_by_head _ x ml).
    2:{ intros y Hy. rewrite !Hp by (cbn; auto). apply Nat.lt_le_incl, Sx, Hy. }
    assert (Ef : filter (fun i => nth i (seq 0 (length rules)) 0 <=? nth x (seq 0 (length rules)) 0) (x :: ml) = [x]).
    { cbn [filter]. rewrite Nat.leb_refl. f_equal. apply filter_nil'. intros y Hy. rewrite !Hp by (cbn; auto). apply Nat.leb_gt, Sx, Hy. }
    rewrite Ef. cbn [length]. split.
    + intros d. rewrite Nat.mod_1_r. cbn [nth_error]. destruct (Efire x D Hx) as (out & Ho). exists x, D, out.
      split; [exact Hx|]. split; [exact Ho|]. split; [exact Ho|]. intros _ i F1 Hi. assert (In i (x :: ml)) as [-> | Hi'] by (apply Hin; eauto); [lia|]. apply Nat.lt_le_incl, Sx, Hi'.
    + intros w D' Hw Hd. exfalso. apply Hd. rewrite (Hun _ _ Hw). exact Eb.
  - assert (Hb0 : ~ (b == 0)%Q) by (intros K; apply Qeq_bool_iff in K; congruence). split.
    + intros d. destruct (nth_error ml (d mod length ml)) as [w|] eqn:Ew.
      2:{ exfalso. apply nth_error_None in Ew. assert (d mod length ml < length ml) by (apply Nat.mod_upper_bound; destruct ml; [congruence|discriminate]). lia. }
      assert (Hw : exists D, nearest boxes xs w D) by (apply Hin; eapply nth_error_In, Ew). destruct Hw as (D & Hw).
      destruct (Efire w D Hw) as (out & Ho). exists w, D, out. split; [exact Hw|]. split; [exact Ho|]. split; [exact Ho|].
      intros H0. exfalso. apply Hb0. rewrite <- (Hun _ _ Hw). exact H0.
    + intros w D Hw _. assert (Hi : In w ml) by (apply Hin; eauto). apply In_nth_error in Hi. destruct Hi as (d & Hd).
      destruct (Efire w D Hw) as (out & Ho). exists d, out.
      rewrite Nat.mod_small by (apply nth_error_Some; rewrite Hd; discriminate). rewrite Hd. split; exact Ho.
Qed.

(** ** genomes *)
Section Decode.
Variable dc : decoder.
Hypothesis Hmem : dec_memory dc = 0.
Hypothesis Hout : 0 < num_outputs dc.

Lemma genes_eq : num_genes_per_rule dc = num_inputs dc * 2 + num_outputs dc.
Proof. unfold num_genes_per_rule. rewrite Hmem. lia. Qed.
Lemma split_rule_ok seg : length seg = num_genes_per_rule dc ->
  split_rule dc seg = Ok (firstn (num_inputs dc * 2) seg, skipn (num_inputs dc * 2) seg, []).
Proof.
  intros H. unfold split_rule. rewrite H, Nat.eqb_refl. cbn [negb]. rewrite Hmem. cbn [Nat.eqb]. rewrite genes_eq in H.
  unfold last_k. replace (num_outputs dc =? 0) with false by (symmetry; apply Nat.eqb_neq; lia).
  replace (length seg - num_outputs dc) with (num_inputs dc * 2) by lia.
  rewrite firstn_length_le, skipn_length by lia. rewrite genes_eq. cbn [length].
  replace (_ =? _) with true by (symmetry; apply Nat.eqb_eq; lia). reflexivity.
Qed.
Lemma split_rule_err seg : length seg <> num_genes_per_rule dc -> split_rule dc seg = Err AssertionError.
Proof. intros H. unfold split_rule. replace (_ =? _) with false by (symmetry; apply Nat.eqb_neq; exact H). reflexivity. Qed.

Lemma pairs_spec {A} n : forall (l : list A), length l = n * 2 ->
  length (pairs l) = n /\ forall j a b, nth_error (pairs l) j = Some (a, b) -> nth_error l (2 * j) = Some a /\ nth_error l (2 * j + 1) = Some b.
Proof.
  induction n as [|n IH]; intros l H.
  - destruct l; [|discriminate]. split; [reflexivity|]. intros [|j]; discriminate.
  - destruct l as [|x [|y l]]; try discriminate. cbn [length Nat.mul Nat.add] in H. destruct (IH l ltac:(lia)) as [H1 H2]. split; [cbn [pairs length]; lia|].
    intros [|j] a b E; cbn [pairs nth_error] in E; [injection E as <- <-; split; reflexivity|].
    replace (2 * S j) with (S (S (2 * j))) by lia. cbn [nth_error Nat.add]. apply (H2 j a b E).
Qed.
Lemma nth_error_firstn' {A} n : forall (l : list A) i, i < n -> nth_error (firstn n l) i = nth_error l i.
Proof. induction n as [|n IH]; intros [|x l] [|i] H; cbn; try lia; try reflexivity. apply IH. lia. Qed.
Lemma nth_error_skipn' {A} n : forall (l : list A) i, nth_error (skipn n l) i = nth_error l (n + i).
Proof. induction n as [|n IH]; intros [|x l] i; cbn; try reflexivity; [destruct i; reflexivity|]. apply IH. Qed.

Lemma lays_out_spec seg : length seg = num_genes_per_rule dc ->
  lays_out (num_inputs dc) seg (mk_rule (pairs (firstn (num_inputs dc * 2) seg)) (skipn (num_inputs dc * 2) seg)).
Proof.
  intros H. rewrite genes_eq in H. destruct (pairs_spec (num_inputs dc) (firstn (num_inputs dc * 2) seg)) as [H1 H2]; [apply firstn_length_le; lia|].
  unfold lays_out. cbn [conditions actions]. split; [exact H1|]. split; [rewrite skipn_length; lia|]. split.
  - intros j low high E. assert (j < num_inputs dc) by (rewrite <- H1; apply nth_error_Some; rewrite E; discriminate).
    destruct (H2 _ _ _ E) as [A B]. rewrite nth_error_firstn' in A, B by lia. auto.
  - intros j. apply nth_error_skipn'.
Qed.

Lemma rules_of_ok g : Forall (fun seg => length seg = num_genes_per_rule dc) g ->
  exists rules, rules_of dc g = Ok rules /\
    Forall2 (fun seg rl => lays_out (num_inputs dc) seg rl /\ length (actions rl) = num_outputs dc) g rules.
Proof.
  induction 1 as [|seg g H F IH]; [exists []; split; [reflexivity|constructor]|]. destruct IH as (rules & E & F').
  cbn [rules_of]. rewrite split_rule_ok, E by exact H. cbn [bind]. eexists. split; [reflexivity|]. constructor; [|exact F'].
  split; [apply lays_out_spec, H|]. cbn [actions]. rewrite skipn_length. rewrite genes_eq in H. lia.
Qed.
Lemma rules_of_err g : ~ Forall (fun seg => length seg = num_genes_per_rule dc) g -> rules_of dc g = Err AssertionError.
Proof.
  induction g as [|seg g IH]; intros H; [exfalso; apply H; constructor|]. cbn [rules_of].
  destruct (Nat.eq_dec (length seg) (num_genes_per_rule dc)) as [E | E]; [|rewrite split_rule_err by exact E; reflexivity].
  rewrite split_rule_ok by exact E. cbn [bind]. rewrite IH; [reflexivity|]. intros F. apply H. constructor; assumption.
Qed.
Lemma genome_to_rules_spec g :
  (g <> [] /\ Forall (fun seg => length seg = num_inputs dc * 2 + num_outputs dc) g ->
   exists rules, genome_to_rules dc g = Ok rules /\
     Forall2 (fun seg rl => lays_out (num_inputs dc) seg rl /\ length (actions rl) = num_outputs dc) g rules) /\
  (~ (g <> [] /\ Forall (fun seg => length seg = num_inputs dc * 2 + num_outputs dc) g) -> genome_to_rules dc g = Err AssertionError).
Proof.
  rewrite <- genes_eq. destruct g as [|seg g]; [split; [intros [H _]; congruence|reflexivity]|]. unfold genome_to_rules. split.
  - intros [_ H]. apply rules_of_ok, H.
  - intros H. apply rules_of_err. intros F. apply H. split; [discriminate|exact F].
Qed.

(** mutation *)
Lemma mutate_rules_spec cm am : forall g k, Forall (fun seg => length seg = num_inputs dc * 2 + num_outputs dc) g ->
  (forall k l, length l = num_inputs dc * 2 -> exists l', cm k l = Ok l' /\ length l' = length l) ->
  (forall k l, length l = num_outputs dc -> exists l', am k l = Ok l' /\ length l' = length l) ->
  exists g', mutate_rules dc cm am k g = Ok g' /\ Forall (fun seg => length seg = num_inputs dc * 2 + num_outputs dc) g' /\ length g' = length g /\
    forall i seg, nth_error g i = Some seg -> exists c a, nth_error g' i = Some (c ++ a) /\
      cm (k + i) (firstn (num_inputs dc * 2) seg) = Ok c /\ am (k + i) (skipn (num_inputs dc * 2) seg) = Ok a.
Proof.
  intros g k F Hc Ha. revert k. induction F as [|seg g H F IH]; intros k.
  - exists []. split; [reflexivity|]. split; [constructor|]. split; [reflexivity|]. intros [|i]; discriminate.
  - destruct (IH (S k)) as (g' & E & F' & L & N). cbn [mutate_rules]. unfold mutate_rule. rewrite split_rule_ok by (rewrite genes_eq; exact H). cbn [bind].
    destruct (Hc k (firstn (num_inputs dc * 2) seg)) as (c & Ec & Lc); [apply firstn_length_le; lia|].
    destruct (Ha k (skipn (num_inputs dc * 2) seg)) as (a & Ea & La); [rewrite skipn_length; lia|].
    rewrite Ec. cbn [bind]. rewrite Ea. cbn [bind]. rewrite E. cbn [bind]. exists ((c ++ a) :: g'). split; [reflexivity|].
    split; [constructor; [rewrite app_length, Lc, La, firstn_length_le, skipn_length by lia; lia|exact F']|].
    split; [cbn; congruence|]. intros [|i] sg Es; cbn in Es.
    + injection Es as <-. exists c, a. rewrite Nat.add_0_r. auto.
    + destruct (N i sg Es) as (c' & a' & H1 & H2 & H3). exists c', a'. replace (k + S i) with (S k + i) by lia. auto.
Qed.
End Decode.

Lemma memory_never dc g : 0 < dec_memory dc -> genome_to_rules dc g = Err AssertionError.
Proof.
  intros H. destruct g as [|seg g]; [reflexivity|]. cbn [genome_to_rules rules_of].
  assert (E : split_rule dc seg = Err AssertionError).
  { unfold split_rule. destruct (length seg =? num_genes_per_rule dc) eqn:El; [|reflexivity]. apply Nat.eqb_eq in El. cbn [negb].
    replace (dec_memory dc =? 0) with false by (symmetry; apply Nat.eqb_neq; lia). unfold last_k.
    replace (dec_memory dc =? 0) with false by (symmetry; apply Nat.eqb_neq; lia).
    unfold num_genes_per_rule in El.
    rewrite !skipn_length, !firstn_length_le by lia. replace (_ =? _) with false; [reflexivity|]. symmetry. apply Nat.eqb_neq. lia. }
  rewrite E. reflexivity.
Qed.

Lemma create_rule_spec dc n low high act : dec_memory dc = 0 -> dec_out dc = Discrete n ->
  sample_of (dec_bounds dc) low -> sample_of (dec_bounds dc) high -> gene_in act (Fin 0, Fin (inject_Z (Z.of_nat n - 1))) ->
  exists seg, create_rule dc low high act = Ok seg /\
    Forall2 gene_in seg (condition_bounds dc ++ [(Fin 0, Fin (inject_Z (Z.of_nat n - 1)))]) /\ length seg = num_inputs dc * 2 + num_outputs dc.
Proof.
  intros Hm Ho Hl Hh Ha. unfold create_rule. rewrite Hm, Ho. cbn [Nat.ltb Nat.leb].
  assert (F : Forall2 gene_in (concat (map (fun '(l, h) => l ++ h) (combine low high))) (condition_bounds dc)).
  { unfold condition_bounds. unfold sample_of in *. revert high Hh. induction Hl as [|b row bs low (g & -> & Hg) Hl IH]; intros high Hh.
    - inversion Hh. constructor.
    - inversion Hh as [|? row' ? high' (g' & -> & Hg') Hh']. subst. cbn. constructor; [exact Hg|]. constructor; [exact Hg'|]. apply IH, Hh'. }
  assert (F2 := Forall2_app F (Forall2_cons _ _ Ha (Forall2_nil gene_in))).
  assert (L : length (concat (map (fun '(l, h) => l ++ h) (combine low high)) ++ [act]) = num_inputs dc * 2 + num_outputs dc).
  { assert (K : forall A B (R : A -> B -> Prop) l m, Forall2 R l m -> length l = length m) by (induction 1; cbn; congruence).
    rewrite (K _ _ _ _ _ F2), app_length. unfold condition_bounds, num_inputs, num_outputs. rewrite Ho. cbn [length]. f_equal.
    clear. induction (dec_bounds dc) as [|b l IH]; [reflexivity|]. cbn [map concat length app Nat.mul Nat.add]. rewrite IH. reflexivity. }
  exists (concat (map (fun '(l, h) => l ++ h) (combine low high)) ++ [act]).
  replace (length _ =? _) with true; [auto|]. symmetry. apply Nat.eqb_eq. rewrite L. unfold num_genes_per_rule. rewrite Hm. lia.
Qed.

Lemma create_rule_set_spec dc n samples : dec_memory dc = 0 -> dec_out dc = Discrete n ->
  Forall (fun '(low, high, act) => sample_of (dec_bounds dc) low /\ sample_of (dec_bounds dc) high /\ gene_in act (Fin 0, Fin (inject_Z (Z.of_nat n - 1)))) samples ->
  exists g bs, create_rule_set dc samples = Ok g /\ bounds dc (length samples) = Ok bs /\ Forall2 (Forall2 gene_in) g bs /\
    Forall (fun seg => length seg = num_inputs dc * 2 + num_outputs dc) g.
Proof.
  intros Hm Ho F. unfold bounds, action_bounds. rewrite Hm, Ho. cbn [Nat.ltb Nat.leb bind].
  induction F as [|[[low high] act] samples (H1 & H2 & H3) F IH].
  - exists [], []. split; [reflexivity|]. split; [reflexivity|]. split; constructor.
  - destruct IH as (g & bs & E & Eb & F1 & F2). injection Eb as <-. destruct (create_rule_spec dc n low high act Hm Ho H1 H2 H3) as (seg & Es & Fs & Ls).
    cbn [create_rule_set]. rewrite Es. cbn [bind]. rewrite E. cbn [bind]. eexists. eexists. split; [reflexivity|]. split; [reflexivity|].
    split; constructor; assumption.
Qed.

(** decoding and calling together *)
Lemma decode_call dc g xs d : dec_memory dc = 0 -> 0 < num_outputs dc ->
  (dec_metric dc = None \/ dec_metric dc = Some RULE_ORDER) ->
  g <> [] -> Forall (fun seg => length seg = num_inputs dc * 2 + num_outputs dc) g ->
  Forall (Forall (fun x : gene => x <> None)) g -> length xs = num_inputs dc ->
  exists e out, decode dc g = Ok e /\ call e (map Some xs) d = Ok out.
Proof.
  intros Hm Ho Hmet Hg F Hfin Hx. destruct (proj1 (genome_to_rules_spec dc Hm Ho g) (conj Hg F)) as (rules & E & F2).
  unfold decode. rewrite E. cbn [bind].
  assert (Em : Some (match dec_metric dc with Some m => m | None => RULE_ORDER end) = Some RULE_ORDER) by (destruct Hmet as [-> | ->]; reflexivity).
  rewrite Em. assert (Hne : rules <> []) by (intros ->; inversion F2; congruence).
  assert (Emk : exists e, make_executable (num_outputs dc) rules (Some RULE_ORDER) [] = Ok e).
  { unfold make_executable. destruct rules; [congruence|]. rewrite priorities_seq. eexists. reflexivity. }
  destruct Emk as (e & Emk). exists e.
  assert (Hb : exists boxes, boxes_of (length xs) (num_outputs dc) rules boxes).
  { clear -F2 Hfin Hx. induction F2 as [|seg rl g rules (Hl & Ha) F2 IH]; [exists []; constructor|].
    inversion Hfin as [|? ? Hs Hfin']; subst. destruct (IH Hfin') as (boxes & HB).
    assert (Hbx : exists box, conditions rl = map real_pair box).
    { destruct Hl as (_ & _ & Hl & _). assert (K : forall p, In p (conditions rl) -> exists q, p = real_pair q).
      { intros [lo hi] Hi. apply In_nth_error in Hi. destruct Hi as (j & Hj). destruct (Hl _ _ _ Hj) as [A B]. rewrite Forall_forall in Hs.
        assert (lo <> None) by (eapply Hs, nth_error_In, A). assert (hi <> None) by (eapply Hs, nth_error_In, B).
        destruct lo as [lo|]; [|congruence]. destruct hi as [hi|]; [|congruence]. exists (lo, hi). reflexivity. }
      clear -K. induction (conditions rl) as [|p l IH]; [exists []; reflexivity|]. destruct (K p) as (q & ->); [left; reflexivity|].
      destruct IH as (box & ->); [intros p' Hp; apply K; right; exact Hp|]. exists (q :: box). reflexivity. }
    destruct Hbx as (box & Eb). exists (box :: boxes). constructor; [|exact HB]. split; [exact Eb|]. split; [|exact Ha].
    destruct Hl as (Hl & _). rewrite Eb, map_length in Hl. lia. }
  destruct Hb as (boxes & HB). destruct (call_spec rules boxes _ e xs Ho Emk HB) as [H _]. destruct (H d) as (w & D & out & _ & Ec & _). eauto.
Qed.

Lemma call_nearest rules boxes k e xs d : 0 < k -> make_executable k rules (Some RULE_ORDER) [] = Ok e ->
  boxes_of (length xs) k rules boxes ->
  exists w rl D out, nth_error rules w = Some rl /\ nearest boxes xs w D /\
    call e (map Some xs) d = Ok out /\ presents (actions rl) out /\
    ((D == 0)%Q -> forall i E, nearest boxes xs i E -> w <= i).
Proof.
  intros Hk Hm F. destruct (proj1 (call_spec _ _ _ _ _ Hk Hm F) d) as (w & D & out & Hn & Ec & Hf & H0).
  destruct (fired_spec _ _ _ _ _ _ _ Hk Hm F Hn) as (rl & out' & Er & Hf' & Hp). unfold fired in *. rewrite Hf in Hf'. injection Hf' as <-.
  exists w, rl, D, out. auto.
Qed.
Lemma call_any_nearest rules boxes k e xs w D : 0 < k -> make_executable k rules (Some RULE_ORDER) [] = Ok e ->
  boxes_of (length xs) k rules boxes -> nearest boxes xs w D -> ~ (D == 0)%Q ->
  exists rl d out, nth_error rules w = Some rl /\ call e (map Some xs) d = Ok out /\ presents (actions rl) out.
Proof.
  intros Hk Hm F Hn H0. destruct (proj2 (call_spec _ _ _ _ _ Hk Hm F) w D Hn H0) as (d & out & Ec & Hf).
  destruct (fired_spec _ _ _ _ _ _ _ Hk Hm F Hn) as (rl & out' & Er & Hf' & Hp). unfold fired in *. rewrite Hf in Hf'. injection Hf' as <-.
  exists rl, d, out. auto.
Qed.
Lemma ruleset_mutate_spec dc cm am g fitness : dec_memory dc = 0 -> 0 < num_outputs dc ->
  Forall (fun seg => length seg = num_inputs dc * 2 + num_outputs dc) g ->
  (forall k l, length l = num_inputs dc * 2 -> exists l', cm k l = Ok l' /\ length l' = length l) ->
  (forall k l, length l = num_outputs dc -> exists l', am k l = Ok l' /\ length l' = length l) ->
  exists g', ruleset_mutate dc cm am g fitness = Ok (g', None) /\ length g' = length g /\
    Forall (fun seg => length seg = num_inputs dc * 2 + num_outputs dc) g' /\
    forall i seg, nth_error g i = Some seg -> exists c a, nth_error g' i = Some (c ++ a) /\
      cm i (firstn (num_inputs dc * 2) seg) = Ok c /\ am i (skipn (num_inputs dc * 2) seg) = Ok a.
Proof.
  intros Hm Ho F Hc Ha. destruct (mutate_rules_spec dc Hm Ho cm am g 0 F Hc Ha) as (g' & E & F' & L & N).
  exists g'. unfold ruleset_mutate. rewrite E. cbn [bind]. auto.
Qed.

(** examples *)
Lemma nearest_example : nearest [[(0, 1)]]%Q [3]%Q 0 4%Q.
Proof.
  assert (B : box_distance [(0, 1)]%Q [3]%Q 4%Q).
  { apply bd_cons with (d := 2%Q) (D := 0%Q); [|constructor; reflexivity|reflexivity]. split; [lra|]. intros _. split.
    - exists 1%Q. split; [lra|]. split; [lra|reflexivity].
    - intros y H1 H2. rewrite Qabs_pos; lra. }
  split; [eexists; split; [reflexivity|exact B]|]. intros [|[|i]] box E; cbn; try discriminate.
  intros [= <-] H. rewrite (box_distance_unique _ _ _ B _ H). lra.
Qed.
Ltac gene_in_tac := eexists; split; [reflexivity|split; cbn; (exact I || lra || (vm_compute; discriminate))].
Lemma samples_example :
  let dc := mk_decoder [(Fin 0, Fin 1); (MInf, PInf)]%Q (Discrete 3) 0 None in
  Forall (fun '(low, high, act) => sample_of (dec_bounds dc) low /\ sample_of (dec_bounds dc) high /\
            gene_in act (Fin 0, Fin (inject_Z (Z.of_nat 3 - 1))))
    [([[Some 0]; [Some 7]], [[Some 1]; [Some (-3)]], Some 2); ([[Some 1]; [Some 0]], [[Some 0]; [Some 0]], Some 0)]%Q.
Proof.
  cbn zeta.
  assert (S : forall a b, (0 <= a <= 1)%Q -> sample_of [(Fin 0, Fin 1); (MInf, PInf)]%Q [[Some a]; [Some b]]).
  { intros a b H. constructor; [exists (Some a); split; [reflexivity|gene_in_tac]|].
    constructor; [exists (Some b); split; [reflexivity|gene_in_tac]|constructor]. }
  constructor; [|constructor; [|constructor]].
  - split; [apply S; lra|]. split; [apply S; lra|]. gene_in_tac.
  - split; [apply S; lra|]. split; [apply S; lra|]. gene_in_tac.
Qed.
Lemma matrix_refuted :
  exists dc low high act seg bs, dec_memory dc = 0 /\ dec_out dc = Discrete 2 /\
    Forall2 gene_in (concat low) (dec_bounds dc) /\ Forall2 gene_in (concat high) (dec_bounds dc) /\
    gene_in act (Fin 0, Fin 1) /\
    create_rule dc low high act = Ok seg /\ bounds dc 1 = Ok [bs] /\ ~ Forall2 gene_in seg bs.
Proof.
  exists (mk_decoder [(Fin 0, Fin 1); (Fin (10 # 1), Fin (20 # 1))]%Q (Discrete 2) 0 None), [[Some 0; Some (10 # 1)]]%Q, [[Some 1; Some (20 # 1)]]%Q, (Some 0%Q).
  eexists. eexists. split; [reflexivity|]. split; [reflexivity|].
  split; [cbn; repeat (constructor; [gene_in_tac|]); constructor|].
  split; [cbn; repeat (constructor; [gene_in_tac|]); constructor|].
  split; [gene_in_tac|]. split; [reflexivity|]. split; [reflexivity|].
  cbn. intros F. inversion F as [|? ? ? ? _ F1]. inversion F1 as [|? ? ? ? (q & E & K) _]. injection E as <-. destruct K as [_ K]. cbn [snd] in K. apply Qle_bool_iff in K. discriminate K.
Qed.

(** without outputs the slice that should hold the actions is the whole rule *)
Lemma no_outputs dc genome : num_outputs dc = 0 -> dec_memory dc = 0 -> 0 < num_inputs dc -> decode dc genome = Err AssertionError.
Proof.
  intros Ho Hm Hi. unfold decode, genome_to_rules. destruct genome as [|seg r]; [reflexivity|]. cbn [rules_of].
  replace (split_rule dc seg) with (@Err (list gene * list gene * list gene) AssertionError); [reflexivity|].
  unfold split_rule. destruct (Nat.eqb_spec (length seg) (num_genes_per_rule dc)) as [E | E]; [|reflexivity]. cbn [negb]. rewrite Hm, Ho. cbn [Nat.eqb last_k].
  unfold num_genes_per_rule in E. rewrite Hm, Ho in E. rewrite firstn_length_le by lia. cbn [length].
  replace (_ =? _) with false by (symmetry; apply Nat.eqb_neq; lia). reflexivity.
Qed.
