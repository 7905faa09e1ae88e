(** Lemmas about Pitt rule systems with NaN among the genes or in the input. *)
From Coq Require Import Lia Lqa Qabs Sorted.
From Verif Require Import Model.Base Model.Rules Spec.Rules Proofs.Order Proofs.Rules.
Local Open Scope nat_scope.
Local Open Scope list_scope.

Definition geq (a b : gene) : Prop := match a, b with Some x, Some y => (x == y)%Q | None, None => True | _, _ => False end.

Lemma hears_spec c x d : hears c x d -> geq (cond_diff c x) d.
Proof.
  intros H. destruct H as [low high x d H E|low high x d H E|low x d E|high x|low high H].
  - unfold cond_diff. cbn [gene_ltb]. apply Qltb_lt in H. rewrite H. cbn. rewrite E. reflexivity.
  - destruct (cond_diff_gap low high x) as (d' & -> & G). cbn. eapply gap_unique; eauto.
  - unfold cond_diff. cbn. destruct (Qle_bool low x); cbn; rewrite E, Qabs_Qminus; reflexivity.
  - unfold cond_diff. destruct high as [h|], x as [x|]; cbn; auto.
  - unfold cond_diff. destruct high as [h|]; cbn.
    + specialize (H h eq_refl). destruct (Qltb h low) eqn:E; [apply Qltb_lt in E; lra|]. exact I.
    + exact I.
Qed.
Lemma hears_total c x : exists d, hears c x d.
Proof.
  destruct c as [[low|] [high|]]; [| |eexists; apply hears_no_low|eexists; apply hears_no_low].
  - destruct (Qlt_le_dec high low) as [L|L]; [exists (Some 0%Q); apply hears_empty; [exact L|reflexivity]|].
    destruct x as [x|]; [|exists None; apply hears_no_input; intros h [= <-]; exact L].
    destruct (cond_diff_gap low high x) as (d & _ & G). exists (Some d). apply hears_interval; assumption.
  - destruct x as [x|]; [|exists None; apply hears_no_input; discriminate]. eexists. apply hears_low. reflexivity.
Qed.

Lemma score_reading cs xs E : reading cs xs E -> forall a, exists s, match_score cs xs a = Ok s /\ geq s (lift2 Qplus a E).
Proof.
  induction 1 as [cs D H|c cs x xs d D E Hh R IH HE|c cs x xs d D Hh R IH HN]; intros a.
  - exists a. split; [destruct cs; reflexivity|]. destruct a; cbn; [rewrite H; ring|exact I].
  - cbn [match_score]. destruct (IH (lift2 Qplus a (lift2 Qmult (cond_diff c x) (cond_diff c x)))) as (s & -> & G). exists s. split; [reflexivity|].
    apply hears_spec in Hh. destruct (cond_diff c x) as [d'|]; [|destruct Hh]. cbn in Hh. destruct a as [a|], s as [s|]; cbn in *; auto.
    rewrite G, HE, Hh. ring.
  - cbn [match_score]. destruct (IH (lift2 Qplus a (lift2 Qmult (cond_diff c x) (cond_diff c x)))) as (s & -> & G). exists s. split; [reflexivity|].
    apply hears_spec in Hh. destruct HN as [-> | ->].
    + destruct (cond_diff c x); [destruct Hh|]. destruct a, D, s; cbn in *; auto.
    + destruct (cond_diff c x), a, s; cbn in *; auto.
Qed.
Lemma reading_total : forall cs xs, length xs <= length cs -> exists E, reading cs xs E.
Proof.
  induction cs as [|c cs IH]; intros [|x xs] L; cbn in L; try lia; try (eexists; apply reading_nil; reflexivity).
  destruct (IH xs ltac:(lia)) as (D & R), (hears_total c x) as (d & Hh). destruct d as [d|], D as [D|]; eexists.
  - eapply reading_cons; [exact Hh|exact R|reflexivity].
  - eapply reading_nan; [exact Hh|exact R|auto].
  - eapply reading_nan; [exact Hh|exact R|auto].
  - eapply reading_nan; [exact Hh|exact R|auto].
Qed.

Section Loop.
Variable rules : list rule.
Variable xs : list gene.
Variable ss : list gene.
Hypothesis Hss : Forall2 (fun rl s => match_score (conditions rl) xs (Some 0%Q) = Ok s) rules ss.

Lemma nan_loop : forall rest r ml, Forall (fun rl => exists s, match_score (conditions rl) xs (Some 0%Q) = Ok s) rest -> ml <> [] ->
  match_loop rest xs r ml None = Ok (ml, None).
Proof.
  induction rest as [|rl rest IH]; intros r ml F N; cbn [match_loop]; [reflexivity|].
  destruct (Forall_inv F) as (s & ->). cbn [bind]. destruct ml as [|m ml]; [congruence|]. cbn [orb].
  assert (E1 : gene_ltb s None = false) by (destruct s; reflexivity). assert (E2 : gene_eqb s None = false) by (destruct s; reflexivity).
  rewrite E1, E2. apply IH; [eapply Forall_inv_tail; eauto|discriminate].
Qed.

Definition at_value (b : Q) (i : nat) : Prop := exists q, nth_error ss i = Some (Some q) /\ (q == b)%Q.
Definition tracked (r : nat) (ml : list nat) (b : Q) : Prop :=
  ml <> [] /\ StronglySorted lt ml /\ (forall i, In i ml <-> i < r /\ at_value b i) /\
  forall i q, i < r -> nth_error ss i = Some (Some q) -> (b <= q)%Q.

Lemma sorted_snoc ml r : StronglySorted lt ml -> (forall i, In i ml -> i < r) -> StronglySorted lt (ml ++ [r]).
Proof.
  induction 1 as [|x l S IH H]; intros Hr; cbn; [repeat constructor|]. constructor; [apply IH; intros; apply Hr; right; auto|].
  apply Forall_app. split; [exact H|]. constructor; [|constructor]. apply Hr. left. auto.
Qed.

Lemma finite_loop : forall rest r ml b, r + length rest = length rules ->
  (forall j rl, nth_error rest j = Some rl -> nth_error rules (r + j) = Some rl) -> tracked r ml b ->
  exists ml' b', match_loop rest xs r ml (Some b) = Ok (ml', Some b') /\ tracked (length rules) ml' b'.
Proof.
  assert (Hs : forall i rl, nth_error rules i = Some rl -> exists s, nth_error ss i = Some s /\ match_score (conditions rl) xs (Some 0%Q) = Ok s).
  { clear - Hss. induction Hss as [|rl s rules ss H F IH]; intros [|i] rl' E; cbn in *; try discriminate; [injection E as <-; eauto|eauto]. }
  induction rest as [|rl rest IH]; intros r ml b L Hr T.
  - cbn in L. rewrite Nat.add_0_r in L. subst r. exists ml, b. auto.
  - destruct (Hs r rl) as (s & En & Es). { rewrite <- (Nat.add_0_r r). apply Hr. reflexivity. }
    assert (Hr' : forall j rl', nth_error rest j = Some rl' -> nth_error rules (S r + j) = Some rl').
    { intros j rl' E. replace (S r + j) with (r + S j) by lia. apply Hr. exact E. }
    assert (L' : S r + length rest = length rules) by (cbn in L; lia).
    cbn [match_loop]. rewrite Es. cbn [bind]. destruct T as (N & S & HI & HM). destruct ml as [|m ml]; [congruence|]. cbn [orb].
    destruct s as [s|]; cbn [gene_ltb gene_eqb].
    + destruct (Qltb s b) eqn:Elt.
      * apply Qltb_lt in Elt. apply IH; [exact L'|exact Hr'|]. split; [discriminate|]. split; [repeat constructor|]. split.
        -- intros i. split.
           ++ intros [<-|[]]. split; [lia|]. exists s. split; [exact En|reflexivity].
           ++ intros [Hi (q & Eq & Q)]. destruct (Nat.eq_dec i r) as [->|Hn]; [left; auto|]. exfalso.
              pose proof (HM i q ltac:(lia) Eq). lra.
        -- intros i q Hi Eq. destruct (Nat.eq_dec i r) as [->|Hn]; [rewrite En in Eq; injection Eq as <-; lra|]. pose proof (HM i q ltac:(lia) Eq). lra.
      * assert (G : (b <= s)%Q) by (destruct (Qlt_le_dec s b) as [K|K]; [apply Qltb_lt in K; congruence|exact K]).
        destruct (Qeq_bool s b) eqn:Eq.
        -- apply Qeq_bool_iff in Eq. apply IH; [exact L'|exact Hr'|]. split; [discriminate|].
           split; [apply (sorted_snoc (m :: ml)); [exact S|intros i Hi; apply HI in Hi; apply Hi]|]. split.
           ++ intros i. rewrite in_app_iff. rewrite HI. split.
              ** intros [[Hi V]|[<-|[]]]; [split; [lia|exact V]|]. split; [lia|]. exists s. auto.
              ** intros [Hi V]. destruct (Nat.eq_dec i r) as [->|Hn]; [right; left; auto|left; split; [lia|exact V]].
           ++ intros i q Hi Eqq. destruct (Nat.eq_dec i r) as [->|Hn]; [rewrite En in Eqq; injection Eqq as <-; lra|]. apply (HM i q); [lia|exact Eqq].
        -- apply IH; [exact L'|exact Hr'|]. split; [discriminate|]. split; [exact S|]. split.
           ++ intros i. rewrite HI. split; [intros [Hi V]; split; [lia|exact V]|]. intros [Hi (q & Eqq & V)].
              destruct (Nat.eq_dec i r) as [->|Hn]; [|split; [lia|exists q; auto]]. rewrite En in Eqq. injection Eqq as <-.
              apply Qeq_bool_iff in V. congruence.
           ++ intros i q Hi Eqq. destruct (Nat.eq_dec i r) as [->|Hn]; [rewrite En in Eqq; injection Eqq as <-; exact G|]. apply (HM i q); [lia|exact Eqq].
    + apply IH; [exact L'|exact Hr'|]. split; [discriminate|]. split; [exact S|]. split.
      * intros i. rewrite HI. split; [intros [Hi V]; split; [lia|exact V]|]. intros [Hi (q & Eqq & V)].
        destruct (Nat.eq_dec i r) as [->|Hn]; [rewrite En in Eqq; discriminate|]. split; [lia|exists q; auto].
      * intros i q Hi Eqq. destruct (Nat.eq_dec i r) as [->|Hn]; [rewrite En in Eqq; discriminate|]. apply (HM i q); [lia|exact Eqq].
Qed.
End Loop.

Lemma fires rules k e w rl : 0 < k -> make_executable k rules (Some RULE_ORDER) [] = Ok e -> nth_error rules w = Some rl ->
  length (actions rl) = k -> exists out, fired e w out /\ presents (actions rl) out.
Proof.
  intros Hk Hm Hn Hl. destruct (make_rule_order _ _ _ Hm) as (_ & Ek & Emem & Er & _).
  unfold fired, fire. rewrite Er, Hn, Emem, Ek, Hl, Nat.eqb_refl. cbn [bind].
  destruct (presents_spec (actions rl)) as (out & Eo & Ho); [destruct (actions rl); [cbn in Hl; lia|discriminate]|].
  rewrite Hl in Eo. exists out. auto.
Qed.

Lemma call_with_nan rules k e xs : 0 < k -> make_executable k rules (Some RULE_ORDER) [] = Ok e ->
  Forall (fun rl => length xs <= length (conditions rl) /\ length (actions rl) = k) rules ->
  (rule_reads rules xs 0 None -> forall d, exists rl out, nth_error rules 0 = Some rl /\ call e xs d = Ok out /\ presents (actions rl) out) /\
  (forall D0, rule_reads rules xs 0 (Some D0) ->
    (forall d, exists w D rl out, rule_reads rules xs w (Some D) /\ (forall i E, rule_reads rules xs i (Some E) -> D <= E)%Q /\
      nth_error rules w = Some rl /\ call e xs d = Ok out /\ presents (actions rl) out /\
      ((D == 0)%Q -> forall i E, rule_reads rules xs i (Some E) -> (E == 0)%Q -> w <= i)) /\
    (forall w D, rule_reads rules xs w (Some D) -> (forall i E, rule_reads rules xs i (Some E) -> D <= E)%Q -> ~ (D == 0)%Q ->
      exists d rl out, nth_error rules w = Some rl /\ call e xs d = Ok out /\ presents (actions rl) out)).
Proof.
  intros Hk Hm F. destruct (make_rule_order _ _ _ Hm) as (Hne & Ek & Emem & Er & Ep).
  assert (HS : exists ss, Forall2 (fun rl s => match_score (conditions rl) xs (Some 0%Q) = Ok s) rules ss /\
                          Forall2 (fun rl s => exists E, reading (conditions rl) xs E /\ geq s E) rules ss).
  { clear - F. induction F as [|rl rules [Hl _] F IH]; [exists []; split; constructor|]. destruct IH as (ss & A & B).
    destruct (reading_total _ _ Hl) as (E & R). destruct (score_reading _ _ _ R (Some 0%Q)) as (s & Es & G).
    exists (s :: ss). split; constructor; auto. exists E. split; [exact R|]. destruct s, E; cbn in *; auto. rewrite G. ring. }
  destruct HS as (ss & Hss & Hrd).
  assert (Hlen0 : length rules = length ss) by (clear - Hss; induction Hss; cbn; congruence).
  assert (Hread : forall i D, rule_reads rules xs i D -> exists s, nth_error ss i = Some s /\ geq s D).
  { intros i D (rl & En & R). destruct (score_reading _ _ _ R (Some 0%Q)) as (s & Es & G). exists s. split.
    - clear - Hss En Es. revert i En. induction Hss as [|rl' s' rules ss H F IH]; intros [|i] En; cbn in *; try discriminate; [|eauto].
      injection En as ->. rewrite Es in H. injection H as ->. reflexivity.
    - destruct s, D; cbn in *; auto. rewrite G. ring. }
  assert (Hback : forall i q, nth_error ss i = Some (Some q) -> exists E rl, nth_error rules i = Some rl /\ reading (conditions rl) xs (Some E) /\ (q == E)%Q).
  { clear - Hrd. induction Hrd as [|rl s rules ss (E & R & G) F IH]; intros [|i] q En; cbn in *; try discriminate; [|eauto].
    injection En as ->. destruct E as [E|]; [|destruct G]. exists E, rl. auto. }
  assert (Hact : forall i rl, nth_error rules i = Some rl -> length (actions rl) = k).
  { intros i rl En. rewrite Forall_forall in F. apply F. eapply nth_error_In; eauto. }
  assert (Hcall : forall d, call e xs d = bind (match_set rules [] xs) (fun '(match_list, best) =>
    let match_list := if gene_eqb best (Some 0%Q) then match match_list with [] => []
      | x :: r => let top := nth (min_by (seq 0 (length rules)) x r) (seq 0 (length rules)) 0 in
                  filter (fun i => nth i (seq 0 (length rules)) 0 <=? top) match_list end else match_list in
    match nth_error match_list (d mod length match_list) with None => Err ValueError
    | Some winner => bind (fire e winner) (fun a => to_output (ex_outputs e) (map to_int a)) end)).
  { intros d. unfold call. rewrite Er, Emem, Ep. reflexivity. }
  destruct rules as [|rl0 rest] eqn:Erules; [congruence|]. rewrite <- Erules in *.
  destruct ss as [|s0 ss']; [exfalso; rewrite Erules in Hss; inversion Hss|].
  assert (Es0 : match_score (conditions rl0) xs (Some 0%Q) = Ok s0) by (rewrite Erules in Hss; inversion Hss; assumption).
  assert (Hset : match_set rules [] xs = match_loop rest xs 1 [0] s0).
  { unfold match_set. rewrite app_nil_r, Erules. cbn [match_loop]. rewrite Es0. reflexivity. }
  split.
  - intros H0 d. destruct (Hread _ _ H0) as (s & Eq & G). cbn in Eq. injection Eq as <-. destruct s0 as [q|]; [destruct G|].
    rewrite Hcall, Hset, nan_loop; [|rewrite Erules in Hss; inversion Hss as [|? ? ? ? _ Hss']; clear - Hss'; induction Hss'; constructor; eauto|discriminate].
    cbn [bind gene_eqb length]. rewrite Nat.mod_1_r. cbn [nth_error]. destruct (fires rules k e 0 rl0 Hk Hm) as (out & Hf & Hp).
    + rewrite Erules. reflexivity.
    + apply (Hact 0). rewrite Erules. reflexivity.
    + exists rl0, out. split; [rewrite Erules; reflexivity|]. split; [exact Hf|exact Hp].
  - intros D0 H0. destruct (Hread _ _ H0) as (s & Eq & G). cbn in Eq. injection Eq as <-. destruct s0 as [q0|]; [|destruct G].
    destruct (finite_loop rules xs (@cons gene (Some q0) ss') Hss rest 1 [0] q0) as (ml & b & Em & N & S & HI & HM).
    + rewrite Erules. reflexivity.
    + intros j rl E. rewrite Erules. exact E.
    + split; [discriminate|]. split; [repeat constructor|]. split.
      * intros i. split; [intros [<-|[]]; split; [lia|]; exists q0; split; [reflexivity|reflexivity]|]. intros [Hi _]. left. lia.
      * intros i q Hi E. replace i with 0 in E by lia. injection E as <-. lra.
    + set (ss := @cons gene (Some q0) ss') in *. clearbody ss.
      assert (Hlen : forall i s, nth_error ss i = Some s -> i < length rules).
      { intros i s E. rewrite Hlen0. apply (proj1 (nth_error_Some ss i)). rewrite E. discriminate. }
      assert (Hmin : forall i E, rule_reads rules xs i (Some E) -> (b <= E)%Q).
      { intros i E R. destruct (Hread _ _ R) as (s & En & Gs). destruct s as [s|]; [|destruct Gs]. cbn in Gs.
        pose proof (HM i s (Hlen _ _ En) En). lra. }
      assert (Hin : forall w, In w ml -> exists D rl, rule_reads rules xs w (Some D) /\ (D == b)%Q /\ nth_error rules w = Some rl).
      { intros w Hw. apply HI in Hw. destruct Hw as (_ & q & En & Q). destruct (Hback _ _ En) as (E & rl & Erl & R & QE).
        exists E, rl. split; [exists rl; auto|]. split; [lra|exact Erl]. }
      assert (Hin' : forall w D, rule_reads rules xs w (Some D) -> (D == b)%Q -> In w ml).
      { intros w D R Q. destruct (Hread _ _ R) as (s & En & Gs). destruct s as [s|]; [|destruct Gs]. cbn in Gs.
        apply HI. split; [eapply Hlen; eauto|]. exists s. split; [exact En|lra]. }
      rewrite Em in Hset.
      destruct (Qeq_bool b 0) eqn:Eb.
      * apply Qeq_bool_iff in Eb. destruct ml as [|x ml]; [congruence|].
        assert (Sx : forall y, In y ml -> x < y) by (inversion S as [|? ? _ Hall]; subst; apply Forall_forall; exact Hall).
        assert (Hlt : forall y, In y (x :: ml) -> y < length rules) by (intros y Hy; apply HI in Hy; apply Hy).
        assert (Hp : forall y, In y (x :: ml) -> nth y (seq 0 (length rules)) 0 = y) by (intros y Hy; rewrite seq_nth by (apply Hlt, Hy); reflexivity).
        assert (Ef : filter (fun i => nth i (seq 0 (length rules)) 0 <=? nth (min_by (seq 0 (length rules)) x ml) (seq 0 (length rules)) 0) (x :: ml) = [x]).
        { rewrite (min_by_head _ x ml) by (intros y Hy; rewrite !Hp by (cbn; auto); apply Nat.lt_le_incl, Sx, Hy).
          cbn [filter]. rewrite Nat.leb_refl. f_equal. apply filter_nil'. intros y Hy. rewrite !Hp by (cbn; auto). apply Nat.leb_gt, Sx, Hy. }
        destruct (Hin x (or_introl eq_refl)) as (D & rl & R & QD & Erl). destruct (fires rules k e x rl Hk Hm Erl (Hact _ _ Erl)) as (out & Hf & Hpr).
        split.
        -- intros d. exists x, D, rl, out. split; [exact R|]. split; [intros i E HE; pose proof (Hmin i E HE); lra|]. split; [exact Erl|].
           split. { rewrite Hcall, Hset. cbn [bind gene_eqb]. replace (Qeq_bool b 0) with true by (symmetry; apply Qeq_bool_iff; exact Eb).
             cbv zeta. rewrite Ef. cbn [length]. rewrite Nat.mod_1_r. exact Hf. }
           split; [exact Hpr|]. intros _ i E HE Q. assert (In i (x :: ml)) as [->|Hi] by (eapply Hin'; [exact HE|lra]); [lia|]. apply Nat.lt_le_incl, Sx, Hi.
        -- intros w D' Hw Hmn Hnz. exfalso. apply Hnz. pose proof (Hmin _ _ Hw). specialize (Hmn _ _ R). lra.
      * assert (Hb0 : ~ (b == 0)%Q) by (intros K; apply Qeq_bool_iff in K; congruence).
        split.
        -- intros d. destruct (nth_error ml (d mod length ml)) as [w|] eqn:Ew.
           2:{ exfalso. apply nth_error_None in Ew. assert (d mod length ml < length ml) by (apply Nat.mod_upper_bound; destruct ml; [congruence|discriminate]). lia. }
           destruct (Hin w (nth_error_In _ _ Ew)) as (D & rl & R & QD & Erl). destruct (fires rules k e w rl Hk Hm Erl (Hact _ _ Erl)) as (out & Hf & Hpr).
           exists w, D, rl, out. split; [exact R|]. split; [intros i E HE; pose proof (Hmin i E HE); lra|]. split; [exact Erl|].
           split. { rewrite Hcall, Hset. cbn [bind gene_eqb]. rewrite Eb. cbv zeta. rewrite Ew. exact Hf. }
           split; [exact Hpr|]. intros Q. exfalso. apply Hb0. lra.
        -- intros w D Hw Hmn Hnz.
           assert (QD : (D == b)%Q). { destruct ml as [|x ml]; [congruence|]. destruct (Hin x (or_introl eq_refl)) as (D' & rl' & R' & QD' & _).
             specialize (Hmn _ _ R'). pose proof (Hmin _ _ Hw). lra. }
           pose proof (Hin' w D Hw QD) as Hi. apply In_nth_error in Hi. destruct Hi as (d & Hd).
           destruct (Hin w (nth_error_In _ _ Hd)) as (D' & rl & _ & _ & Erl). destruct (fires rules k e w rl Hk Hm Erl (Hact _ _ Erl)) as (out & Hf & Hpr).
           exists d, rl, out. split; [exact Erl|]. split; [|exact Hpr].
           rewrite Hcall, Hset. cbn [bind gene_eqb]. rewrite Eb. cbv zeta. rewrite Nat.mod_small by (apply nth_error_Some; rewrite Hd; discriminate).
           rewrite Hd. exact Hf.
Qed.

Lemma nan_example :
  let rules := [mk_rule [(Some 5, Some 6)] [Some 1]; mk_rule [(None, Some 9)] [Some 2]; mk_rule [(Some 2, None)] [Some 3]]%Q in
  (match make_executable 1 rules (Some RULE_ORDER) [] with
   | Ok e => map (fun x => call e [Some x] 0) [6; 3; 4]%Q = [Ok (One 1); Ok (One 3); Ok (One 1)] | Err _ => False end) /\
  rule_reads rules [Some 3%Q] 0 (Some 4%Q) /\ rule_reads rules [Some 3%Q] 1 None /\ rule_reads rules [Some 3%Q] 2 (Some 1%Q) /\
  (match make_executable 1 [mk_rule [(Some 6, Some 5)] [Some 8]; mk_rule [(Some 0, Some 5)] [Some 9]]%Q (Some RULE_ORDER) [] with
   | Ok e => call e [None] 3 = Ok (One 8) | Err _ => False end).
Proof.
  cbv zeta. split; [vm_compute; reflexivity|]. split; [|split; [|split; [|vm_compute; reflexivity]]].
  - eexists. split; [reflexivity|]. eapply reading_cons; [|apply reading_nil; reflexivity|].
    + apply hears_interval with (d := 2%Q); [lra|]. split; [lra|]. intros _. split.
      * exists 5%Q. split; [lra|]. split; [lra|reflexivity].
      * intros y H1 H2. rewrite Qabs_neg; lra.
    + reflexivity.
  - eexists. split; [reflexivity|]. eapply reading_nan; [apply hears_no_low|apply reading_nil; reflexivity|auto].
  - eexists. split; [reflexivity|]. eapply reading_cons; [apply hears_low; reflexivity|apply reading_nil; reflexivity|reflexivity].
Qed.
