(** Proofs about problem wrappers, cooperative evaluation and bit-string problems. *)
From Coq Require Import Lia Lqa ZifyBool Qround Qfield.
From Verif Require Import Model.Base Model.Scalar Model.Problems Spec.Order Spec.Problems Proofs.Order.

(** ** means *)
Definition sum_state (l : list num) (r : option ext) : Prop :=
  match r with
  | None => has None l \/ (has (Some PInf) l /\ has (Some MInf) l)
  | Some PInf => ~ has None l /\ has (Some PInf) l /\ ~ has (Some MInf) l
  | Some MInf => ~ has None l /\ has (Some MInf) l /\ ~ has (Some PInf) l
  | Some (Fin q) => exists qs, Forall2 (fun x q => num_val x = Some (Fin q)) l qs /\ (q == Qsum qs)%Q
  end.

Lemma has_app v l x : has v (l ++ [x]) <-> has v l \/ num_val x = v.
Proof.
  unfold has. split.
  - intros (y & Hy & E). apply in_app_or in Hy as [Hy | [<- | []]]; [left; eauto|auto].
  - intros [(y & Hy & E) | E]; [exists y|exists x]; (split; [apply in_or_app; cbn; auto|exact E]).
Qed.
Lemma finite_has l qs v : Forall2 (fun x q => num_val x = Some (Fin q)) l qs -> has v l -> exists q, v = Some (Fin q).
Proof. intros F (x & Hx & E). induction F as [|y q l qs H F IH]; [destruct Hx|]. destruct Hx as [<- | Hx]; [|auto]. rewrite E in H. eauto. Qed.
Lemma Qsum_app l m : (Qsum (l ++ m) == Qsum l + Qsum m)%Q.
Proof. unfold Qsum. induction l as [|x l IH]; cbn [app fold_right]; [ring|]. rewrite IH. ring. Qed.

Lemma sum_state_step l acc x : sum_state l acc ->
  sum_state (l ++ [x]) (match acc, num_val x with Some a, Some b => ext_add a b | _, _ => None end).
Proof.
  intros H. destruct acc as [a|]; [|cbn in *; destruct H as [H | [H1 H2]]; [left; apply has_app; auto|right; split; apply has_app; auto]].
  destruct (num_val x) as [b|] eqn:Ex; [|cbn; left; apply has_app; auto].
  destruct a as [|q|], b as [|r|]; cbn [ext_add sum_state] in *; rewrite ?has_app, ?Ex;
    try (destruct H as (H1 & H2 & H3); repeat split; solve [intros [G | G]; [contradiction|congruence]|auto]).
  - destruct H as (qs & F & E). repeat split.
    + intros [G | G]; [|congruence]. destruct (finite_has _ _ _ F G); discriminate.
    + auto.
    + intros [G | G]; [|congruence]. destruct (finite_has _ _ _ F G); discriminate.
  - destruct H as (qs & F & E). exists (qs ++ [r]). split; [apply Forall2_app; [exact F|repeat constructor; exact Ex]|].
    rewrite Qsum_app, E. unfold Qsum. cbn [fold_right]. ring.
  - destruct H as (qs & F & E). repeat split.
    + intros [G | G]; [|congruence]. destruct (finite_has _ _ _ F G); discriminate.
    + auto.
    + intros [G | G]; [|congruence]. destruct (finite_has _ _ _ F G); discriminate.
Qed.

Lemma ext_sum_state l : sum_state l (ext_sum l).
Proof.
  unfold ext_sum. assert (G : forall l pre acc, sum_state pre acc -> sum_state (pre ++ l)
    (fold_left (fun acc x => match acc, num_val x with Some a, Some b => ext_add a b | _, _ => None end) l acc)).
  { clear. induction l as [|x l IH]; intros pre acc H; cbn [fold_left]; [rewrite app_nil_r; exact H|].
    replace (pre ++ x :: l) with ((pre ++ [x]) ++ l) by (rewrite <- app_assoc; reflexivity). apply IH, sum_state_step, H. }
  apply (G l []). cbn. exists []. split; [constructor|reflexivity].
Qed.

Lemma Forall2_val_det l qs qs' : Forall2 (fun x q => num_val x = Some (Fin q)) l qs ->
  Forall2 (fun x q => num_val x = Some (Fin q)) l qs' -> qs = qs'.
Proof.
  intros F. revert qs'. induction F; intros qs' F'; inversion F' as [|? ? ? ? Hx Hl]; subst; [reflexivity|]. f_equal; [congruence|auto].
Qed.

Lemma Zpos_len {A} (x : A) l : ~ (inject_Z (Z.of_nat (length (x :: l))) == 0)%Q.
Proof. cbn [length]. unfold Qeq, inject_Z. cbn [Qnum Qden]. lia. Qed.

Lemma np_mean_spec l : mean_of l (np_mean l).
Proof.
  pose proof (ext_sum_state l) as H. unfold np_mean. unfold mean_of. destruct (ext_sum l) as [[|q|]|]; cbn [sum_state] in H.
  - destruct H as (H1 & H2 & H3). cbn. split; [intros [G | [G _]]; contradiction|]. split; [intros; contradiction|]. split; [auto|].
    intros qs _ F. destruct (finite_has _ _ _ F H2); discriminate.
  - destruct H as (qs & F & E). split; [|split; [|split]].
    + intros [G | [G _]]; destruct (finite_has _ _ _ F G); discriminate.
    + intros _ G _; destruct (finite_has _ _ _ F G); discriminate.
    + intros _ G _; destruct (finite_has _ _ _ F G); discriminate.
    + intros qs' Hne F'. rewrite <- (Forall2_val_det _ _ _ F F'). destruct l as [|x l]; [congruence|]. eexists. split; [reflexivity|].
      rewrite <- E. field. apply Zpos_len.
  - destruct H as (H1 & H2 & H3). cbn. split; [intros [G | [_ G]]; contradiction|]. split; [auto|]. split; [intros; contradiction|].
    intros qs _ F. destruct (finite_has _ _ _ F H2); discriminate.
  - cbn. split; [auto|]. split; [intros H1 H2 H3; destruct H as [H | [_ H]]; contradiction|].
    split; [intros H1 H2 H3; destruct H as [H | [H _]]; contradiction|].
    intros qs _ F. destruct H as [H | [H _]]; destruct (finite_has _ _ _ F H); discriminate.
Qed.

(** the mean of equal values is that value *)
Lemma has_repeat v f n : 0 < n -> has v (repeat f n) <-> num_val f = v.
Proof.
  intros Hn. unfold has. split.
  - intros (x & Hx & E). apply repeat_spec in Hx. congruence.
  - intros E. exists f. split; [destruct n; [lia|left; reflexivity]|exact E].
Qed.
Lemma mean_repeat f n m : 0 < n -> mean_of (repeat f n) m -> forall mx, same_value mx m f.
Proof.
  intros Hn (H1 & H2 & H3 & H4) mx. rewrite !has_repeat in H1, H2, H3 by exact Hn. unfold same_value, better.
  destruct (num_val f) as [[|q|]|] eqn:E.
  - rewrite H3 by congruence. destruct mx; cbn; tauto.
  - destruct (H4 (repeat q n)) as (r & Er & Eq).
    + destruct n; [lia|discriminate].
    + clear -E. induction n; constructor; assumption.
    + rewrite Er. assert (r == q)%Q.
      { rewrite repeat_length in Eq. assert (Qsum (repeat q n) == q * inject_Z (Z.of_nat n))%Q.
        { clear. unfold Qsum. induction n as [|n IH]; [cbn [repeat fold_right Z.of_nat]; ring|]. cbn [repeat fold_right]. rewrite IH, Nat2Z.inj_succ.
          unfold Z.succ. rewrite inject_Z_plus. ring. }
        rewrite H in Eq. apply Qmult_inj_r in Eq; [exact Eq|]. unfold Qeq, inject_Z. cbn. lia. }
      destruct mx; cbn; split; intros L; rewrite H in L; exact (Qlt_irrefl _ L).
  - rewrite H2 by congruence. destruct mx; cbn; tauto.
  - rewrite H1 by (left; reflexivity). tauto.
Qed.

(** ** offsets *)
Lemma num_add_val f c q : num_val c = Some (Fin q) ->
  num_val (num_add f c) = match num_val f with
                          | Some (Fin x) => Some (Fin (x + q)%Q)
                          | Some e => Some e
                          | None => None
                          end \/ exists x, num_val f = Some (Fin x) /\ exists y, num_val (num_add f c) = Some (Fin y) /\ (y == x + q)%Q.
Proof.
  destruct c as [z'|p' e'|]; cbn [num_val]; intros E; [| |discriminate].
  - injection E as <-. destruct f as [z|p [|x|]|]; [|left; reflexivity..].
    right. eexists. split; [reflexivity|]. eexists. split; [reflexivity|]. rewrite inject_Z_plus. reflexivity.
  - injection E as ->. left. destruct f as [z|p [|x|]|]; reflexivity.
Qed.

Lemma offset_better mx f g c q : num_val c = Some (Fin q) -> (better mx (num_add f c) (num_add g c) <-> better mx f g).
Proof.
  intros Hc.
  assert (N : forall f, match num_val f with
                 | Some (Fin x) => exists y, num_val (num_add f c) = Some (Fin y) /\ (y == x + q)%Q
                 | v => num_val (num_add f c) = v
                 end).
  { intros h. destruct (num_add_val h c q Hc) as [E | (x & E & y & Ey & Eq)].
    - destruct (num_val h) as [[|x|]|]; try exact E. exists (x + q)%Q. split; [exact E|reflexivity].
    - rewrite E. eauto. }
  unfold better. pose proof (N f) as Nf. pose proof (N g) as Ng.
  destruct (num_val f) as [[|x|]|], (num_val g) as [[|y|]|];
    try destruct Nf as (x' & -> & Ex); try rewrite Nf; try destruct Ng as (y' & -> & Ey); try rewrite Ng; cbn; try tauto.
  destruct mx; rewrite Ex, Ey; split; lra.
Qed.

Lemma offset_viable f c q : num_val c = Some (Fin q) -> (viable (num_add f c) <-> viable f).
Proof.
  intros Hc. unfold viable. destruct (num_add_val f c q Hc) as [E | (x & E & y & Ey & Eq)].
  - rewrite E. destruct (num_val f) as [[| |]|]; split; congruence.
  - rewrite E, Ey. split; congruence.
Qed.

Lemma offset_worse mx coin f g c q : num_val c = Some (Fin q) ->
  worse_than mx coin (num_add f c) (num_add g c) = worse_than mx coin f g.
Proof.
  intros Hc. destruct (isnan f && isnan g) eqn:E.
  - apply andb_prop in E as [Ef Eg]. destruct f, g; try discriminate. destruct c; cbn; reflexivity.
  - assert (Hv : viable f \/ viable g).
    { rewrite !viable_isnan. destruct (isnan f), (isnan g); auto; discriminate. }
    apply eq_true_iff_eq. rewrite !worse_than_spec; [apply (offset_better mx g f c q Hc)|exact Hv|].
    rewrite !(offset_viable _ c q Hc). exact Hv.
Qed.

(** ** averages *)
Section Average.
Context {P : Type}.
Variable ev : nat -> P -> result num.

Lemma evaluate_all_spec l k fs : evaluate_all ev k l = Ok fs <->
  length fs = length l /\ forall i p, nth_error l i = Some p -> exists f, ev (k + i) p = Ok f /\ nth_error fs i = Some f.
Proof.
  revert k fs. induction l as [|p l IH]; intros k fs; cbn [evaluate_all].
  - split; [intros [= <-]; split; [reflexivity|intros [|i]; discriminate]|]. intros [E _]. destruct fs; [reflexivity|discriminate].
  - split.
    + destruct (ev k p) as [f|] eqn:Ef; cbn [bind]; [|discriminate]. destruct (evaluate_all ev (S k) l) as [fs'|] eqn:E; cbn [bind]; [|discriminate].
      intros [= <-]. apply IH in E as [E1 E2]. split; [cbn; congruence|]. intros [|i] q Hq; cbn in Hq |- *.
      * injection Hq as <-. exists f. rewrite Nat.add_0_r. auto.
      * destruct (E2 i q Hq) as (f' & H1 & H2). exists f'. replace (k + S i) with (S k + i) by lia. auto.
    + intros [E H]. destruct fs as [|f fs]; [discriminate|]. injection E as E.
      destruct (H 0 p eq_refl) as (f' & H1 & H2). rewrite Nat.add_0_r in H1. cbn in H2. injection H2 as <-. rewrite H1. cbn [bind].
      rewrite (proj2 (IH (S k) fs)); [reflexivity|]. split; [exact E|]. intros i q Hq. destruct (H (S i) q Hq) as (f' & G1 & G2).
      exists f'. replace (S k + i) with (k + S i) by lia. auto.
Qed.

Lemma average_mean n k p fs : length fs = n -> (forall i f, nth_error fs i = Some f -> ev (k + i) p = Ok f) ->
  exists m, average_evaluate ev n k p = Ok m /\ mean_of fs m.
Proof.
  intros Hn H. exists (np_mean fs). split; [|apply np_mean_spec]. unfold average_evaluate.
  rewrite (proj2 (evaluate_all_spec (repeat p n) k fs)); [reflexivity|]. split; [rewrite repeat_length; exact Hn|].
  intros i q Hq. pose proof (nth_error_In _ _ Hq) as Hi. apply repeat_spec in Hi. subst q.
  assert (i < n) by (rewrite <- (repeat_length p n); apply nth_error_Some; congruence).
  destruct (nth_error fs i) as [f|] eqn:Ef; [|apply nth_error_None in Ef; lia]. exists f. auto.
Qed.

Lemma average_deterministic n k p f : 0 < n -> (forall i, ev i p = Ok f) ->
  exists m, average_evaluate ev n k p = Ok m /\ forall mx, same_value mx m f.
Proof.
  intros Hn H. destruct (average_mean n k p (repeat f n)) as (m & E & Hm).
  - apply repeat_length.
  - intros i f' Hf. apply nth_error_In, repeat_spec in Hf. subst. apply H.
  - exists m. split; [exact E|]. apply (mean_repeat f n m Hn Hm).
Qed.

Lemma mean_by_chunk_groups n groups fuel : 0 < n -> Forall (fun g => length g = n) groups -> length (concat groups) <= fuel ->
  mean_by_chunk n fuel (concat groups) = map np_mean groups.
Proof.
  intros Hn F. revert fuel. induction F as [|g groups Hg F IH]; intros fuel Hf; [destruct fuel; reflexivity|].
  cbn [concat map] in *. rewrite app_length in Hf. destruct fuel as [|fuel]; [lia|].
  destruct (g ++ concat groups) as [|y r] eqn:E; [apply (f_equal (@length _)) in E; rewrite app_length in E; cbn in E; lia|].
  cbn [mean_by_chunk]. rewrite <- E. f_equal.
  - f_equal. rewrite firstn_app, Hg, Nat.sub_diag. cbn. rewrite app_nil_r, <- Hg. apply firstn_all.
  - rewrite skipn_app, Hg, Nat.sub_diag. rewrite (skipn_all2 g) by lia. cbn [skipn app]. apply IH. lia.
Qed.

Lemma average_multiple_groups (evm : list P -> result (list num)) n phenomes groups : 0 < n ->
  length groups = length phenomes -> Forall (fun g => length g = n) groups ->
  evm (flat_map (fun p => repeat p n) phenomes) = Ok (concat groups) ->
  exists means, average_multiple evm n phenomes = Ok means /\ Forall2 mean_of groups means.
Proof.
  intros Hn Hl F E. exists (map np_mean groups). unfold average_multiple. rewrite E. cbn [bind].
  rewrite mean_by_chunk_groups by (auto; lia). rewrite map_length, Hl, Nat.eqb_refl. split; [reflexivity|].
  clear. induction groups; constructor; [apply np_mean_spec|assumption].
Qed.

Lemma evaluate_all_app l1 l2 k : evaluate_all ev k (l1 ++ l2) =
  bind (evaluate_all ev k l1) (fun a => bind (evaluate_all ev (k + length l1) l2) (fun b => Ok (a ++ b))).
Proof.
  revert k. induction l1 as [|p l IH]; intros k; cbn [app evaluate_all length].
  - rewrite Nat.add_0_r. cbn [bind]. destruct (evaluate_all ev k l2); reflexivity.
  - destruct (ev k p); cbn [bind]; [|reflexivity]. rewrite IH. replace (S k + length l) with (k + S (length l)) by lia.
    destruct (evaluate_all ev (S k) l); cbn [bind]; [|reflexivity]. destruct (evaluate_all ev _ l2); reflexivity.
Qed.

(** grouped evaluation through the default evaluate_multiple of a deterministic problem *)
Lemma average_multiple_deterministic n k phenomes (score : P -> num) : 0 < n ->
  (forall i p, In p phenomes -> ev i p = Ok (score p)) ->
  exists means, average_multiple (evaluate_all ev k) n phenomes = Ok means /\
    Forall2 (fun p m => forall mx, same_value mx m (score p)) phenomes means.
Proof.
  intros Hn H. destruct (average_multiple_groups (evaluate_all ev k) n phenomes (map (fun p => repeat (score p) n) phenomes) Hn) as (ms & E & F).
  - apply map_length.
  - apply Forall_map, Forall_forall. intros p _. apply repeat_length.
  - clear -H. revert k. induction phenomes as [|p l IH]; intros k; [reflexivity|]. cbn [flat_map map concat].
    rewrite evaluate_all_app. rewrite (proj2 (evaluate_all_spec (repeat p n) k (repeat (score p) n))).
    + cbn [bind]. rewrite IH; [reflexivity|]. intros i q Hq. apply H. right. exact Hq.
    + rewrite !repeat_length. split; [reflexivity|]. intros i q Hq. pose proof (nth_error_In _ _ Hq) as Hi. apply repeat_spec in Hi. subst q.
      exists (score p). split; [apply H; left; reflexivity|].
      assert (i < n) by (rewrite <- (repeat_length p n); apply nth_error_Some; congruence).
      rewrite nth_error_repeat by assumption. reflexivity.
  - exists ms. split; [exact E|]. clear -F Hn. revert ms F. induction phenomes as [|p l IH]; intros ms F; inversion F; subst; constructor; auto.
    apply (mean_repeat (score p) n); assumption.
Qed.
End Average.

(** ** taking turns *)
Lemma turn_spec count m step : 0 < count -> 0 < m ->
  exists r, step = (r * count + fst (turn count m step)) * m + snd (turn count m step) /\
    fst (turn count m step) < count /\ snd (turn count m step) < m.
Proof.
  intros Hc Hm. induction step as [|s (r & E & H1 & H2)]; [exists 0; cbn; lia|]. cbn [turn].
  destruct (turn count m s) as [k j]. cbn [fst snd] in *. destruct (S j <? m) eqn:Ej; cbn [fst snd].
  - exists r. lia.
  - destruct (S k <? count) eqn:Ek; cbn [fst snd].
    + exists r. assert (S j = m) by lia. subst m. split; [|lia]. rewrite E. ring.
    + exists (S r). assert (S j = m) by lia. assert (S k = count) by lia. subst m count. split; [|lia]. rewrite E. ring.
Qed.

Lemma floor_nat_div a b : 0 < b -> Qfloor (inject_Z (Z.of_nat a) / inject_Z (Z.of_nat b)) = Z.of_nat (a / b).
Proof.
  intros Hb. rewrite <- Zdiv_Qdiv. symmetry. apply Nat2Z.inj_div.
Qed.

Lemma current_is_turn {P} (problems : list (problem P)) m step : problems <> [] -> 0 < m ->
  exists q, nth_error problems (fst (turn (length problems) m step)) = Some q /\
    current_problem problems (inject_Z (Z.of_nat m)) step = Ok q.
Proof.
  intros Hp Hm. assert (Hc : 0 < length problems) by (destruct problems; [congruence|cbn; lia]).
  destruct (turn_spec (length problems) m step Hc Hm) as (r & E & H1 & H2). set (k := fst _) in *. set (j := snd _) in *.
  destruct (nth_error problems k) as [q|] eqn:Eq; [|apply nth_error_None in Eq; lia]. exists q. split; [reflexivity|].
  unfold current_problem. rewrite floor_nat_div by exact Hm.
  assert (Ed : step / m = r * length problems + k) by (rewrite E, Nat.div_add_l by lia; rewrite Nat.div_small by lia; lia).
  rewrite Ed. rewrite Nat2Z.inj_add, Nat2Z.inj_mul, Z.add_comm, Z.mod_add, Z.mod_small by lia. rewrite Nat2Z.id, Eq. reflexivity.
Qed.

(** ** cooperation *)
Section Coop.
Context {G : Type}.
Variable sel : nat -> nat -> list (cind G) -> nat -> result (cind G).

Lemma choose_spec (x : cind G) current subpops pick : (forall i pop z, pick i pop = Ok z -> In z pop) ->
  forall i0 cs, choose x current i0 subpops pick = Ok cs ->
  length cs = length subpops /\ forall i c, nth_error cs i = Some c ->
    (i0 + i = current -> c = x) /\ (i0 + i <> current -> exists pop, nth_error subpops i = Some pop /\ In c pop).
Proof.
  intros Hs. induction subpops as [|pop r IH]; intros i0 cs; cbn [choose].
  - intros [= <-]. split; [reflexivity|]. intros [|i]; discriminate.
  - destruct (if i0 =? current then Ok x else pick i0 pop) as [y|] eqn:Ey; cbn [bind]; [|discriminate].
    destruct (choose x current (S i0) r pick) as [ys|] eqn:Er; cbn [bind]; [|discriminate]. intros [= <-].
    apply IH in Er as [E1 E2]. split; [cbn; congruence|]. intros [|i] c Hc; cbn [nth_error] in Hc.
    + injection Hc as <-. rewrite Nat.add_0_r. destruct (i0 =? current) eqn:Ei.
      * apply Nat.eqb_eq in Ei. split; [congruence|lia].
      * apply Nat.eqb_neq in Ei. split; [lia|]. intros _. exists pop. split; [reflexivity|]. eapply Hs, Ey.
    + destruct (E2 i c Hc) as [H1 H2]. cbn [nth_error]. split; intros Hi; [apply H1|apply H2]; lia.
Qed.

Lemma choose_total (x : cind G) current subpops pick i0 :
  (forall i pop, nth_error subpops i = Some pop -> i0 + i <> current -> exists z, pick (i0 + i) pop = Ok z) ->
  exists cs, choose x current i0 subpops pick = Ok cs.
Proof.
  revert i0. induction subpops as [|pop r IH]; intros i0 H; cbn [choose]; [eauto|].
  destruct (IH (S i0)) as (cs & E).
  { intros i p Hi Hne. destruct (H (S i) p Hi) as (z & Hz); [lia|]. exists z. replace (S i0 + i) with (i0 + S i) by lia. exact Hz. }
  rewrite E. destruct (i0 =? current) eqn:Ei; cbn [bind]; [eauto|]. apply Nat.eqb_neq in Ei.
  destruct (H 0 pop eq_refl) as (z & Hz); [lia|]. rewrite Nat.add_0_r in Hz. rewrite Hz. cbn [bind]. eauto.
Qed.

Lemma trials_spec one n t fs : trials n t one = Ok fs <->
  length fs = n /\ forall i f, nth_error fs i = Some f -> one (t + i) = Ok f.
Proof.
  revert t fs. induction n as [|n IH]; intros t fs; cbn [trials].
  - split; [intros [= <-]; split; [reflexivity|intros [|i]; discriminate]|]. intros [E _]. destruct fs; [reflexivity|discriminate].
  - split.
    + destruct (one t) as [f|] eqn:Ef; cbn [bind]; [|discriminate]. destruct (trials n (S t) one) as [fs'|] eqn:E; cbn [bind]; [|discriminate].
      intros [= <-]. apply IH in E as [E1 E2]. split; [cbn; congruence|]. intros [|i] q Hq; cbn in Hq.
      * injection Hq as <-. rewrite Nat.add_0_r. exact Ef.
      * replace (t + S i) with (S t + i) by lia. apply E2, Hq.
    + intros [E H]. destruct fs as [|f fs]; [discriminate|]. injection E as E. pose proof (H 0 f eq_refl) as H0. rewrite Nat.add_0_r in H0.
      rewrite H0. cbn [bind]. rewrite (proj2 (IH (S t) fs)); [reflexivity|]. split; [exact E|]. intros i q Hq.
      replace (S t + i) with (t + S i) by lia. apply H. exact Hq.
Qed.

Lemma trials_total one n t : (forall i, exists f, one i = Ok f) -> exists fs, trials n t one = Ok fs.
Proof.
  intros H. revert t. induction n as [|n IH]; intros t; cbn [trials]; [eauto|]. destruct (H t) as (f & ->). cbn [bind].
  destruct (IH (S t)) as (fs & ->). cbn [bind]. eauto.
Qed.

Lemma list_choice {A B} (R : A -> B -> Prop) (l : list A) : (forall i a, nth_error l i = Some a -> exists b, R a b) ->
  exists bs, Forall2 R l bs.
Proof.
  induction l as [|a l IH]; intros H; [exists []; constructor|]. destruct (H 0 a eq_refl) as (b & Hb).
  destruct IH as (bs & F); [intros i a' Hi; exact (H (S i) a' Hi)|]. exists (b :: bs). constructor; assumption.
Qed.

Lemma Forall2_flip' {A B} (R : A -> B -> Prop) l m : Forall2 R l m -> Forall2 (fun b a => R a b) m l.
Proof. induction 1; constructor; assumption. Qed.

Lemma Forall2_impl' {A B} (R S : A -> B -> Prop) l m : (forall a b, R a b -> S a b) -> Forall2 R l m -> Forall2 S l m.
Proof. induction 2; constructor; auto. Qed.

Lemma coop_problem_spec combine score n x current subpops f : members sel ->
  coop_evaluate sel combine score false n x current subpops = Ok f ->
  exists css fs, length css = n /\ Forall (combination subpops current x) css /\
    Forall2 (fun cs v => exists g, combine (map c_genome cs) = Ok g /\ score g = Ok v) css fs /\ mean_of fs f.
Proof.
  intros Hm E. unfold coop_evaluate in E.
  destruct (trials n 0 _) as [fs|] eqn:Et; cbn [bind] in E; [|discriminate]. injection E as <-.
  apply trials_spec in Et as [El Et].
  destruct (list_choice (fun f cs => combination subpops current x cs /\ exists g, combine (map c_genome cs) = Ok g /\ score g = Ok f) fs)
    as (css & F).
  { intros i v Hv. specialize (Et i v Hv). cbn [Nat.add] in Et. unfold coop_trial in Et.
    destruct (choose x current 0 subpops _) as [cs|] eqn:Ec; cbn [bind] in Et; [|discriminate].
    destruct (combine (map c_genome cs)) as [g|] eqn:Eg; cbn [bind] in Et; [|discriminate].
    destruct (score g) as [v'|] eqn:Ev; cbn [bind andb] in Et; [|discriminate]. injection Et as ->.
    exists cs. split; [|eauto]. exact (choose_spec x current subpops _ (fun i pop z Hz => Hm _ _ _ _ _ Hz) 0 cs Ec). }
  apply Forall2_flip' in F. exists css, fs. split; [|split; [|split; [|apply np_mean_spec]]].
  - rewrite <- El. clear -F. induction F; cbn; congruence.
  - clear -F. induction F as [|a b l m H]; constructor; [apply H|assumption].
  - clear -F. induction F as [|a b l m H]; constructor; [apply H|assumption].
Qed.

Lemma choose_picks (x : cind G) current subpops pick : forall i0 cs, choose x current i0 subpops pick = Ok cs ->
  length cs = length subpops /\ forall i c, nth_error cs i = Some c ->
    (i0 + i = current -> c = x) /\
    (i0 + i <> current -> exists pop, nth_error subpops i = Some pop /\ pick (i0 + i) pop = Ok c).
Proof.
  induction subpops as [|pop r IH]; intros i0 cs; cbn [choose].
  - intros [= <-]. split; [reflexivity|]. intros [|i]; discriminate.
  - destruct (if i0 =? current then Ok x else pick i0 pop) as [y|] eqn:Ey; cbn [bind]; [|discriminate].
    destruct (choose x current (S i0) r pick) as [ys|] eqn:Er; cbn [bind]; [|discriminate]. intros [= <-].
    apply IH in Er as [E1 E2]. split; [cbn; congruence|]. intros [|i] c Hc; cbn [nth_error] in Hc.
    + injection Hc as <-. rewrite Nat.add_0_r. destruct (i0 =? current) eqn:Ei.
      * apply Nat.eqb_eq in Ei. split; [congruence|lia].
      * apply Nat.eqb_neq in Ei. split; [lia|]. intros _. exists pop. split; [reflexivity|exact Ey].
    + replace (i0 + S i) with (S i0 + i) by lia. exact (E2 i c Hc).
Qed.

Lemma coop_op_picks combine_score n x current subpops f :
  coop_op sel combine_score n x current subpops = Ok f ->
  exists fs, length fs = n /\ mean_of fs f /\ forall t v, nth_error fs t = Some v ->
    exists cs, length cs = length subpops /\ combine_score cs = Ok v /\ forall i c, nth_error cs i = Some c ->
      (i = current -> c = x) /\ (i <> current -> exists pop, nth_error subpops i = Some pop /\ sel 0 i pop t = Ok c).
Proof.
  intros E. unfold coop_op in E. destruct (trials n 0 _) as [fs|] eqn:Et; cbn [bind] in E; [|discriminate].
  apply trials_spec in Et as [El Et]. exists fs. split; [exact El|]. split.
  { destruct fs; [discriminate|]. injection E as <-. apply np_mean_spec. }
  intros t v Hv. specialize (Et t v Hv). cbn [Nat.add] in Et. unfold coop_op_trial in Et.
  destruct (choose x current 0 subpops _) as [cs|] eqn:Ec; cbn [bind] in Et; [|discriminate].
  apply choose_picks in Ec as [E1 E2]. exists cs. auto.
Qed.
Lemma coop_problem_picks combine score n x current subpops f :
  coop_evaluate sel combine score false n x current subpops = Ok f ->
  exists fs, length fs = n /\ mean_of fs f /\ forall t v, nth_error fs t = Some v ->
    exists cs g, length cs = length subpops /\ combine (map c_genome cs) = Ok g /\ score g = Ok v /\
      forall i c, nth_error cs i = Some c ->
      (i = current -> c = x) /\ (i <> current -> exists pop, nth_error subpops i = Some pop /\ sel t i pop 0 = Ok c).
Proof.
  intros E. unfold coop_evaluate in E. destruct (trials n 0 _) as [fs|] eqn:Et; cbn [bind] in E; [|discriminate].
  apply trials_spec in Et as [El Et]. exists fs. split; [exact El|]. split.
  { injection E as <-. apply np_mean_spec. }
  intros t v Hv. specialize (Et t v Hv). cbn [Nat.add] in Et. unfold coop_trial in Et.
  destruct (choose x current 0 subpops _) as [cs|] eqn:Ec; cbn [bind] in Et; [|discriminate].
  destruct (combine (map c_genome cs)) as [g|] eqn:Eg; cbn [bind] in Et; [|discriminate].
  destruct (score g) as [v'|] eqn:Ev; cbn [bind andb] in Et; [|discriminate]. injection Et as ->.
  apply choose_picks in Ec as [E1 E2]. exists cs, g. auto.
Qed.

Lemma coop_problem_returns combine score n x current subpops :
  (forall t i pop, i <> current -> nth_error subpops i = Some pop -> exists z, sel t i pop 0 = Ok z) ->
  (forall cs, length cs = length subpops -> exists g v, combine cs = Ok g /\ score g = Ok v) ->
  exists f, coop_evaluate sel combine score false n x current subpops = Ok f.
Proof.
  intros Hs Hc. unfold coop_evaluate. destruct (trials_total (coop_trial sel combine score false x current subpops) n 0) as (fs & ->).
  - intros t. unfold coop_trial. destruct (choose_total x current subpops (fun i pop => sel t i pop 0) 0) as (cs & E).
    + intros i pop Hi Hne. apply Hs; [lia|exact Hi].
    + rewrite E. cbn [bind]. assert (El : length cs = length subpops).
      { clear -E. revert E. generalize 0 at 1. revert cs. induction subpops as [|p r IH]; intros cs i0; cbn [choose]; [intros [= <-]; reflexivity|].
        destruct (if i0 =? current then Ok x else _); cbn [bind]; [|discriminate]. destruct (choose x current (S i0) r _) eqn:Er; cbn [bind]; [|discriminate].
        intros [= <-]. cbn. f_equal. eapply IH, Er. }
      destruct (Hc (map c_genome cs)) as (g & v & -> & Ev); [rewrite map_length; exact El|]. cbn [bind]. rewrite Ev. cbn. eauto.
  - cbn [bind]. eauto.
Qed.

Lemma coop_op_spec combine_score n x current subpops f : members sel ->
  coop_op sel combine_score n x current subpops = Ok f ->
  exists css fs, length css = n /\ Forall (combination subpops current x) css /\
    Forall2 (fun cs v => combine_score cs = Ok v) css fs /\ mean_of fs f /\ 0 < n.
Proof.
  intros Hm E. unfold coop_op in E.
  destruct (trials n 0 _) as [fs|] eqn:Et; cbn [bind] in E; [|discriminate].
  apply trials_spec in Et as [El Et].
  destruct (list_choice (fun f cs => combination subpops current x cs /\ combine_score cs = Ok f) fs) as (css & F).
  { intros i v Hv. specialize (Et i v Hv). cbn [Nat.add] in Et. unfold coop_op_trial in Et.
    destruct (choose x current 0 subpops _) as [cs|] eqn:Ec; cbn [bind] in Et; [|discriminate].
    exists cs. split; [|exact Et]. exact (choose_spec x current subpops _ (fun i pop z Hz => Hm _ _ _ _ _ Hz) 0 cs Ec). }
  apply Forall2_flip' in F. exists css, fs. split; [|split; [|split; [|split]]].
  - rewrite <- El. clear -F. induction F; cbn; congruence.
  - clear -F. induction F as [|a b l m H]; constructor; [apply H|assumption].
  - clear -F. induction F as [|a b l m H]; constructor; [apply H|assumption].
  - destruct fs; [discriminate|]. injection E as <-. apply np_mean_spec.
  - destruct fs; [discriminate|]. cbn in El. lia.
Qed.
End Coop.

(** ** bit strings *)
Lemma count_true_map {A} (f : A -> bool) l : count_true (map f l) = Z.of_nat (length (filter f l)).
Proof.
  unfold count_true. f_equal. induction l as [|x l IH]; [reflexivity|]. cbn [map filter]. destruct (f x); cbn [length]; congruence.
Qed.
Lemma count_ones l : count_true (map (fun x => (x =? 1)%Z) l) = Z.of_nat (ones l).
Proof.
  rewrite count_true_map. f_equal. unfold ones. induction l as [|x l IH]; [reflexivity|]. cbn [filter count_occ].
  destruct (Z.eq_dec x 1), (x =? 1)%Z eqn:E; cbn [length]; lia.
Qed.
Lemma count_agreements a b : count_true (zip_eq a b) = Z.of_nat (agreements a b).
Proof.
  unfold count_true. f_equal. revert b. induction a as [|x a IH]; intros [|y b]; try reflexivity. cbn [zip_eq filter agreements].
  destruct (Z.eq_dec x y), (x =? y)%Z eqn:E; cbn [length Nat.add]; rewrite ?IH; lia.
Qed.
Lemma agreements_le a b : length a = length b -> agreements a b <= length a.
Proof.
  revert b. induction a as [|x a IH]; intros [|y b] E; try discriminate; cbn; [lia|]. injection E as E. specialize (IH b E).
  destruct (Z.eq_dec x y); lia.
Qed.
Lemma agreements_all a b : length a = length b -> (agreements a b = length a <-> a = b).
Proof.
  revert b. induction a as [|x a IH]; intros [|y b] E; try discriminate; [tauto|]. injection E as E. cbn [agreements length].
  pose proof (agreements_le a b E). specialize (IH b E). destruct (Z.eq_dec x y) as [-> | Hn].
  - split; [intros H1; f_equal; apply IH; lia|intros [= H1]; apply IH in H1; lia].
  - split; [lia|intros [= H1 H2]; contradiction].
Qed.
Lemma ones_agree l : ones l = agreements l (repeat 1%Z (length l)).
Proof. unfold ones. induction l as [|x l IH]; [reflexivity|]. cbn. rewrite IH. destruct (Z.eq_dec x 1); lia. Qed.
Lemma ones_le l : ones l <= length l.
Proof. rewrite ones_agree. apply agreements_le. rewrite repeat_length. reflexivity. Qed.
Lemma ones_all l : ones l = length l <-> l = repeat 1%Z (length l).
Proof. rewrite ones_agree. apply agreements_all. rewrite repeat_length. reflexivity. Qed.

Lemma matches_target target l : match target with Some t => length t = length l | None => True end ->
  matches target (BArr l) = Ok (zip_eq l (target_of target l)) /\ length (target_of target l) = length l.
Proof.
  destruct target as [t|]; cbn [matches target_of].
  - intros ->. rewrite Nat.eqb_refl. auto.
  - intros _. split; [|apply repeat_length]. f_equal. induction l as [|x l IH]; [reflexivity|]. cbn. f_equal. exact IH.
Qed.

Lemma max_ones_spec target l : match target with Some t => length t = length l | None => True end ->
  max_ones target (BArr l) = Ok (Z.of_nat (agreements l (target_of target l))) /\
  agreements l (target_of target l) <= length l /\
  (agreements l (target_of target l) = length l <-> l = target_of target l).
Proof.
  intros H. destruct (matches_target target l H) as [E El]. unfold max_ones. rewrite E. cbn [bind]. rewrite count_agreements.
  split; [reflexivity|]. split; [apply agreements_le; congruence|apply agreements_all; congruence].
Qed.

Lemma take_same_true m : exists r, m = repeat true (length (take_same true m)) ++ r /\ (forall b r', r = b :: r' -> b = false) /\
  count_true (take_same true m) = Z.of_nat (length (take_same true m)).
Proof.
  induction m as [|b m IH]; [exists []; repeat split; discriminate|]. cbn [take_same]. destruct b; cbn [Bool.eqb].
  - destruct IH as (r & E & Hr & Hc). exists r. cbn [length repeat app]. split; [congruence|]. split; [exact Hr|].
    unfold count_true in *. cbn [filter length]. lia.
  - exists (false :: m). cbn. split; [reflexivity|]. split; [congruence|reflexivity].
Qed.

Lemma zip_eq_prefix l t n r : length l = length t -> zip_eq l t = repeat true n ++ r -> (forall b r', r = b :: r' -> b = false) ->
  common_prefix l t n.
Proof.
  revert t n. induction l as [|x l IH]; intros [|y t] n E Ez Hr; try discriminate.
  - destruct n; [|discriminate]. cbn. unfold common_prefix. cbn. repeat split; try lia. intros; discriminate.
  - injection E as E. cbn [zip_eq] in Ez. destruct n as [|n].
    + cbn in Ez. specialize (Hr _ _ (eq_sym Ez)). repeat split; cbn; try lia. intros a b [= <-] [= <-]. lia.
    + cbn [repeat app] in Ez. injection Ez as E1 E2. destruct (IH t n E E2 Hr) as (H1 & H2 & H3 & H4).
      split; [cbn; lia|]. split; [cbn; lia|]. split; [cbn; f_equal; [lia|exact H3]|]. cbn. exact H4.
Qed.

Lemma leading_ones_spec target l : l <> [] -> match target with Some t => length t = length l | None => True end ->
  exists n, leading_ones target (BArr l) = Ok (Z.of_nat n) /\ common_prefix l (target_of target l) n.
Proof.
  intros Hl H. destruct (matches_target target l H) as [E El]. unfold leading_ones. rewrite E. cbn [bind].
  destruct (zip_eq l (target_of target l)) as [|b m] eqn:Ez.
  - destruct l; [congruence|]. destruct (target_of target (z :: l)); discriminate.
  - destruct b.
    + destruct (take_same_true (true :: m)) as (r & E1 & Hr & ->). eexists. split; [reflexivity|].
      eapply zip_eq_prefix; [congruence| |exact Hr]. rewrite Ez. exact E1.
    + exists 0. split.
      * f_equal. assert (forall l, count_true (take_same false l) = 0%Z) as ->; [|reflexivity].
        unfold count_true. induction l0 as [|[|] l0 IH]; cbn; [reflexivity|reflexivity|exact IH].
      * eapply (zip_eq_prefix _ _ 0 (false :: m)); [congruence|exact Ez|]. intros ? ? [= <- _]. reflexivity.
Qed.

Lemma common_prefix_full l t n : length l = length t -> common_prefix l t n -> (n = length l <-> l = t).
Proof.
  intros E (H1 & H2 & H3 & H4). split.
  - intros ->. rewrite firstn_all in H3. rewrite E, firstn_all in H3. exact H3.
  - intros ->. destruct (Nat.eq_dec n (length t)); [assumption|]. exfalso.
    destruct (nth_error t n) as [x|] eqn:Ex; [|apply nth_error_None in Ex; lia]. exact (H4 x x eq_refl eq_refl eq_refl).
Qed.

Lemma trap_spec l : l <> [] ->
  (l = repeat 1%Z (length l) -> deceptive_trap l = Z.of_nat (length l)) /\
  (l <> repeat 1%Z (length l) -> deceptive_trap l = (Z.of_nat (length l) - Z.of_nat (ones l) - 1)%Z /\
     (0 <= deceptive_trap l < Z.of_nat (length l))%Z).
Proof.
  intros Hl. unfold deceptive_trap. rewrite count_ones. pose proof (ones_le l) as Ho. pose proof (ones_all l) as Ha. split; intros H.
  - rewrite <- ones_all in H. replace (_ =? _)%Z with true by lia. reflexivity.
  - assert (ones l <> length l) by tauto. replace (_ =? _)%Z with false by lia. split; [reflexivity|]. lia.
Qed.

Lemma ones_app a b : ones (a ++ b) = ones a + ones b.
Proof. unfold ones. apply count_occ_app. Qed.

(** replacing a one by something else *)
Lemma trap_remove_one a b x : x <> 1%Z -> a ++ 1%Z :: b <> repeat 1%Z (length (a ++ 1%Z :: b)) ->
  deceptive_trap (a ++ x :: b) = (deceptive_trap (a ++ 1%Z :: b) + 1)%Z.
Proof.
  intros Hx Hn. assert (El : length (a ++ x :: b) = length (a ++ 1%Z :: b)) by (rewrite !app_length; reflexivity).
  destruct (trap_spec (a ++ 1%Z :: b)) as [_ H1]; [destruct a; discriminate|]. destruct (H1 Hn) as [-> _].
  assert (Ho : ones (a ++ 1%Z :: b) = S (ones (a ++ x :: b))).
  { rewrite !ones_app. unfold ones. cbn [count_occ]. destruct (Z.eq_dec 1 1); [|congruence]. destruct (Z.eq_dec x 1); [congruence|]. lia. }
  pose proof (ones_le (a ++ 1%Z :: b)).
  destruct (trap_spec (a ++ x :: b)) as [_ H2]; [destruct a; discriminate|]. destruct H2 as [-> _].
  - intros H2. apply ones_all in H2. lia.
  - rewrite El. lia.
Qed.

Lemma Qtrunc_Z q z : (q == inject_Z z)%Q -> (0 <= z)%Z -> Qtrunc q = z.
Proof.
  unfold Qtrunc, Qeq. cbn. intros E Hz. rewrite Z.mul_1_r in E. rewrite E. apply Z.quot_mul. lia.
Qed.
Lemma two_max_spec l : two_max l = Z.of_nat (Nat.max (ones l) (length l - ones l)).
Proof.
  unfold two_max. rewrite count_ones. pose proof (ones_le l). apply Qtrunc_Z; [|lia].
  assert (E : (inject_Z (Z.of_nat (length l)) == inject_Z (Z.of_nat (ones l)) + inject_Z (Z.of_nat (length l - ones l)))%Q).
  { rewrite <- inject_Z_plus. f_equiv. f_equal. lia. }
  rewrite E. set (a := inject_Z (Z.of_nat (ones l))). set (b := inject_Z (Z.of_nat (length l - ones l))).
  destruct (Nat.le_ge_cases (ones l) (length l - ones l)) as [Hle | Hge].
  - rewrite Nat.max_r by exact Hle. fold b. assert (a <= b)%Q by (unfold a, b; rewrite <- Zle_Qle; lia).
    rewrite Qabs_pos; [field|]. setoid_replace ((a + b) / 2 - a)%Q with ((b - a) / 2)%Q by field. apply Qle_shift_div_l; lra.
  - rewrite Nat.max_l by exact Hge. fold a. assert (b <= a)%Q by (unfold a, b; rewrite <- Zle_Qle; lia).
    rewrite Qabs_neg; [field|]. setoid_replace ((a + b) / 2 - a)%Q with ((b - a) / 2)%Q by field. apply Qle_shift_div_r; lra.
Qed.
Lemma ones_none l : bits l -> (ones l = 0 <-> l = repeat 0%Z (length l)).
Proof.
  unfold ones. induction 1 as [|x l Hx Hl IH]; [tauto|]. cbn [count_occ length repeat]. destruct (Z.eq_dec x 1) as [-> | Hn].
  - split; [discriminate|intros [= ]].
  - destruct Hx as [-> | ->]; [|congruence]. rewrite IH. split; [intros ->; f_equal; rewrite repeat_length; reflexivity|]. intros [= E]. exact E.
Qed.
Lemma two_max_optimum l : bits l ->
  (Z.of_nat (length l) <= 2 * two_max l)%Z /\ (two_max l <= Z.of_nat (length l))%Z /\
  (two_max l = Z.of_nat (length l) <-> l = repeat 1%Z (length l) \/ l = repeat 0%Z (length l)).
Proof.
  intros Hb. rewrite two_max_spec. pose proof (ones_le l). split; [lia|]. split; [lia|]. rewrite <- ones_all, <- (ones_none l Hb). lia.
Qed.
Lemma ones_complement l : bits l -> ones (complement l) = length l - ones l.
Proof.
  intros Hb. induction Hb as [|x l Hx Hl IH]; [reflexivity|]. pose proof (ones_le l). unfold ones, complement in *. cbn [map count_occ length].
  destruct Hx as [-> | ->]; [change (1 - 0)%Z with 1%Z|change (1 - 1)%Z with 0%Z]; destruct (Z.eq_dec 1 1), (Z.eq_dec 0 1);
    try congruence; lia.
Qed.
Lemma two_max_complement l : bits l -> two_max (complement l) = two_max l.
Proof.
  intros Hb. rewrite !two_max_spec, ones_complement by exact Hb. unfold complement. rewrite map_length. pose proof (ones_le l). f_equal. lia.
Qed.

Lemma image_spec img l : length l = length img ->
  image_problem img l = Ok (Z.of_nat (agreements l img)) /\ agreements l img <= length img /\ (agreements l img = length img <-> l = img).
Proof.
  intros E. unfold image_problem. rewrite E, Nat.eqb_refl. split; [|rewrite <- E; split; [apply agreements_le|apply agreements_all]; exact E].
  f_equal. rewrite <- count_agreements. f_equal. clear E. revert img. induction l as [|x l IH]; intros [|y img]; try reflexivity.
  cbn [zip_xor map zip_eq]. f_equal; [|apply IH]. destruct (x =? y)%Z eqn:E.
  - apply Z.eqb_eq in E. subst. rewrite Z.lxor_nilpotent. reflexivity.
  - apply Z.eqb_neq in E. apply Z.eqb_neq. intros H. apply E, Z.lxor_eq, H.
Qed.

(** ** external processes *)
Lemma split_nosep sep l : ~ In sep l -> split sep l = [l].
Proof.
  induction l as [|c l IH]; intros H; [reflexivity|]. cbn [split]. destruct (c =? sep) eqn:E.
  - apply Nat.eqb_eq in E. exfalso. apply H. left. exact E.
  - rewrite IH; [reflexivity|]. intros Hi. apply H. right. exact Hi.
Qed.
Lemma split_cons sep l r : ~ In sep l -> split sep (l ++ sep :: r) = l :: split sep r.
Proof.
  induction l as [|c l IH]; intros H; cbn [app split]; [rewrite Nat.eqb_refl; reflexivity|]. destruct (c =? sep) eqn:E.
  - apply Nat.eqb_eq in E. exfalso. apply H. left. exact E.
  - rewrite IH; [reflexivity|]. intros Hi. apply H. right. exact Hi.
Qed.
Lemma split_join sep parts : parts <> [] -> Forall (fun p => ~ In sep p) parts -> split sep (join sep parts) = parts.
Proof.
  intros Hne F. destruct parts as [|p r]; [congruence|]. clear Hne. revert p F. induction r as [|q r IH]; intros p F; cbn [join flat_map app].
  - rewrite app_nil_r. apply split_nosep. inversion F; assumption.
  - inversion F as [|? ? Hp Hr]; subst. rewrite split_cons by exact Hp. f_equal. exact (IH q Hr).
Qed.
Lemma split_lines sep lines : Forall (fun p => ~ In sep p) lines ->
  split sep (concat (map (fun l => l ++ [sep]) lines)) = lines ++ [[]].
Proof.
  induction 1 as [|p r Hp Hr IH]; [reflexivity|]. cbn [map concat app]. rewrite <- app_assoc. cbn [app]. rewrite split_cons by exact Hp. rewrite IH. reflexivity.
Qed.
(** every output is a number of newline-terminated lines and a rest without newline *)
Lemma split_shape sep s : exists lines rest, s = concat (map (fun l => l ++ [sep]) lines) ++ rest /\ ~ In sep rest /\
  Forall (fun p => ~ In sep p) lines /\ split sep s = lines ++ [rest].
Proof.
  induction s as [|c s (lines & rest & E & Hr & Hl & Es)]; [exists [], []; repeat split; [intros []|constructor]|].
  cbn [split]. destruct (c =? sep) eqn:Ec.
  - apply Nat.eqb_eq in Ec. subst c. exists ([] :: lines), rest. cbn [map concat app]. split; [congruence|]. split; [exact Hr|].
    split; [constructor; [intros []|exact Hl]|]. rewrite Es. reflexivity.
  - apply Nat.eqb_neq in Ec. rewrite Es. destruct lines as [|l lines].
    + exists [], (c :: rest). cbn in *. split; [congruence|]. split; [intros [H | H]; congruence|]. split; [constructor|reflexivity].
    + exists ((c :: l) :: lines), rest. cbn [map concat app] in *. split; [rewrite E; reflexivity|]. split; [exact Hr|].
      inversion Hl; subst. split; [constructor; [intros [H | H]; congruence|assumption]|reflexivity].
Qed.

Section External.
Context {X : Type}.
Variable show : X -> list nat.
Variable run : list nat -> Z * list nat.
Variable parse : list nat -> option num.

Lemma parse_all_spec lines fs : parse_all parse lines = Ok fs <-> Forall2 (fun l f => parse l = Some f) lines fs.
Proof.
  revert fs. induction lines as [|l r IH]; intros fs; cbn [parse_all].
  - split; [intros [= <-]; constructor|]. inversion 1; reflexivity.
  - destruct (parse l) as [f|] eqn:E.
    + destruct (parse_all parse r) as [fs'|] eqn:Er; cbn [bind].
      * split; [intros [= <-]; constructor; [exact E|apply IH; reflexivity]|]. inversion 1 as [|? ? ? ? H1 H2]; subst.
        apply IH in H2. injection H2 as ->. congruence.
      * split; [discriminate|]. inversion 1 as [|? ? ? ? H1 H2]; subst. apply IH in H2. discriminate.
    + split; [discriminate|]. inversion 1; congruence.
Qed.

Lemma Forall2_flen {A B} (R : A -> B -> Prop) l m : Forall2 R l m -> length l = length m.
Proof. induction 1; cbn; congruence. Qed.

Lemma external_spec phenomes fs : external_multiple show run parse phenomes = Ok fs <->
  exists lines rest, run (process_input show phenomes) = (0%Z, concat (map (fun l => l ++ [10]) lines) ++ rest) /\
    ~ In 10 rest /\ Forall (fun l => ~ In 10 l) lines /\
    Forall2 (fun l f => parse l = Some f) lines fs /\ length lines = length phenomes.
Proof.
  unfold external_multiple. destruct (run (process_input show phenomes)) as [code out].
  destruct (split_shape 10 out) as (lines & rest & E & Hr & Hl & Es). rewrite Es, removelast_last.
  destruct (code =? 0)%Z eqn:Ec; cbn [negb].
  - apply Z.eqb_eq in Ec. subst code. split.
    + destruct (parse_all parse lines) as [fs'|] eqn:Ep; cbn [bind]; [|discriminate]. destruct (length fs' =? length phenomes) eqn:El; [|discriminate].
      intros [= ->]. apply parse_all_spec in Ep. apply Nat.eqb_eq in El. exists lines, rest. split; [congruence|]. split; [exact Hr|].
      split; [exact Hl|]. split; [exact Ep|]. rewrite (Forall2_flen _ _ _ Ep). exact El.
    + intros (lines' & rest' & [= E'] & Hr' & Hl' & F & El).
      assert (Es' : split 10 out = lines' ++ [rest']).
      { rewrite E'. clear -Hr' Hl'. induction Hl' as [|p r Hp Hr IH]; cbn [map concat app]; [apply split_nosep, Hr'|].
        rewrite <- !app_assoc. cbn [app]. rewrite split_cons by exact Hp. rewrite IH. reflexivity. }
      rewrite Es in Es'. apply app_inj_tail in Es' as [<- <-]. rewrite (proj2 (parse_all_spec lines fs) F). cbn [bind].
      rewrite <- (Forall2_flen _ _ _ F), El, Nat.eqb_refl. reflexivity.
  - split; [discriminate|]. intros (lines' & rest' & [= E1 E2] & _). subst. discriminate.
Qed.

(** what the program reads *)
Lemma process_input_spec phenomes : phenomes <> [] -> (forall x, ~ In 10 (show x)) ->
  exists lines, split 10 (process_input show phenomes) = lines /\
    Forall2 (fun p l => l = join 44 (map show p)) phenomes lines.
Proof.
  intros Hne H. eexists. split; [apply split_join; [destruct phenomes; [congruence|discriminate]|]|].
  - apply Forall_map, Forall_forall. intros p _. assert (forall l, Forall (fun q => ~ In 10 q) l -> ~ In 10 (join 44 l)) as J.
    { intros [|q l] F; [intros []|]. cbn [join]. inversion F as [|? ? Hq Hl]; subst. intros Hi. apply in_app_or in Hi as [Hi | Hi]; [contradiction|].
      apply in_flat_map in Hi as (z & Hz & [Hi | Hi]); [discriminate|]. rewrite Forall_forall in Hl. exact (Hl z Hz Hi). }
    apply J. apply Forall_map, Forall_forall. intros x _. apply H.
  - clear. induction phenomes; constructor; auto.
Qed.

Lemma external_one phenome f : external_evaluate show run parse phenome = Ok f <-> external_multiple show run parse [phenome] = Ok [f].
Proof.
  unfold external_evaluate. destruct (external_multiple show run parse [phenome]) as [fs|]; cbn [bind]; [|split; discriminate].
  destruct fs as [|g [|h fs]]; split; intros H; try discriminate; congruence.
Qed.
End External.

Lemma external_input {X} (show : X -> list nat) phenomes :
  phenomes <> [] -> (forall x, ~ In 10 (show x) /\ ~ In 44 (show x)) ->
  exists lines, split 10 (process_input show phenomes) = lines /\
    Forall2 (fun p l => p <> [] -> split 44 l = map show p) phenomes lines.
Proof.
  intros Hne H. destruct (process_input_spec show phenomes Hne (fun x => proj1 (H x))) as (lines & E & F). exists lines. split; [exact E|].
  clear -F H. induction F as [|p l ps ls Hp F IH]; constructor; [|exact IH]. intros Hn. subst l. apply split_join; [destruct p; [congruence|discriminate]|].
  apply Forall_map, Forall_forall. intros x _. apply H.
Qed.

Lemma coop_concat_spec {G} (sel : nat -> nat -> list (cind G) -> nat -> result (cind G)) num_trials x current subpops f :
  members sel -> coop_op sel concat_combine_score num_trials x current subpops = Ok f ->
  exists css fs, length css = num_trials /\ Forall (combination subpops current x) css /\
    Forall2 (fun cs v => exists c r, cs = c :: r /\ c_score c (concat (map c_genome cs)) = Ok v) css fs /\
    mean_of fs f /\ 0 < num_trials.
Proof.
  intros Hm E. destruct (coop_op_spec sel _ _ _ _ _ _ Hm E) as (css & fs & H1 & H2 & H3 & H4 & H5).
  exists css, fs. split; [exact H1|]. split; [exact H2|]. split; [|auto]. eapply Forall2_impl'; [|exact H3].
  intros [|c r] v Hv; cbn in Hv; [discriminate|]. eauto.
Qed.

Lemma trap_all l : l <> [] ->
  (deceptive_trap l = Z.of_nat (length l) <-> l = repeat 1%Z (length l)) /\
  (0 <= deceptive_trap l <= Z.of_nat (length l))%Z /\
  (l <> repeat 1%Z (length l) ->
   deceptive_trap l = (Z.of_nat (length l) - Z.of_nat (ones l) - 1)%Z /\
   forall a b x, l = a ++ 1%Z :: b -> x <> 1%Z -> deceptive_trap (a ++ x :: b) = (deceptive_trap l + 1)%Z).
Proof.
  intros Hl. destruct (trap_spec l Hl) as [H1 H2].
  assert (D : l = repeat 1%Z (length l) \/ l <> repeat 1%Z (length l)) by (destruct (list_eq_dec Z.eq_dec l (repeat 1%Z (length l))); auto).
  split; [|split].
  - split; [|exact H1]. destruct D as [D | D]; [auto|]. destruct (H2 D) as [_ H]. lia.
  - destruct D as [D | D]; [rewrite (H1 D); lia|]. destruct (H2 D) as [_ H]. lia.
  - intros Hn. split; [apply H2, Hn|]. intros a b x -> Hx. apply trap_remove_one; assumption.
Qed.

(** a score and naive cyclic selection *)
Definition ex_score (g : list Z) : result num := Ok (NInt (fold_right Z.add 0%Z g)).
Definition ex_ind (id : nat) (g : list Z) : cind Z := mk_cind id g ex_score.
Definition ex_sel (_ _ : nat) (pop : list (cind Z)) (k : nat) : result (cind Z) :=
  match nth_error pop (k mod length pop) with Some z => Ok z | None => Err StopIteration end.
Lemma ex_members : members ex_sel.
Proof. intros t i pop k z. unfold ex_sel. destruct (nth_error pop _) eqn:E; [intros [= <-]; eapply nth_error_In, E|discriminate]. Qed.

Lemma coop_default_combination {G} (sel : nat -> nat -> list (cind G) -> nat -> result (cind G)) score n x current subpops :
  (subpops <> [] -> forall f, coop_evaluate sel np_concatenate score false n x current subpops = Ok f -> members sel ->
    exists css fs, length css = n /\ Forall (combination subpops current x) css /\
      Forall2 (fun cs v => score (flat_map c_genome cs) = Ok v) css fs /\ mean_of fs f) /\
  (forall log m, coop_evaluate sel np_concatenate score log (S m) x current [] = Err ValueError).
Proof.
  split; [|reflexivity]. intros _ f E Hm. destruct (coop_problem_spec sel np_concatenate score n x current subpops f Hm E) as (css & fs & L & C & F & M).
  exists css, fs. split; [exact L|]. split; [exact C|]. split; [|exact M]. clear - F. induction F as [|cs v css fs (g & Hg & Hv) F IH]; constructor; [|exact IH].
  rewrite flat_map_concat_map. unfold np_concatenate in Hg. destruct (map c_genome cs); [discriminate|]. injection Hg as <-. exact Hv.
Qed.

Lemma coop_logging {G} (sel : nat -> nat -> list (cind G) -> nat -> result (cind G)) combine score n x current subpops f :
  coop_evaluate sel combine score false n x current subpops = Ok f ->
  (subpops <> [] -> 0 < n -> coop_evaluate sel combine score true n x current subpops = Err AttributeError) /\
  (subpops = [] \/ n = 0 -> coop_evaluate sel combine score true n x current subpops = Ok f).
Proof.
  assert (Lc : forall pops i k cs, choose x current i pops k = Ok cs -> length cs = length pops).
  { induction pops as [|pop pops IH]; intros i k cs E; cbn in E; [injection E as <-; reflexivity|].
    match type of E with bind ?c _ = _ => destruct c as [z|e] eqn:E1; cbn [bind] in E; [|discriminate] end.
    match type of E with bind ?c _ = _ => destruct c as [zs|e] eqn:E2; cbn [bind] in E; [|discriminate] end.
    injection E as <-. cbn. f_equal. eapply IH. exact E2. }
  intros E. split.
  - intros Hs Hn. destruct n as [|m]; [lia|]. revert E. unfold coop_evaluate. cbn [trials]. unfold coop_trial at 1 3.
    destruct (choose x current 0 subpops _) as [cs|e] eqn:Ec; cbn [bind]; [|discriminate].
    destruct (combine (map c_genome cs)) as [g|e]; cbn [bind]; [|discriminate]. destruct (score g) as [v|e]; cbn [bind]; [|discriminate].
    intros _. rewrite (Lc _ _ _ _ Ec). destruct subpops; [contradiction|]. reflexivity.
  - intros [-> | ->]; [|exact E]. unfold coop_evaluate.
    assert (T : forall m t, trials m t (coop_trial sel combine score true x current []) = trials m t (coop_trial sel combine score false x current [])).
    { induction m as [|m IH]; intros t; [reflexivity|]. cbn [trials]. rewrite IH. unfold coop_trial at 1 3. reflexivity. }
    rewrite T. exact E.
Qed.

Lemma constant_flat P c maximize n k l (p r : P) : 0 < n ->
  exists f g, evaluate (average_problem (scalar_problem (constant_evaluate c) maximize) n) k p = Ok f /\
    evaluate (average_problem (scalar_problem (constant_evaluate c) maximize) n) l r = Ok g /\
    forall mx, same_value mx f c /\ same_value mx g c.
Proof.
  intros Hn. destruct (average_deterministic (constant_evaluate c) n k p c Hn (fun _ => eq_refl)) as (f & Ef & Hf).
  destruct (average_deterministic (constant_evaluate c) n l r c Hn (fun _ => eq_refl)) as (g & Eg & Hg). exists f, g. auto.
Qed.
