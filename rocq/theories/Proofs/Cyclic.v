(** Cyclic selection. *)
From Coq Require Import Lia Permutation.
From Verif Require Import Model.Base Model.Selection Spec.Selection.

Lemma naive_from {A} (pop : list A) ix t : forall pos,
  pos < length pop ->
  Forall2 (fun i d => nth_error pop (i mod length pop) = Some (fst d) /\
                      snd d = match ix with None => None | Some _ => Some [i mod length pop] end)
    (seq pos t) (naive_cyclic_draws pop ix t pos).
Proof.
  assert (Hgen : forall t pos a, pos < length pop -> a mod length pop = pos ->
    Forall2 (fun i d => nth_error pop (i mod length pop) = Some (fst d) /\
                      snd d = match ix with None => None | Some _ => Some [i mod length pop] end)
      (seq a t) (naive_cyclic_draws pop ix t pos)).
  { clear t. induction t as [|t IH]; intros pos a Hpos Ha; cbn [naive_cyclic_draws seq]; [constructor|].
    unfold naive_cyclic_pull.
    destruct (nth_error pop pos) as [x|] eqn:E.
    - constructor.
      + rewrite Ha. simpl. split; [exact E|destruct ix; reflexivity].
      + apply IH.
        * destruct (Nat.ltb_spec (S pos) (length pop)); lia.
        * assert (Hn : length pop <> 0) by lia.
          destruct (Nat.ltb_spec (S pos) (length pop)).
          -- rewrite <- Nat.add_1_r, <- Nat.add_mod_idemp_l, Ha by assumption.
             rewrite Nat.mod_small by lia. lia.
          -- rewrite <- Nat.add_1_r, <- Nat.add_mod_idemp_l, Ha by assumption.
             replace (pos + 1) with (length pop) by lia. apply Nat.mod_same. assumption.
    - apply nth_error_None in E. lia. }
  intros pos Hpos. apply Hgen; [assumption|]. apply Nat.mod_small, Hpos.
Qed.

Lemma Forall2_nth_error {A B} (R : A -> B -> Prop) l l' :
  Forall2 R l l' -> forall i a, nth_error l i = Some a -> exists b, nth_error l' i = Some b /\ R a b.
Proof.
  induction 1; intros i a Hi; destruct i; simpl in *; try discriminate.
  - injection Hi as <-. eauto.
  - eauto.
Qed.

Section Cyc.
Context {A : Type}.
Variable shuffle : nat -> list A -> list A.
Hypothesis shuffle_perm : forall c l, Permutation l (shuffle c l).

Lemma cyc_todo todo : forall f saved r k,
  cyclic_draws shuffle (length todo + k) (mk_cyc f todo saved r) =
  todo ++ cyclic_draws shuffle k (mk_cyc f [] (if f then saved ++ todo else saved) r).
Proof.
  induction todo as [|x todo IH]; intros f saved r k.
  - simpl. destruct f; rewrite ?app_nil_r; reflexivity.
  - simpl. rewrite IH. destruct f; [rewrite <- app_assoc|]; reflexivity.
Qed.

Lemma cyc_round saved : saved <> [] -> forall f r k,
  cyclic_draws shuffle (length saved + k) (mk_cyc f [] saved r) =
  shuffle r saved ++ cyclic_draws shuffle k (mk_cyc false [] (shuffle r saved) (S r)).
Proof.
  intros Hne f r k.
  assert (Hl : length saved = length (shuffle r saved)) by apply Permutation_length, shuffle_perm.
  destruct saved as [|y saved]; [congruence|].
  set (sv := y :: saved) in *.
  destruct (shuffle r sv) as [|x s] eqn:Es; [simpl in Hl; discriminate|].
  rewrite Hl. simpl length. cbn [Nat.add cyclic_draws]. unfold cyclic_pull. cbn [cy_todo cy_saved cy_round].
  unfold sv at 1. rewrite Es. rewrite cyc_todo. reflexivity.
Qed.

Lemma cyc_tours pop : pop <> [] -> forall m f saved r,
  Permutation pop saved ->
  complete_tours m pop (cyclic_draws shuffle (m * length pop) (mk_cyc f [] saved r)).
Proof.
  intros Hne. induction m as [|m IH]; intros f saved r Hp.
  - exists []. simpl. auto.
  - cbn [Nat.mul]. rewrite (Permutation_length Hp) at 1. rewrite cyc_round.
    + destruct (IH false (shuffle r saved) (S r)) as (tours & T1 & T2 & T3).
      { rewrite Hp. apply shuffle_perm. }
      exists (shuffle r saved :: tours). simpl. rewrite T1, T3. split; [reflexivity|]. split; [|reflexivity].
      constructor; [|exact T2]. rewrite Hp. apply shuffle_perm.
    + intros ->. apply Permutation_sym, Permutation_nil in Hp. congruence.
Qed.

Lemma cyclic_tours pop m : complete_tours m pop (cyclic_draws shuffle (m * length pop) (cyclic_init pop)).
Proof.
  destruct pop as [|x pop'].
  - rewrite Nat.mul_0_r. simpl. exists (repeat [] m). split; [apply repeat_length|]. split.
    + apply Forall_forall. intros t Ht. apply repeat_spec in Ht. subst. constructor.
    + induction m; simpl; auto.
  - set (pop := x :: pop'). assert (Hne : pop <> []) by discriminate.
    destruct m as [|m]; [exists []; simpl; auto|].
    cbn [Nat.mul]. unfold cyclic_init. rewrite cyc_todo.
    destruct (cyc_tours pop Hne m true ([] ++ pop) 0 (Permutation_refl _)) as (tours & T1 & T2 & T3).
    exists (pop :: tours). cbn [length concat]. rewrite T1, T3. split; [reflexivity|]. split; [|reflexivity].
    constructor; [reflexivity|exact T2].
Qed.

Lemma cyclic_first pop : cyclic_draws shuffle (length pop) (cyclic_init pop) = pop.
Proof.
  unfold cyclic_init. rewrite <- (Nat.add_0_r (length pop)). rewrite cyc_todo. simpl. apply app_nil_r.
Qed.

Lemma draws_prefix n : forall st k, cyclic_draws shuffle n st = firstn n (cyclic_draws shuffle (n + k) st).
Proof.
  induction n as [|n IH]; intros st k; [reflexivity|].
  cbn [Nat.add cyclic_draws]. destruct (cyclic_pull shuffle st) as [[x st']|]; [|reflexivity].
  cbn [firstn]. f_equal. apply IH.
Qed.

Variable eq_dec : forall x y : A, {x = y} + {x <> y}.

Lemma tours_balanced pop : NoDup pop -> forall tours t,
  Forall (Permutation pop) tours ->
  exists q, forall x, In x pop ->
    q <= count_occ eq_dec (firstn t (concat tours)) x <= S q.
Proof.
  intros Hnd tours. induction tours as [|tour tours IH]; intros t HT.
  - exists 0. intros x _. simpl. rewrite firstn_nil. simpl. lia.
  - inversion HT as [|? ? Hp HT']; subst. cbn [concat]. rewrite firstn_app.
    destruct (le_lt_dec (length tour) t) as [Hle|Hlt].
    + destruct (IH (t - length tour) HT') as (q & Hq). exists (S q). intros x Hx.
      rewrite firstn_all2 by assumption. rewrite count_occ_app.
      assert (Hc : count_occ eq_dec tour x = 1).
      { rewrite <- (proj1 (Permutation_count_occ eq_dec pop tour) Hp x).
        apply NoDup_count_occ'; assumption. }
      specialize (Hq x Hx). lia.
    + exists 0. intros x Hx. replace (t - length tour) with 0 by lia. simpl. rewrite app_nil_r.
      assert (Hnt : NoDup tour) by (eapply Permutation_NoDup; eassumption).
      assert (Hc : count_occ eq_dec tour x <= 1) by (apply NoDup_count_occ; assumption).
      rewrite <- (firstn_skipn t tour), count_occ_app in Hc. lia.
Qed.

Lemma cyclic_balanced pop t x y : NoDup pop -> In x pop -> In y pop ->
  count_occ eq_dec (cyclic_draws shuffle t (cyclic_init pop)) x <=
  S (count_occ eq_dec (cyclic_draws shuffle t (cyclic_init pop)) y).
Proof.
  intros Hnd Hx Hy.
  assert (Hlen : 1 <= length pop) by (destruct pop; [destruct Hx|simpl; lia]).
  rewrite (draws_prefix t _ (t * length pop - t)).
  replace (t + (t * length pop - t)) with (t * length pop) by nia.
  destruct (cyclic_tours pop t) as (tours & T1 & T2 & ->).
  destruct (tours_balanced pop Hnd tours t T2) as (q & Hq).
  assert (H1 := Hq x Hx). assert (H2 := Hq y Hy). lia.
Qed.
End Cyc.

Lemma naive_rest {A} (pop : list A) ix k : forall d pos, pos + d = length pop -> 0 < d ->
  map fst (naive_cyclic_draws pop ix (d + k) pos) =
  skipn pos pop ++ map fst (naive_cyclic_draws pop ix k 0).
Proof.
  induction d as [|d IH]; intros pos Hpos Hd; [lia|].
  cbn [Nat.add naive_cyclic_draws]. unfold naive_cyclic_pull.
  destruct (nth_error pop pos) as [x|] eqn:E; [|apply nth_error_None in E; lia].
  cbn [map fst].
  assert (Hs : skipn pos pop = x :: skipn (S pos) pop).
  { clear -E. revert pop E. induction pos as [|pos IH]; intros [|y pop] E; simpl in *; try discriminate.
    - congruence.
    - apply IH, E. }
  rewrite Hs. cbn [app]. f_equal.
  destruct (Nat.ltb_spec (S pos) (length pop)).
  - apply IH; lia.
  - assert (d = 0) by lia. subst d. rewrite skipn_all2 by lia. reflexivity.
Qed.

Lemma naive_tours {A} (pop : list A) ix m :
  map fst (naive_cyclic_draws pop ix (m * length pop) 0) = concat (repeat pop m).
Proof.
  destruct pop as [|x pop'].
  - rewrite Nat.mul_0_r. simpl. induction m; simpl; auto.
  - set (pop := x :: pop'). induction m as [|m IH]; [reflexivity|].
    cbn [Nat.mul repeat concat]. rewrite naive_rest; [|reflexivity|unfold pop; simpl; lia].
    rewrite IH. reflexivity.
Qed.

Lemma naive_complete_tours {A} (pop : list A) ix m :
  complete_tours m pop (map fst (naive_cyclic_draws pop ix (m * length pop) 0)).
Proof.
  rewrite naive_tours. exists (repeat pop m). split; [apply repeat_length|]. split; [|reflexivity].
  apply Forall_forall. intros t Ht. apply repeat_spec in Ht. subst. reflexivity.
Qed.

Lemma naive_prefix {A} (pop : list A) ix n : forall pos k,
  naive_cyclic_draws pop ix n pos = firstn n (naive_cyclic_draws pop ix (n + k) pos).
Proof.
  induction n as [|n IH]; intros pos k; [reflexivity|].
  cbn [Nat.add naive_cyclic_draws]. destruct (naive_cyclic_pull pop ix pos) as [[[x i] p']|]; [|reflexivity].
  cbn [firstn]. f_equal. apply IH.
Qed.

Lemma naive_balanced {A} (eq_dec : forall x y : A, {x = y} + {x <> y}) pop ix t x y :
  NoDup pop -> In x pop -> In y pop ->
  count_occ eq_dec (map fst (naive_cyclic_draws pop ix t 0)) x <=
  S (count_occ eq_dec (map fst (naive_cyclic_draws pop ix t 0)) y).
Proof.
  intros Hnd Hx Hy.
  assert (Hlen : 1 <= length pop) by (destruct pop; [destruct Hx|simpl; lia]).
  rewrite (naive_prefix pop ix t 0 (t * length pop - t)), <- firstn_map.
  replace (t + (t * length pop - t)) with (t * length pop) by nia.
  destruct (naive_complete_tours pop ix t) as (tours & T1 & T2 & ->).
  destruct (tours_balanced eq_dec pop Hnd tours t T2) as (q & Hq).
  assert (H1 := Hq x Hx). assert (H2 := Hq y Hy). lia.
Qed.
