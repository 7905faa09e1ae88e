(** Crowding distance with infinite objective values. *)
From Coq Require Import Lia Lqa Permutation Sorted.
From Verif Require Import Model.Base Model.PyList Model.Pareto Model.Crowding Spec.Order Spec.Pareto Spec.Crowding Spec.CrowdingInf
  Proofs.Order Proofs.Pareto Proofs.RankOrdinal Proofs.Crowding.
Local Open Scope nat_scope.
Local Open Scope list_scope.

(** the value of an objective that is not NaN *)
Definition evalue (k : nat) (x : mo) : ext := match fit_at k x with Some e => e | None => MInf end.
Definition numeric_at (k : nat) (x : mo) : Prop := exists e, fit_at k x = Some e.
Definition numeric_vectors (mx : list bool) (l : list mo) : Prop :=
  forall x, In x l -> length (o_fit x) = length mx /\ forall k, k < length mx -> numeric_at k x.

Lemma numeric_evalue k x : numeric_at k x -> fit_at k x = Some (evalue k x).
Proof. intros [e H]. unfold evalue. rewrite H. reflexivity. Qed.
Lemma finite_value_dec e : finite_value e \/ ~ finite_value e.
Proof. destruct e; [right; intros [q H]; discriminate|left; eexists; reflexivity|right; intros [q H]; discriminate]. Qed.
Lemma finite_evalue k x : numeric_at k x -> finite_value (evalue k x) -> finite_at k x /\ evalue k x = Fin (fval k x).
Proof. intros H [q E]. pose proof (numeric_evalue k x H) as F. rewrite E in F. split; [exists q; exact F|]. unfold fval. rewrite F. exact E. Qed.

Lemma fold_min_ext k l : Forall (numeric_at k) l -> forall a,
  exists m, fold_left (fun a x => min2 a (fit_at k x)) l (Some a) = Some m /\ ~ ext_lt a m /\
    forall x, In x l -> ~ ext_lt (evalue k x) m.
Proof.
  induction 1 as [|x l Hx H IH]; intros a; cbn [fold_left].
  - exists a. split; [reflexivity|]. split; [apply ext_lt_irrefl|intros ? []].
  - rewrite (numeric_evalue k x Hx). unfold min2, vlt.
    destruct (ext_ltb (evalue k x) a) eqn:E.
    + destruct (IH (evalue k x)) as (m & Em & M1 & M2). exists m. split; [exact Em|]. apply ext_ltb_lt in E. split.
      * intros F. apply M1. eapply ext_lt_trans; eauto.
      * intros y [<-|Hy]; [exact M1|apply M2, Hy].
    + destruct (IH a) as (m & Em & M1 & M2). exists m. split; [exact Em|]. apply ext_ltb_nlt in E. split; [exact M1|].
      intros y [<-|Hy]; [|apply M2, Hy]. intros F. destruct (ext_lt_split _ a _ F) as [G|G]; auto.
Qed.
Lemma fold_max_ext k l : Forall (numeric_at k) l -> forall a,
  exists m, fold_left (fun a x => max2 a (fit_at k x)) l (Some a) = Some m /\ ~ ext_lt m a /\
    forall x, In x l -> ~ ext_lt m (evalue k x).
Proof.
  induction 1 as [|x l Hx H IH]; intros a; cbn [fold_left].
  - exists a. split; [reflexivity|]. split; [apply ext_lt_irrefl|intros ? []].
  - rewrite (numeric_evalue k x Hx). unfold max2, vlt.
    destruct (ext_ltb a (evalue k x)) eqn:E.
    + destruct (IH (evalue k x)) as (m & Em & M1 & M2). exists m. split; [exact Em|]. apply ext_ltb_lt in E. split.
      * intros F. apply M1. eapply ext_lt_trans; eauto.
      * intros y [<-|Hy]; [exact M1|apply M2, Hy].
    + destruct (IH a) as (m & Em & M1 & M2). exists m. split; [exact Em|]. apply ext_ltb_nlt in E. split; [exact M1|].
      intros y [<-|Hy]; [|apply M2, Hy]. intros F. destruct (ext_lt_split _ a _ F) as [G|G]; auto.
Qed.

(** with an infinite value the range is infinite, or NaN if all values are the same infinity *)
Lemma infinite_range k mk l : Forall (numeric_at k) l -> (exists y, In y l /\ ~ finite_value (evalue k y)) ->
  match objective_range k mk l with
  | Some (Fin _) => False
  | Some _ => True
  | None => forall y, In y l -> ~ finite_value (evalue k y)
  end.
Proof.
  intros HF (y & Hy & Hi). unfold objective_range.
  destruct (fold_min_ext k l HF PInf) as (lo & -> & _ & L).
  destruct (fold_max_ext k l HF MInf) as (hi & -> & _ & M).
  pose proof (L y Hy) as Ly. pose proof (M y Hy) as My.
  assert (K : lo = MInf \/ hi = PInf).
  { destruct (evalue k y) eqn:E.
    - left. destruct lo; [reflexivity| |]; exfalso; apply Ly; exact I.
    - exfalso. apply Hi. eexists; reflexivity.
    - right. destruct hi; [| |reflexivity]; exfalso; apply My; exact I. }
  assert (U : forall z, In z l -> (hi = MInf -> evalue k z = MInf) /\ (lo = PInf -> evalue k z = PInf)).
  { intros z Hz. split; intros ->.
    - specialize (M z Hz). destruct (evalue k z); [reflexivity| |]; exfalso; apply M; exact I.
    - specialize (L z Hz). destruct (evalue k z); [| |reflexivity]; exfalso; apply L; exact I. }
  assert (U1 : hi = MInf -> forall z, In z l -> ~ finite_value (evalue k z)).
  { intros E z Hz [q F]. rewrite (proj1 (U z Hz) E) in F. discriminate. }
  assert (U2 : lo = PInf -> forall z, In z l -> ~ finite_value (evalue k z)).
  { intros E z Hz [q F]. rewrite (proj2 (U z Hz) E) in F. discriminate. }
  destruct K as [-> | ->]; destruct mk; [destruct hi|destruct hi|destruct lo|destruct lo]; cbn; auto.
Qed.

(** sorting *)
Lemma ext_opp_lt a b : ext_lt (ext_opp a) (ext_opp b) <-> ext_lt b a.
Proof. destruct a, b; cbn; try tauto. split; intros; lra. Qed.
Lemma sort_objective_ext k mk l : Forall (numeric_at k) l -> listed evalue k l (sort_objective k mk l).
Proof.
  intros HF. unfold sort_objective. destruct mk.
  - split; [apply sort_asc_perm|]. left.
    apply (StronglySorted_weaken (numeric_at k) (fun x y => vlt (fit_at k y) (fit_at k x) = false)).
    + intros x y Hx Hy. rewrite (numeric_evalue k x Hx), (numeric_evalue k y Hy). apply ext_ltb_nlt.
    + rewrite <- sort_asc_perm. exact HF.
    + apply sort_asc_sorted with (P := numeric_at k); [| |exact HF].
      * intros x y z Hx Hy Hz. rewrite (numeric_evalue k x Hx), (numeric_evalue k y Hy), (numeric_evalue k z Hz). unfold vlt.
        rewrite !ext_ltb_nlt. intros A B C. destruct (ext_lt_split _ (evalue k y) _ C); auto.
      * intros x y Hx Hy. rewrite (numeric_evalue k x Hx), (numeric_evalue k y Hy). unfold vlt.
        rewrite ext_ltb_lt, ext_ltb_nlt. intros A B. exact (ext_lt_irrefl _ (ext_lt_trans _ _ _ A B)).
  - split; [apply sort_asc_perm|]. right.
    apply (StronglySorted_weaken (numeric_at k) (fun x y => vlt (vneg (fit_at k y)) (vneg (fit_at k x)) = false)).
    + intros x y Hx Hy. rewrite (numeric_evalue k x Hx), (numeric_evalue k y Hy). cbn [vneg option_map vlt].
      rewrite ext_ltb_nlt, ext_opp_lt. auto.
    + rewrite <- sort_asc_perm. exact HF.
    + apply sort_asc_sorted with (P := numeric_at k); [| |exact HF].
      * intros x y z Hx Hy Hz. rewrite (numeric_evalue k x Hx), (numeric_evalue k y Hy), (numeric_evalue k z Hz). cbn [vneg option_map vlt].
        rewrite !ext_ltb_nlt, !ext_opp_lt. intros A B C. destruct (ext_lt_split _ (evalue k y) _ C); auto.
      * intros x y Hx Hy. rewrite (numeric_evalue k x Hx), (numeric_evalue k y Hy). cbn [vneg option_map vlt].
        rewrite ext_ltb_lt, ext_ltb_nlt, !ext_opp_lt. intros A B. exact (ext_lt_irrefl _ (ext_lt_trans _ _ _ A B)).
Qed.

Lemma not_flat k l : l <> [] -> (exists y, In y l /\ ~ finite_value (evalue k y)) -> ~ flat evalue k l.
Proof. intros _ (y & Hy & N) (q & F). destruct (F y Hy) as (p & E & _). apply N. exists p. exact E. Qed.

(** one of the two kinds of objective *)
Lemma all_finite_dec k l : (forall y, In y l -> finite_value (evalue k y)) \/ exists y, In y l /\ ~ finite_value (evalue k y).
Proof.
  induction l as [|x l [IH|(y & Hy & N)]]; [left; intros ? []| |right; exists y; split; [right; exact Hy|exact N]].
  destruct (finite_value_dec (evalue k x)) as [F|F]; [left|right; exists x; split; [left; reflexivity|exact F]].
  intros y [<-|Hy]; auto.
Qed.

Lemma vadd_plus acc q g : acc <> Some MInf -> (q == g)%Q -> plus acc g (vadd acc (Some (Fin q))).
Proof.
  intros N E. destruct acc as [[|a|]|]; cbn; [congruence| | |]; constructor. rewrite E. reflexivity.
Qed.
Lemma objective_not_minus k l s x v v' : v <> Some MInf -> objective evalue k l s x v v' -> v' <> Some MInf.
Proof. intros N H. destruct H as [| | |acc acc' l1 p n l2 E Fp Fn Y P|acc acc' l1 p n l2 g NF E F R P]; try discriminate; [exact N| |]; destruct P; discriminate. Qed.
Lemma objectives_not_minus l arr x m v : objectives evalue l arr x m v -> v <> Some MInf.
Proof. induction 1 as [|m v v' H IH O]; [discriminate|]. exact (objective_not_minus _ _ _ _ _ _ IH O). Qed.
Lemma objectives_ext l arr arr' x m v : (forall k, k < m -> arr k = arr' k) -> objectives evalue l arr x m v ->
  objectives evalue l arr' x m v.
Proof.
  intros E H. induction H as [|m v v' H IH O]; [constructor|].
  apply (os_next _ _ _ _ m v); [apply IH; intros; apply E; lia|]. rewrite <- (E m) by lia. exact O.
Qed.

Section Rank.
Variable L : list mo.
Hypothesis L_nonempty : L <> [].
Hypothesis L_ids : NoDup (map o_id L).

(** a flat objective is left out *)
Lemma flat_range k mk : Forall (numeric_at k) L ->
  (veq (objective_range k mk L) (Some (Fin 0%Q)) = true <-> flat evalue k L).
Proof.
  intros HF. destruct (all_finite_dec k L) as [A|A].
  - assert (HQ : Forall (finite_at k) L).
    { rewrite Forall_forall in *. intros x Hx. apply (finite_evalue k x (HF x Hx) (A x Hx)). }
    destruct (range_spec k mk L L_nonempty HQ) as (w & r & W & -> & R & W0 & V).
    assert (EQ : forall x, In x L -> evalue k x = Fin (fval k x)).
    { rewrite Forall_forall in HF. intros x Hx. apply (finite_evalue k x (HF x Hx) (A x Hx)). }
    cbn [veq ext_eqb]. rewrite Qeq_bool_iff.
    assert (RW : (r == 0)%Q <-> (w == 0)%Q) by (destruct mk; split; intros; lra). rewrite RW. split.
    + intros Z. destruct L as [|x0 l] eqn:EL; [congruence|]. exists (fval k x0). intros x Hx. exists (fval k x). split; [apply EQ, Hx|].
      destruct (Qeq_dec (fval k x) (fval k x0)) as [Y|Y]; [exact Y|].
      exfalso. apply V; [|exact Z]. exists x, x0. split; [exact Hx|]. split; [left; reflexivity|exact Y].
    + intros (q & F). destruct (Qeq_dec w 0) as [Z|Z]; [exact Z|]. apply V in Z. destruct Z as (u & v & Hu & Hv & N).
      exfalso. apply N. destruct (F u Hu) as (p & E1 & E2), (F v Hv) as (p' & E3 & E4). rewrite (EQ u Hu) in E1. rewrite (EQ v Hv) in E3.
      injection E1 as ->. injection E3 as ->. lra.
  - pose proof (infinite_range k mk L HF A) as R. split.
    + destruct (objective_range k mk L) as [[|r|]|]; cbn; try discriminate. destruct R.
    + intros F. exfalso. exact (not_flat k L L_nonempty A F).
Qed.

(** one objective *)
Lemma walk_objective k mk d x : Forall (numeric_at k) L -> ~ flat evalue k L -> In x L -> d (o_id x) <> Some MInf ->
  objective evalue k L (sort_objective k mk L) x (d (o_id x))
    (crowd_walk k (objective_range k mk L) (sort_objective k mk L) d (o_id x)).
Proof.
  intros HF NF Hx N. pose proof (sort_objective_ext k mk L HF) as [P S]. set (s := sort_objective k mk L) in *.
  assert (HN : NoDup (map o_id s)) by (eapply Permutation_NoDup; [apply Permutation_map, P|exact L_ids]).
  assert (Hxs : In x s) by (eapply Permutation_in; eauto).
  assert (num : forall y, In y s -> numeric_at k y).
  { rewrite Forall_forall in HF. intros y Hy. apply HF. eapply Permutation_in; [apply Permutation_sym, P|exact Hy]. }
  destruct (inside_split s x Hxs) as [E|(l1 & p & n & l2 & E)].
  - rewrite crowd_walk_end by assumption. apply o_end; assumption.
  - rewrite (crowd_walk_inside k _ s d l1 p x n l2 HN E).
    assert (Hp : In p s) by (rewrite E; apply in_or_app; right; left; reflexivity).
    assert (Hn : In n s) by (rewrite E; apply in_or_app; right; right; right; left; reflexivity).
    assert (HpL : In p L) by (eapply Permutation_in; [apply Permutation_sym, P|exact Hp]).
    assert (HnL : In n L) by (eapply Permutation_in; [apply Permutation_sym, P|exact Hn]).
    destruct (all_finite_dec k L) as [A|A].
    + assert (HQ : Forall (finite_at k) L).
      { rewrite Forall_forall in *. intros y Hy. apply (finite_evalue k y (HF y Hy) (A y Hy)). }
      assert (EQ : forall y, In y L -> evalue k y = Fin (fval k y)).
      { rewrite Forall_forall in HF. intros y Hy. apply (finite_evalue k y (HF y Hy) (A y Hy)). }
      pose proof (sort_objective_ok k mk L HQ) as AR.
      assert (NZ : veq (objective_range k mk L) (Some (Fin 0%Q)) = false).
      { destruct (veq (objective_range k mk L) (Some (Fin 0%Q))) eqn:Z; [|reflexivity]. exfalso. apply NF, (flat_range k mk HF), Z. }
      destruct (range_spec k mk L L_nonempty HQ) as (w & r & W & ER & R & W0 & V). rewrite ER in *.
      cbn [veq ext_eqb] in NZ. assert (NR : ~ (r == 0)%Q) by (intros Z; apply Qeq_bool_iff in Z; congruence).
      rewrite (numeric_evalue k n (num n Hn)), (numeric_evalue k p (num p Hp)), (EQ n HnL), (EQ p HpL).
      cbn [vsub vneg option_map ext_opp vadd vdiv].
      assert (B : Qeq_bool r 0 = false) by (destruct (Qeq_bool r 0) eqn:Z; [apply Qeq_bool_iff in Z; contradiction|reflexivity]).
      rewrite B. destruct W as (lo & hi & Hlo & Hhi & HW & Ew).
      set (g := ((fval k n + - fval k p) / r)%Q).
      apply (o_gap evalue k L s x _ _ l1 p n l2 g NF E A).
      * exists lo, hi, (fval k lo), (fval k hi), (fval k p), (fval k n). split; [exact Hlo|]. split; [exact Hhi|].
        split; [apply EQ, Hlo|]. split; [apply EQ, Hhi|]. split.
        { intros z Hz. rewrite (EQ z Hz). cbn. destruct (HW z Hz). split; lra. }
        split; [apply EQ, HpL|]. split; [apply EQ, HnL|]. unfold g.
        assert (Or : (if mk then (fval k p <= fval k n)%Q else (fval k n <= fval k p)%Q)).
        { assert (HH : StronglySorted (fun a b => vlt (if mk then fit_at k b else vneg (fit_at k b)) (if mk then fit_at k a else vneg (fit_at k a)) = false) s).
          { unfold s, sort_objective. destruct mk.
            - apply sort_asc_sorted with (P := finite_at k); [| |exact HQ].
              + intros a b c Ha Hb Hc. rewrite (finite_fval k a Ha), (finite_fval k b Hb), (finite_fval k c Hc), !vlt_fin_false. intros; lra.
              + intros a b Ha Hb. rewrite (finite_fval k a Ha), (finite_fval k b Hb), vlt_fin, vlt_fin_false. intros; lra.
            - apply sort_asc_sorted with (P := finite_at k); [| |exact HQ].
              + intros a b c Ha Hb Hc. rewrite (finite_fval k a Ha), (finite_fval k b Hb), (finite_fval k c Hc).
                cbn [vneg option_map ext_opp]. rewrite !vlt_fin_false. intros; lra.
              + intros a b Ha Hb. rewrite (finite_fval k a Ha), (finite_fval k b Hb).
                cbn [vneg option_map ext_opp]. rewrite vlt_fin, vlt_fin_false. intros; lra. }
          rewrite E in HH. clear -HH EQ HpL HnL HQ. induction l1 as [|c l1 IH]; [|apply IH; inversion HH; assumption].
          cbn [app] in HH. inversion HH as [|? ? _ HR]; subst. rewrite Forall_forall in HR. specialize (HR n (or_intror (or_introl eq_refl))).
          rewrite Forall_forall in HQ. cbv beta in HR.
          destruct mk; rewrite (finite_fval k n (HQ n HnL)), (finite_fval k p (HQ p HpL)) in HR.
          - apply vlt_fin_false in HR. exact HR.
          - cbn [vneg option_map ext_opp] in HR. apply vlt_fin_false in HR. lra. }
        assert (Wp : ~ (fval k hi - fval k lo == 0)%Q) by (intros Z; apply NR; destruct mk; lra).
        destruct mk.
        { rewrite Qabs_pos by lra. rewrite R, Ew. reflexivity. }
        { rewrite Qabs_neg by lra. rewrite R, Ew. field. lra. }
      * apply vadd_plus; [exact N|reflexivity].
    + pose proof (infinite_range k mk L HF A) as R.
      rewrite (numeric_evalue k n (num n Hn)), (numeric_evalue k p (num p Hp)).
      destruct (finite_value_dec (evalue k p)) as [Fp|Fp]; [destruct (finite_value_dec (evalue k n)) as [Fn|Fn]|].
      * assert (Z : vdiv (vsub (Some (evalue k n)) (Some (evalue k p))) (objective_range k mk L) = Some (Fin 0%Q)).
        { pose proof Fp as [u Eu]. pose proof Fn as [v Ev]. rewrite Eu, Ev. cbn [vsub vneg option_map ext_opp vadd].
          destruct (objective_range k mk L) as [[|r|]|]; [reflexivity|destruct R|reflexivity|]. exfalso. exact (R p HpL Fp). }
        rewrite Z. apply (o_far evalue k L s x _ _ l1 p n l2 E Fp Fn A). apply vadd_plus; [exact N|reflexivity].
      * assert (Z : vdiv (vsub (Some (evalue k n)) (Some (evalue k p))) (objective_range k mk L) = None).
        { destruct (evalue k n) eqn:En; [| exfalso; apply Fn; eexists; reflexivity |];
          destruct (evalue k p); destruct (objective_range k mk L) as [[|r|]|]; cbn; try reflexivity; destruct R. }
        rewrite Z. replace (vadd (d (o_id x)) None) with (@None ext) by (destruct (d (o_id x)) as [[| |]|]; reflexivity).
        apply (o_infinite evalue k L s x _ l1 p n l2 E). right. exact Fn.
      * assert (Z : vdiv (vsub (Some (evalue k n)) (Some (evalue k p))) (objective_range k mk L) = None).
        { destruct (evalue k p) eqn:En; [| exfalso; apply Fp; eexists; reflexivity |];
          destruct (evalue k n); destruct (objective_range k mk L) as [[|r|]|]; cbn; try reflexivity; destruct R. }
        rewrite Z. replace (vadd (d (o_id x)) None) with (@None ext) by (destruct (d (o_id x)) as [[| |]|]; reflexivity).
        apply (o_infinite evalue k L s x _ l1 p n l2 E). left. exact Fp.
Qed.

Definition upto (m : nat) (arr : nat -> list mo) (d : nat -> val) : Prop :=
  (forall k, k < m -> ~ flat evalue k L -> listed evalue k L (arr k)) /\
  forall x, In x L -> objectives evalue L arr x m (d (o_id x)).

Lemma upto_step k mk arr d : Forall (numeric_at k) L -> upto k arr d ->
  let s := sort_objective k mk L in
  upto (S k) (fun j => if j =? k then s else arr j)
    (if veq (objective_range k mk L) (Some (Fin 0%Q)) then d else crowd_walk k (objective_range k mk L) s d).
Proof.
  intros HF [U1 U2] s.
  assert (arr_eq : forall j, j < k -> arr j = (fun j => if j =? k then s else arr j) j).
  { intros j Hj. cbv beta. destruct (Nat.eqb_spec j k); [lia|reflexivity]. }
  split.
  - intros j Hj NF. cbv beta. destruct (Nat.eqb_spec j k) as [->|Hne]; [apply sort_objective_ext, HF|apply U1; [lia|exact NF]].
  - intros x Hx. apply (os_next _ _ _ _ k (d (o_id x))); [exact (objectives_ext _ _ _ _ _ _ arr_eq (U2 x Hx))|].
    cbv beta. rewrite Nat.eqb_refl. destruct (veq (objective_range k mk L) (Some (Fin 0%Q))) eqn:E.
    + apply o_flat. apply (flat_range k mk HF), E.
    + apply walk_objective; [exact HF| |exact Hx|exact (objectives_not_minus _ _ _ _ _ (U2 x Hx))].
      intros F. apply (flat_range k mk HF) in F. congruence.
Qed.

Lemma crowd_objectives_ext : forall mx k sp arr d,
  (forall j, k <= j < k + length mx -> Forall (numeric_at j) L) -> upto k arr d ->
  exists out d', crowd_objectives k mx L sp d = (out, d') /\
    (exists arr', upto (k + length mx) arr' d') /\ (forall i, ~ In i (map o_id L) -> d' i = d i).
Proof.
  induction mx as [|mk mx IH]; intros k sp arr d HF HS.
  - exists sp, d. cbn. rewrite Nat.add_0_r. split; [reflexivity|]. split; [eauto|reflexivity].
  - cbn [length] in *. cbn [crowd_objectives].
    assert (HFk : Forall (numeric_at k) L) by (apply HF; lia).
    pose proof (upto_step k mk arr d HFk HS) as HS'. cbv zeta in HS'.
    destruct (veq (objective_range k mk L) (Some (Fin 0%Q))) eqn:E.
    + destruct (IH (S k) sp _ d ltac:(intros j Hj; apply HF; lia) HS') as (out & d' & E' & X1 & X2).
      exists out, d'. rewrite Nat.add_succ_r. split; [exact E'|]. split; [exact X1|exact X2].
    + destruct (IH (S k) (sort_objective k mk L) _ _ ltac:(intros j Hj; apply HF; lia) HS') as (out & d' & E' & X1 & X2).
      exists out, d'. rewrite Nat.add_succ_r. split; [exact E'|]. split; [exact X1|].
      intros i Hi. rewrite X2 by exact Hi. apply crowd_walk_frame. intros H. apply Hi.
      eapply Permutation_in; [|exact H]. apply Permutation_map, Permutation_sym.
      exact (proj1 (sort_objective_ext k mk L HFk)).
Qed.
End Rank.

Lemma per_rank_ext mx L d : L <> [] -> NoDup (map o_id L) -> numeric_vectors mx L ->
  exists out d', per_rank_crowding_calc mx L d = (out, d') /\
    distances evalue (length mx) L (fun x => d' (o_id x)) /\
    (forall i, ~ In i (map o_id L) -> d' i = d i).
Proof.
  intros Hne Hid HF.
  assert (HFk : forall j, 0 <= j < 0 + length mx -> Forall (numeric_at j) L).
  { intros j Hj. apply Forall_forall. intros x Hx. apply (HF x Hx). lia. }
  set (d0 := fold_left (fun d x => set_at d (o_id x) (Some (Fin 0%Q))) L d).
  assert (H0 : forall x, In x L -> d0 (o_id x) = Some (Fin 0%Q)).
  { clear. unfold d0. intros x Hx. revert x Hx.
    induction L as [|a l IH] using rev_ind; intros x Hx; [destruct Hx|].
    rewrite fold_left_app. simpl. unfold set_at at 1. destruct (Nat.eqb_spec (o_id x) (o_id a)); [reflexivity|].
    apply in_app_or in Hx. destruct Hx as [Hx|[<-|[]]]; [apply IH, Hx|congruence]. }
  assert (Hfr : forall i, ~ In i (map o_id L) -> d0 i = d i).
  { clear. unfold d0. intros i. induction L as [|a l IH] using rev_ind; intros Hi; [reflexivity|].
    rewrite fold_left_app. simpl. rewrite map_app, in_app_iff in Hi. simpl in Hi.
    rewrite set_at_other by (intros ->; tauto). apply IH. tauto. }
  destruct (crowd_objectives_ext L Hne Hid mx 0 [] (fun _ => []) d0 HFk) as (out & d' & E & (arr & X1) & X4).
  { split; [intros; lia|]. intros x Hx. rewrite (H0 x Hx). constructor. }
  exists out, d'. split; [exact E|]. split; [exists arr; exact X1|].
  intros i Hi. rewrite X4 by exact Hi. apply Hfr, Hi.
Qed.

Lemma crowd_ranks_ext mx rank pop : NoDup (map o_id pop) -> numeric_vectors mx pop ->
  forall rs d, NoDup rs -> (forall r, In r rs -> exists x, In x pop /\ rank (o_id x) = r) ->
  exists out d', crowd_ranks mx rank pop rs d = (out, d') /\
    (forall r, In r rs -> distances evalue (length mx) (same_rank rank pop r) (fun x => d' (o_id x))) /\
    (forall x, In x pop -> ~ In (rank (o_id x)) rs -> d' (o_id x) = d (o_id x)).
Proof.
  intros Hid HF. induction rs as [|r rs IH]; intros d HN Hex.
  - exists [], d. split; [reflexivity|]. split; [intros ? []|reflexivity].
  - inversion HN; subst.
    assert (Hne : same_rank rank pop r <> []).
    { destruct (Hex r (or_introl eq_refl)) as (x & Hx & Ex). intros E.
      assert (Hin : In x (same_rank rank pop r)) by (apply in_same_rank; auto). rewrite E in Hin. destruct Hin. }
    assert (Hgid : NoDup (map o_id (same_rank rank pop r))) by (apply NoDup_map_filter, Hid).
    assert (HgF : numeric_vectors mx (same_rank rank pop r)).
    { intros x Hx. apply HF. apply in_same_rank in Hx. tauto. }
    destruct (per_rank_ext mx (same_rank rank pop r) d Hne Hgid HgF) as (out1 & d1 & E1 & C1 & F1).
    destruct (IH d1 H2) as (outs & d2 & E2 & C2 & F2).
    { intros r' Hr'. apply Hex. right. exact Hr'. }
    exists (out1 ++ outs), d2. cbn [crowd_ranks]. unfold same_rank in E1. rewrite E1, E2. split; [reflexivity|].
    split.
    + intros r' [<-|Hr']; [|apply C2, Hr'].
      destruct C1 as (arr & A1 & A2). exists arr. split; [exact A1|]. intros x Hx.
      assert (Ed : d2 (o_id x) = d1 (o_id x)).
      { apply in_same_rank in Hx. apply F2; [tauto|]. destruct Hx as [_ ->]. exact H1. }
      rewrite Ed. apply A2, Hx.
    + intros x Hx Hr. cbn [In] in Hr. rewrite F2 by tauto. apply F1. intros Hin. apply in_map_iff in Hin.
      destruct Hin as (y & Ey & Hy). apply in_same_rank in Hy. destruct Hy as [Hy <-].
      apply Hr. left. rewrite (same_id pop Hid y x Hy Hx Ey). reflexivity.
Qed.

Lemma crowding_calc_ext mx rank pop d : pop <> [] -> NoDup (map o_id pop) -> numeric_vectors mx pop ->
  exists out d', crowding_distance_calc mx rank pop d = Ok (out, d') /\
    forall x, In x pop -> distances evalue (length mx) (same_rank rank pop (rank (o_id x))) (fun y => d' (o_id y)).
Proof.
  intros Hne Hid HF. unfold crowding_distance_calc.
  destruct (first_ranks_spec rank pop []) as (I1 & _ & I3 & I4).
  destruct (crowd_ranks_ext mx rank pop Hid HF _ d I1 I3) as (out & d' & E & C & _).
  exists out, d'. split; [destruct pop; [congruence|rewrite E; reflexivity]|].
  intros x Hx. apply C. destruct (I4 x Hx) as [[]|H]; exact H.
Qed.

Definition inf_pop : list mo :=
  [mk_mo 0 [NInt 0; NFlt false PInf]; mk_mo 1 [NInt 1; NInt 2]; mk_mo 2 [NInt 2; NInt 1]; mk_mo 3 [NInt 3; NInt 0]].
Lemma inf_pop_numeric : numeric_vectors [true; true] inf_pop.
Proof.
  intros x Hx. repeat destruct Hx as [<-|Hx]; try destruct Hx; (split; [reflexivity|]); intros [|[|k]] Hk; cbn in Hk; try lia;
  eexists; reflexivity.
Qed.

Definition lost_pop : list mo :=
  [mk_mo 0 [NInt 0; NInt 1; NInt 5]; mk_mo 1 [NInt 1; NFlt false PInf; NInt 0]; mk_mo 2 [NInt 2; NInt 0; NInt 9]].
Lemma extreme_is_lost : exists mx rank pop d out d' x, NoDup (map o_id pop) /\ numeric_vectors mx pop /\
  (forall y, In y pop -> rank (o_id y) = rank (o_id x)) /\ In x pop /\
  (forall y, In y pop -> y = x \/ ext_lt (evalue 0 x) (evalue 0 y)) /\
  crowding_distance_calc mx rank pop d = Ok (out, d') /\ d' (o_id x) = None.
Proof.
  exists [true; true; true], (fun _ => 1), lost_pop, (fun _ => None).
  destruct (crowding_distance_calc [true; true; true] (fun _ => 1) lost_pop (fun _ => None)) as [[out d']|e] eqn:E; [|discriminate].
  exists out, d', (mk_mo 0 [NInt 0; NInt 1; NInt 5]). split; [repeat constructor; cbn; intuition congruence|]. split.
  { intros x Hx. repeat destruct Hx as [<-|Hx]; try destruct Hx; (split; [reflexivity|]);
      intros [|[|[|k]]] Hk; cbn in Hk; try lia; eexists; reflexivity. }
  split; [reflexivity|]. split; [left; reflexivity|]. split.
  { intros y Hy. repeat destruct Hy as [<-|Hy]; try destruct Hy; [left; reflexivity|right; vm_compute; reflexivity|right; vm_compute; reflexivity]. }
  split; [reflexivity|]. injection E as _ <-. vm_compute. reflexivity.
Qed.
