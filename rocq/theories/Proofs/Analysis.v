(** Proofs about the curve measures and the tables of averages. *)
From Coq Require Import Lia Lqa Permutation Sorted Ascii String.
From Verif Require Import Model.Base Model.PyList Model.Metrics Model.RealProblems Model.CsvProbe Model.Analysis
  Spec.Problems Spec.Metrics Spec.RealProblems Spec.CsvProbe Spec.Analysis Proofs.PyList Proofs.Metrics Proofs.Sums Proofs.RankOrdinal.
Local Open Scope list_scope.

(** ** sorting a complete curve *)
Lemma complete_present c : all_present (complete c) = Some c.
Proof. induction c as [|[t v] c IH]; [reflexivity|]. cbn. fold (complete c). rewrite IH. reflexivity. Qed.
Lemma complete_times c : map fst (complete c) = map Some (map fst c).
Proof. unfold complete. rewrite !map_map. reflexivity. Qed.

Lemma sorted_curve srt c : sorts_by_time srt -> NoDup (map fst c) ->
  exists s, srt (complete c) = complete s /\ Permutation c s /\ StronglySorted Z.lt (map fst s).
Proof.
  intros H N. destruct (H (complete c)) as (P & S). apply Permutation_sym in P. unfold complete in P.
  apply Permutation_map_inv in P as (s & E & P). exists s. unfold complete at 2. rewrite <- E. split; [reflexivity|]. split; [exact P|].
  unfold complete in S. rewrite E in S. apply (Permutation_map fst) in P. apply (Permutation_NoDup P) in N. clear -S N.
  induction s as [|[t v] s IH]; [constructor|]. cbn in *. inversion S as [|? ? S1 S2]; subst. inversion N; subst. constructor; [apply IH; assumption|].
  rewrite Forall_map in S2. apply Forall_forall. intros t' H'. apply in_map_iff in H' as ([t1 v1] & <- & H'). cbn.
  rewrite Forall_forall in S2. specialize (S2 _ H'). cbn in S2. assert (t <> t1); [|lia]. intros ->. apply H1. apply (in_map fst) in H'. exact H'.
Qed.

Lemma sorted_eq (l m : list Z) : StronglySorted Z.lt l -> StronglySorted Z.lt m -> Permutation l m -> l = m.
Proof.
  revert m. induction l as [|x l IH]; intros m Sl Sm P; [apply Permutation_nil in P; congruence|].
  destruct m as [|y m]; [apply Permutation_sym, Permutation_nil in P; discriminate|].
  inversion Sl as [|? ? Sl1 Sl2]; subst. inversion Sm as [|? ? Sm1 Sm2]; subst. rewrite Forall_forall in Sl2, Sm2.
  assert (x = y) as <-.
  { assert (Hx : In x (y :: m)) by (eapply Permutation_in; [exact P|left; reflexivity]).
    assert (Hy : In y (x :: l)) by (eapply Permutation_in; [apply Permutation_sym, P|left; reflexivity]).
    destruct Hx as [Hx|Hx]; [congruence|]. destruct Hy as [Hy|Hy]; [congruence|]. apply Sl2 in Hy. apply Sm2 in Hx. lia. }
  f_equal. apply IH; auto. eapply Permutation_cons_inv, P.
Qed.

(** ** the sum *)
Fixpoint step (p : Z) (c : curve) : Q :=
  match c with [] => 0 | (t, v) :: r => (inject_Z (t - p) * v + step t r)%Q end.

Lemma sum_step : forall s p,
  (Qsum (map (fun q => fst q * snd q) (combine (map (fun tp => inject_Z (fst tp - snd tp)) (combine (map fst s) (p :: removelast (map fst s)))) (map snd s))) == step p s)%Q.
Proof.
  induction s as [|[t v] s IH]; intros p; [reflexivity|]. cbn [map fst snd combine step Qsum fold_right].
  destruct s as [|[t' v'] s]; [cbn; ring|]. specialize (IH t).
  cbn [map fst snd] in IH |- *. change (removelast (t :: t' :: map fst s)) with (t :: removelast (t' :: map fst s)).
  change (fold_right Qplus 0%Q) with Qsum. rewrite IH. reflexivity.
Qed.

Lemma min_first t r : (forall x, In x r -> (t < x)%Z) -> fold_left Z.min r t = t.
Proof. intros H. induction r as [|x r IH]; [reflexivity|]. cbn. rewrite Z.min_l by (specialize (H x (or_introl eq_refl)); lia). apply IH. intros y Hy. apply H. right. exact Hy. Qed.

Lemma auc_eq srt df : srt df <> [] -> auc srt df = Ok (match all_present (srt df) with
  | None => None
  | Some l => Some (q_sum (map (fun p => (fst p * snd p)%Q)
      (combine (map (fun tp => inject_Z (fst tp - snd tp)) (combine (map fst l) (previous_time (map fst l)))) (map snd l))))
  end).
Proof. unfold auc. destruct (srt df); [congruence|reflexivity]. Qed.

Lemma auc_step srt c : sorts_by_time srt -> NoDup (map fst c) -> c <> [] ->
  exists t v r a, Permutation c ((t, v) :: r) /\ StronglySorted Z.lt (t :: map fst r) /\ auc srt (complete c) = Ok (Some a) /\ (a == step t r)%Q.
Proof.
  intros H N Hne. destruct (sorted_curve srt c H N) as (s & E & P & S). destruct s as [|[t v] r]; [apply Permutation_sym, Permutation_nil in P; congruence|].
  exists t, v, r. eexists. split; [exact P|]. split; [exact S|]. split; [rewrite auc_eq by (rewrite E; discriminate); rewrite E, complete_present; reflexivity|].
  rewrite q_sum_Qsum.
  cbn [map fst previous_time]. rewrite min_first by (inversion S as [|? ? S1 S2]; subst; rewrite Forall_forall in S2; exact S2).
  pose proof (sum_step ((t, v) :: r) t) as K. cbn [map fst snd] in K |- *. rewrite K. cbn [step]. rewrite Z.sub_diag. ring.
Qed.

(** two sorts of the same curve *)
Lemma sorted_perm_eq (s1 s2 : curve) : StronglySorted Z.lt (map fst s1) -> StronglySorted Z.lt (map fst s2) -> Permutation s1 s2 -> s1 = s2.
Proof.
  revert s2. induction s1 as [|x l IH]; intros m Sl Sm P; [apply Permutation_nil in P; congruence|].
  destruct m as [|y m]; [apply Permutation_sym, Permutation_nil in P; discriminate|].
  cbn in Sl, Sm. inversion Sl as [|? ? Sl1 Sl2]; subst. inversion Sm as [|? ? Sm1 Sm2]; subst. rewrite Forall_forall in Sl2, Sm2.
  assert (x = y) as <-.
  { assert (Hx : In x (y :: m)) by (eapply Permutation_in; [exact P|left; reflexivity]).
    assert (Hy : In y (x :: l)) by (eapply Permutation_in; [apply Permutation_sym, P|left; reflexivity]).
    destruct Hx as [Hx|Hx]; [congruence|]. destruct Hy as [Hy|Hy]; [congruence|]. apply (in_map fst), Sl2 in Hy. apply (in_map fst), Sm2 in Hx. lia. }
  f_equal. apply IH; auto. eapply Permutation_cons_inv, P.
Qed.

Lemma auc_order srt srt' c c' : sorts_by_time srt -> sorts_by_time srt' -> NoDup (map fst c) -> c <> [] -> Permutation c c' ->
  exists a a', auc srt (complete c) = Ok (Some a) /\ auc srt' (complete c') = Ok (Some a') /\ (a == a')%Q.
Proof.
  intros H H' N Hne P. destruct (auc_step srt c H N Hne) as (t & v & r & a & P1 & S1 & E1 & A1).
  destruct (auc_step srt' c' H') as (t' & v' & r' & a' & P2 & S2 & E2 & A2).
  - eapply Permutation_NoDup; [apply Permutation_map, P|exact N].
  - intros ->. apply Permutation_sym, Permutation_nil in P. contradiction.
  - exists a, a'. split; [exact E1|]. split; [exact E2|].
    assert (K : (t, v) :: r = (t', v') :: r') by (apply sorted_perm_eq; [exact S1|exact S2|rewrite <- P1, <- P2; exact P]).
    injection K as <- <- <-. rewrite A1, A2. reflexivity.
Qed.

(** ** area *)
Lemma last_shift {A} (l : list A) : forall x d, last (x :: l) d = last l x.
Proof. induction l as [|y l IH]; intros x d; [reflexivity|]. change (last (x :: y :: l) d) with (last (y :: l) d). rewrite !IH. reflexivity. Qed.

Lemma sumn_app n : forall m f, (sumn (n + m) f == sumn n f + sumn m (fun i => f (n + i)%nat))%Q.
Proof.
  induction n as [|n IH]; intros m f.
  - cbn [Nat.add]. change (sumn 0 f) with 0%Q. rewrite Qplus_0_l. reflexivity.
  - cbn [Nat.add]. rewrite !sumn_S, IH. ring.
Qed.

Lemma step_area : forall r p n f, StronglySorted Z.lt (p :: map fst r) ->
  last (map fst r) p = (p + Z.of_nat n)%Z -> (forall i, i < n -> credited r (p + 1 + Z.of_nat i) (f i)) -> (step p r == sumn n f)%Q.
Proof.
  induction r as [|[t v] r IH]; intros p n f S L C.
  - cbn in *. assert (n = 0) as -> by lia. reflexivity.
  - cbn [step map fst] in *. inversion S as [|? ? S1 S2]; subst. apply Forall_cons_iff in S2 as [S2 _].
    assert (Hl : last (t :: map fst r) p = last (map fst r) t) by apply last_shift.
    rewrite Hl in L. assert (Ht : (t <= last (map fst r) t)%Z).
    { clear -S1. inversion S1 as [|? ? _ F]; subst. rewrite Forall_forall in F. destruct (map fst r) as [|x l] eqn:E; [cbn; lia|].
      assert (In (last (x :: l) t) (x :: l)); [|specialize (F _ H); lia]. clear. revert x. induction l as [|y l IH]; intros x; [left; reflexivity|right; apply IH]. }
    rewrite L in Ht. replace n with (Z.to_nat (t - p) + (n - Z.to_nat (t - p))) by lia. set (k := Z.to_nat (t - p)). rewrite sumn_app.
    rewrite (IH t (n - k) (fun i => f (k + i)%nat)); [|exact S1|subst k; lia|].
    + apply Qplus_comp; [|reflexivity]. rewrite <- (sumn_ext k (fun _ => v)).
      * rewrite sumn_const. subst k. rewrite Z2Nat.id by lia. reflexivity.
      * intros i Hi. destruct (C i ltac:(lia)) as (t' & Hin & H1 & H2). specialize (H2 t v (or_introl eq_refl) ltac:(lia)).
        destruct Hin as [Hin|Hin]; [congruence|]. inversion S1 as [|? ? _ F]; subst. rewrite Forall_forall in F.
        apply (in_map fst) in Hin. specialize (F _ Hin). cbn in F. lia.
    + intros i Hi. destruct (C (k + i) ltac:(lia)) as (t' & Hin & H1 & H2). exists t'. split; [|split].
      * destruct Hin as [Hin|Hin]; [|exact Hin]. injection Hin as <- <-. lia.
      * lia.
      * intros u w Hu Huw. apply (H2 u w); [right; exact Hu|lia].
Qed.

Lemma spans_sorted c t v r first lst : Permutation c ((t, v) :: r) -> StronglySorted Z.lt (t :: map fst r) -> spans c first lst ->
  t = first /\ last (map fst r) t = lst.
Proof.
  intros P S (H1 & H2 & H3). apply (Permutation_map fst) in P. cbn in P.
  assert (Hin : forall x, In x (map fst c) <-> In x (t :: map fst r)) by (intros x; split; apply Permutation_in; [exact P|apply Permutation_sym, P]).
  inversion S as [|? ? S1 S2]; subst. rewrite Forall_forall in S2. split.
  - assert (Ht : In t (map fst c)) by (apply Hin; left; reflexivity). apply H3 in Ht. apply Hin in H1. destruct H1 as [H1|H1]; [congruence|]. apply S2 in H1. lia.
  - apply Hin in H2. assert (K : forall l t, StronglySorted Z.lt (t :: l) -> In (last l t) (t :: l) /\ forall x, In x (t :: l) -> (x <= last l t)%Z).
    { clear. induction l as [|y l IH]; intros t S; [cbn; split; [auto|intros x [->|[]]; lia]|]. inversion S as [|? ? S1 S2]; subst.
      destruct (IH y S1) as (I1 & I2). assert (E : last (y :: l) t = last l y) by apply last_shift.
      rewrite E. split; [right; exact I1|]. intros x [<-|Hx]; [|apply I2, Hx]. rewrite Forall_forall in S2. specialize (S2 y (or_introl eq_refl)). specialize (I2 y (or_introl eq_refl)). lia. }
    destruct (K _ _ S) as (K1 & K2). apply Hin, H3 in K1. apply K2 in H2. lia.
Qed.

Lemma auc_area srt c first n f : sorts_by_time srt -> NoDup (map fst c) -> spans c first (first + Z.of_nat n) ->
  (forall i, i < n -> credited c (first + 1 + Z.of_nat i) (f i)) ->
  exists a, auc srt (complete c) = Ok (Some a) /\ (a == sumn n f)%Q.
Proof.
  intros H N Sp C. assert (Hne : c <> []) by (intros ->; destruct Sp as ([] & _)).
  destruct (auc_step srt c H N Hne) as (t & v & r & a & P & S & E & A). exists a. split; [exact E|]. rewrite A.
  destruct (spans_sorted _ _ _ _ _ _ P S Sp) as (-> & L). apply step_area; [exact S|exact L|].
  intros i Hi. destruct (C i Hi) as (t & Hin & H1 & H2). exists t. split; [|split; [exact H1|]].
  - eapply Permutation_in in Hin; [|exact P]. destruct Hin as [Hin|Hin]; [|exact Hin]. injection Hin as <- <-. lia.
  - intros t' v' Ht. apply (H2 t' v'). eapply Permutation_in; [apply Permutation_sym, P|right; exact Ht].
Qed.

(** the credits exist *)
Lemma credits_exist c first lst x : spans c first lst -> (x <= lst)%Z -> exists v, credited c x v.
Proof.
  intros (_ & H2 & _) Hx. assert (K : exists t v, In (t, v) c /\ (x <= t)%Z).
  { apply in_map_iff in H2 as ([t v] & <- & H2). exists t, v. auto. }
  clear H2. destruct K as (t & v & Hin & Ht).
  assert (G : forall n t v, In (t, v) c -> (x <= t < x + Z.of_nat n)%Z -> exists v, credited c x v).
  { induction n as [|n IH]; intros t0 v0 Hi Hr; [lia|].
    destruct (find (fun p => (x <=? fst p)%Z && (fst p <? t0)%Z) c) as [[t1 v1]|] eqn:F.
    - apply find_some in F as (F1 & F2). cbn in F2. apply andb_true_iff in F2 as (F2 & F3). apply (IH t1 v1 F1). lia.
    - exists v0, t0. split; [exact Hi|]. split; [lia|]. intros t' v' Hi' Hx'. pose proof (find_none _ _ F _ Hi') as K. cbn in K.
      destruct (Z.ltb_spec t' t0); [|lia]. destruct (Z.leb_spec x t'); [discriminate|lia]. }
  apply (G (Z.to_nat (t - x + 1)) t v Hin). lia.
Qed.

(** ** bounds, monotony, linearity *)
Lemma step_bounds lo hi : forall r p, StronglySorted Z.lt (p :: map fst r) -> (forall t v, In (t, v) r -> (lo <= v <= hi)%Q) ->
  (lo * inject_Z (last (map fst r) p - p) <= step p r <= hi * inject_Z (last (map fst r) p - p))%Q.
Proof.
  induction r as [|[t v] r IH]; intros p S B.
  - cbn. rewrite Z.sub_diag. split; ring_simplify; lra.
  - cbn [step map fst] in *. inversion S as [|? ? S1 S2]; subst. apply Forall_cons_iff in S2 as [S2 _].
    assert (Hl : last (t :: map fst r) p = last (map fst r) t) by apply last_shift.
    rewrite Hl. specialize (IH t S1 (fun t v H => B t v (or_intror H))). specialize (B t v (or_introl eq_refl)).
    set (L := last (map fst r) t) in *. assert (Hd : (0 <= inject_Z (t - p))%Q) by (change 0%Q with (inject_Z 0); rewrite <- Zle_Qle; lia).
    assert (E : (inject_Z (L - p) == inject_Z (L - t) + inject_Z (t - p))%Q) by (rewrite <- inject_Z_plus; replace (L - t + (t - p))%Z with (L - p)%Z by lia; reflexivity).
    rewrite E. clear E. revert IH Hd. generalize (inject_Z (t - p)) (inject_Z (L - t)). intros d l (I1 & I2) Hd. destruct B. split; nra.
Qed.

Lemma auc_bounds srt c lo hi first lst : sorts_by_time srt -> NoDup (map fst c) -> spans c first lst ->
  (forall t v, In (t, v) c -> t <> first -> (lo <= v <= hi)%Q) ->
  exists a, auc srt (complete c) = Ok (Some a) /\ (lo * inject_Z (lst - first) <= a <= hi * inject_Z (lst - first))%Q.
Proof.
  intros H N Sp B. assert (Hne : c <> []) by (intros ->; destruct Sp as ([] & _)).
  destruct (auc_step srt c H N Hne) as (t & v & r & a & P & S & E & A). exists a. split; [exact E|]. rewrite A.
  destruct (spans_sorted _ _ _ _ _ _ P S Sp) as (-> & <-). apply step_bounds; [exact S|].
  intros t v' Hin. apply (B t v'); [eapply Permutation_in; [apply Permutation_sym, P|right; exact Hin]|].
  inversion S as [|? ? S1 S2]; subst. rewrite Forall_forall in S2. apply (in_map fst), S2 in Hin. cbn in Hin. lia.
Qed.

(** a curve as a function on its times *)
Lemma auc_of_function srt grid : NoDup grid -> grid <> [] -> sorts_by_time srt ->
  exists t r, Permutation grid (t :: r) /\ StronglySorted Z.lt (t :: r) /\
  forall (f : Z -> Q) l, Permutation grid l ->
    exists a, auc srt (complete (map (fun t => (t, f t)) l)) = Ok (Some a) /\ (a == step t (map (fun t => (t, f t)) r))%Q.
Proof.
  intros N Hne H.
  assert (G : forall (f : Z -> Q) l, Permutation grid l -> exists t r a, Permutation grid (t :: r) /\ StronglySorted Z.lt (t :: r) /\
    auc srt (complete (map (fun t => (t, f t)) l)) = Ok (Some a) /\ (a == step t (map (fun t => (t, f t)) r))%Q).
  { intros f l P. assert (Mf : forall l, map fst (map (fun t => (t, f t)) l) = l) by (intros; rewrite map_map; apply map_id).
    destruct (auc_step srt (map (fun t => (t, f t)) l) H) as (t & v & r & a & P1 & S & E & A).
    - rewrite Mf. eapply Permutation_NoDup, N. exact P.
    - intros K. apply Hne. apply Permutation_nil. apply map_eq_nil in K. subst l. apply Permutation_sym, P.
    - exists t, (map fst r), a. assert (K : (t, v) :: r = map (fun t => (t, f t)) (t :: map fst r)).
      { apply Permutation_sym, Permutation_map_inv in P1 as (l3 & E3 & _). rewrite E3.
        assert (K : map fst ((t, v) :: r) = l3) by (rewrite E3; apply Mf). cbn in K. rewrite K. reflexivity. }
      split; [|split; [exact S|split; [exact E|]]].
      + rewrite P. apply (Permutation_map fst) in P1. rewrite Mf in P1. exact P1.
      + cbn [map] in K. injection K as _ K. rewrite <- K. exact A. }
  destruct (G (fun _ => 0%Q) grid (Permutation_refl _)) as (t & r & _ & P & S & _). exists t, r. split; [exact P|]. split; [exact S|].
  intros f l Pl. destruct (G f l Pl) as (t' & r' & a & P' & S' & E & A). exists a. split; [exact E|].
  assert (K : t :: r = t' :: r') by (apply sorted_eq; auto; rewrite <- P, <- P'; reflexivity). injection K as <- <-. exact A.
Qed.

Lemma step_le (f g : Z -> Q) : forall r p, StronglySorted Z.lt (p :: r) -> (forall t, In t r -> (f t <= g t)%Q) ->
  (step p (map (fun t => (t, f t)) r) <= step p (map (fun t => (t, g t)) r))%Q.
Proof.
  induction r as [|t r IH]; intros p S B; [apply Qle_refl|]. cbn [map step]. inversion S as [|? ? S1 S2]; subst. apply Forall_cons_iff in S2 as [S2 _].
  specialize (IH t S1 (fun t H => B t (or_intror H))). specialize (B t (or_introl eq_refl)).
  assert (Hd : (0 <= inject_Z (t - p))%Q) by (change 0%Q with (inject_Z 0); rewrite <- Zle_Qle; lia). nra.
Qed.
Lemma step_linear (f : Z -> Q) a b : forall r p,
  (step p (map (fun t => (t, a * f t + b)%Q) r) == a * step p (map (fun t => (t, f t)) r) + b * inject_Z (last r p - p))%Q.
Proof.
  induction r as [|t r IH]; intros p; [cbn; rewrite Z.sub_diag; ring|]. cbn [map step].
  assert (Hl : last (t :: r) p = last r t) by apply last_shift.
  rewrite Hl, IH. replace (last r t - p)%Z with (last r t - t + (t - p))%Z by lia. rewrite inject_Z_plus. ring.
Qed.
Lemma step_ext (f g : Z -> Q) : forall r p, (forall t, In t r -> (f t == g t)%Q) ->
  (step p (map (fun t => (t, f t)) r) == step p (map (fun t => (t, g t)) r))%Q.
Proof. induction r as [|t r IH]; intros p H; [reflexivity|]. cbn [map step]. rewrite (IH t) by (intros; apply H; right; assumption). rewrite (H t) by (left; reflexivity). reflexivity. Qed.
Lemma step_Qsum {A} (f : A -> Z -> Q) l : forall r p,
  (step p (map (fun t => (t, Qsum (map (fun i => f i t) l))) r) == Qsum (map (fun i => step p (map (fun t => (t, f i t)) r)) l))%Q.
Proof.
  induction r as [|t r IH]; intros p; cbn [map step].
  - rewrite Qsum_const. ring.
  - rewrite IH, Qsum_plus, Qsum_scale. reflexivity.
Qed.

Lemma function_spans grid t r first lst : Permutation grid (t :: r) -> StronglySorted Z.lt (t :: r) ->
  spans (map (fun t => (t, 0%Q)) grid) first lst -> t = first /\ last r t = lst.
Proof.
  intros P S Sp. destruct (spans_sorted (map (fun t => (t, 0%Q)) grid) t 0%Q (map (fun t => (t, 0%Q)) r) first lst) as (A & B).
  - change ((t, 0%Q) :: map (fun t => (t, 0%Q)) r) with (map (fun t => (t, 0%Q)) (t :: r)). apply Permutation_map, P.
  - rewrite map_map. cbn. rewrite map_id. exact S.
  - exact Sp.
  - rewrite map_map in B. cbn in B. rewrite map_id in B. auto.
Qed.

Lemma auc_monotone srt grid f g : sorts_by_time srt -> NoDup grid -> grid <> [] -> (forall t, In t grid -> (f t <= g t)%Q) ->
  exists a b, auc srt (complete (map (fun t => (t, f t)) grid)) = Ok (Some a) /\
    auc srt (complete (map (fun t => (t, g t)) grid)) = Ok (Some b) /\ (a <= b)%Q.
Proof.
  intros H N Hne B. destruct (auc_of_function srt grid N Hne H) as (t & r & P & S & G).
  destruct (G f grid (Permutation_refl _)) as (a & Ea & A). destruct (G g grid (Permutation_refl _)) as (b & Eb & Bb).
  exists a, b. split; [exact Ea|]. split; [exact Eb|]. rewrite A, Bb. apply step_le; [exact S|].
  intros u Hu. apply B. eapply Permutation_in; [apply Permutation_sym, P|right; exact Hu].
Qed.
Lemma auc_linear srt grid f k b first lst : sorts_by_time srt -> NoDup grid -> spans (map (fun t => (t, f t)) grid) first lst ->
  exists x y, auc srt (complete (map (fun t => (t, f t)) grid)) = Ok (Some x) /\
    auc srt (complete (map (fun t => (t, k * f t + b)%Q) grid)) = Ok (Some y) /\ (y == k * x + b * inject_Z (lst - first))%Q.
Proof.
  intros H N Sp. assert (Hne : grid <> []) by (intros ->; destruct Sp as ([] & _)).
  destruct (auc_of_function srt grid N Hne H) as (t & r & P & S & G).
  destruct (G f grid (Permutation_refl _)) as (x & Ex & X). destruct (G (fun t => k * f t + b)%Q grid (Permutation_refl _)) as (y & Ey & Y).
  exists x, y. split; [exact Ex|]. split; [exact Ey|]. rewrite X, Y, step_linear.
  assert (Sp' : spans (map (fun t => (t, 0%Q)) grid) first lst) by (unfold spans in *; rewrite map_map in *; exact Sp).
  destruct (function_spans _ _ _ _ _ P S Sp') as (-> & ->). reflexivity.
Qed.

Lemma auc_first_ignored srt grid f g first lst : sorts_by_time srt -> NoDup grid -> spans (map (fun t => (t, f t)) grid) first lst ->
  (forall t, In t grid -> t <> first -> (f t == g t)%Q) ->
  exists a b, auc srt (complete (map (fun t => (t, f t)) grid)) = Ok (Some a) /\
    auc srt (complete (map (fun t => (t, g t)) grid)) = Ok (Some b) /\ (a == b)%Q.
Proof.
  intros H N Sp B. assert (Hne : grid <> []) by (intros ->; destruct Sp as ([] & _)).
  destruct (auc_of_function srt grid N Hne H) as (t & r & P & S & G).
  destruct (G f grid (Permutation_refl _)) as (x & Ex & X). destruct (G g grid (Permutation_refl _)) as (y & Ey & Y).
  exists x, y. split; [exact Ex|]. split; [exact Ey|]. rewrite X, Y. apply step_ext. intros u Hu. apply B.
  - eapply Permutation_in; [apply Permutation_sym, P|right; exact Hu].
  - assert (Sp' : spans (map (fun t => (t, 0%Q)) grid) first lst) by (unfold spans in *; rewrite map_map in *; exact Sp).
    destruct (function_spans _ _ _ _ _ P S Sp') as (<- & _). inversion S as [|? ? S1 S2]; subst. rewrite Forall_forall in S2. apply S2 in Hu. lia.
Qed.

(** missing values *)
Lemma all_present_none l : (exists s, In s l /\ (fst s = None \/ snd s = None)) -> all_present l = None.
Proof.
  induction l as [|[[t|] [v|]] l IH]; intros (s & Hs & H); [destruct Hs| | | |]; try reflexivity.
  cbn. destruct Hs as [<-|Hs]; [cbn in H; destruct H; discriminate|]. rewrite IH; [reflexivity|]. exists s. auto.
Qed.
Lemma auc_missing srt df : sorts_by_time srt ->
  (df = [] -> auc srt df = Err ValueError) /\
  ((exists s, In s df /\ (fst s = None \/ snd s = None)) -> auc srt df = Ok None).
Proof.
  intros H. destruct (H df) as (P & _). split.
  - intros ->. apply Permutation_nil in P. unfold auc. rewrite P. reflexivity.
  - intros (s & Hs & K). apply (Permutation_in _ P) in Hs. rewrite auc_eq by (intros E; rewrite E in Hs; destruct Hs). rewrite all_present_none; [reflexivity|]. exists s. auto.
Qed.
