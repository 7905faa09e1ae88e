(** The NSGA-II generation. *)
From Coq Require Import Lia Lqa Permutation Sorted.
From Verif Require Import Model.Base Model.PyList Model.Selection Model.Pareto Model.Crowding
  Spec.Order Spec.Selection Spec.Pareto Spec.Crowding
  Proofs.Order Proofs.PyList Proofs.Pareto Proofs.RankOrdinal Proofs.Crowding.

Lemma best_selection_weaken {A} (nb nb' : A -> A -> Prop) k l r :
  (forall x y, In x l -> In y l -> nb x y -> nb' x y) ->
  best_selection nb k l r -> best_selection nb' k l r.
Proof.
  intros H (L & S & rest & P & D).
  assert (Hr : forall x, In x r -> In x l).
  { intros x Hx. apply (Permutation_in _ (Permutation_sym P)), in_or_app. left. exact Hx. }
  assert (Hd : forall x, In x rest -> In x l).
  { intros x Hx. apply (Permutation_in _ (Permutation_sym P)), in_or_app. right. exact Hx. }
  split; [exact L|]. split.
  - apply (StronglySorted_weaken (fun x => In x l) (fun x y => nb y x)); [|apply Forall_forall, Hr|exact S].
    intros x y Hx Hy. apply H; assumption.
  - exists rest. split; [exact P|]. intros a b Ha Hb. apply H; auto.
Qed.

Lemma best_selection_perm {A} (nb : A -> A -> Prop) k l l' r :
  Permutation l l' -> best_selection nb k l r -> best_selection nb k l' r.
Proof.
  intros P (L & S & rest & P' & D). split; [rewrite <- (Permutation_length P); exact L|]. split; [exact S|].
  exists rest. split; [rewrite <- P; exact P'|exact D].
Qed.

Section Key.
Variable rank : nat -> nat.
Variable d : nat -> val.

Definition dv (x : mo) : ext := match d (o_id x) with Some e => e | None => MInf end.
Definition pref (x y : mo) : Prop :=
  rank (o_id x) < rank (o_id y) \/ (rank (o_id x) = rank (o_id y) /\ ext_lt (dv y) (dv x)).

Lemma pref_cases x y : pref x y \/ ~ pref x y.
Proof.
  unfold pref. destruct (Nat.lt_trichotomy (rank (o_id x)) (rank (o_id y))) as [H|[H|H]].
  - left. left. exact H.
  - destruct (ext_lt_dec (dv y) (dv x)); [left; right; auto|right; intros [?|[_ ?]]; [lia|contradiction]].
  - right. intros [?|[? _]]; lia.
Qed.

Lemma npref_trans x y z : ~ pref x y -> ~ pref y z -> ~ pref x z.
Proof.
  unfold pref. intros H1 H2 [H|[H H']].
  - destruct (Nat.lt_trichotomy (rank (o_id x)) (rank (o_id y))) as [A|[A|A]]; [tauto| |].
    + apply H2. left. lia.
    + apply H2. left. lia.
  - destruct (Nat.lt_trichotomy (rank (o_id x)) (rank (o_id y))) as [A|[A|A]]; [tauto| |].
    + destruct (ext_lt_split (dv z) (dv y) (dv x) H') as [B|B].
      * apply H2. right. split; [lia|exact B].
      * apply H1. right. auto.
    + apply H2. left. lia.
Qed.

Lemma npref_total x y : ~ pref x y \/ ~ pref y x.
Proof.
  destruct (pref_cases x y) as [H|H]; [right|left; exact H]. unfold pref in *.
  intros [A|[A A']]; destruct H as [B|[B B']]; try lia. exact (ext_lt_irrefl _ (ext_lt_trans _ _ _ A' B')).
Qed.

Definition numeric (x : mo) : Prop := d (o_id x) <> None.

Lemma ext_eqb_nlt a b : ext_eqb a b = true -> ~ ext_lt a b /\ ~ ext_lt b a.
Proof. apply ext_eqb_spec. Qed.

Lemma key_lt_spec x y : numeric x -> numeric y -> (key_lt rank d x y = true <-> pref y x).
Proof.
  unfold numeric, key_lt, pref, dv. destruct (d (o_id x)) as [e|]; [|congruence]. destruct (d (o_id y)) as [f|]; [|congruence].
  intros _ _. destruct (Nat.eqb_spec (rank (o_id x)) (rank (o_id y))) as [E|E].
  - rewrite andb_true_iff, negb_true_iff. simpl. rewrite ext_ltb_lt. split.
    + intros [_ H]. right. auto.
    + intros [H|[_ H]]; [lia|]. split; [|exact H]. destruct (ext_eqb e f) eqn:F; [|reflexivity].
      apply ext_eqb_nlt in F. tauto.
  - rewrite Nat.ltb_lt. split; [auto|]. intros [H|[H _]]; [exact H|congruence].
Qed.

Lemma key_eq_spec x y : numeric x -> numeric y -> key_eq rank d x y = true -> ~ pref x y /\ ~ pref y x.
Proof.
  unfold numeric, key_eq, pref, dv. destruct (d (o_id x)) as [e|]; [|congruence]. destruct (d (o_id y)) as [f|]; [|congruence].
  intros _ _. rewrite andb_true_iff, Nat.eqb_eq. simpl. intros [E F]. apply ext_eqb_nlt in F.
  split; intros [H|[_ H]]; try lia; tauto.
Qed.

Lemma crowded_truncation l k : Forall numeric l ->
  best_selection (fun x y => ~ crowded_better (fun x => rank (o_id x)) (fun x => d (o_id x)) ext_lt x y) k l
    (truncation_selection (key_lt rank d) (fun x y => key_lt rank d y x) (key_eq rank d) l k None).
Proof.
  intros HN. unfold truncation_selection.
  apply (best_selection_weaken (fun x y => ~ pref x y)).
  - intros x y Hx Hy H H'. apply H. rewrite Forall_forall in HN. assert (Nx := HN x Hx). assert (Ny := HN y Hy).
    unfold numeric, crowded_better, pref, dv in *.
    destruct (d (o_id x)); [|congruence]. destruct (d (o_id y)); [|congruence]. exact H'.
  - apply (topk_best _ numeric); [| | | | | | |exact HN].
    + intros x y z. apply npref_trans.
    + intros x y. apply npref_total.
    + intros x y Nx Ny H H'. apply key_lt_spec in H; [|assumption|assumption].
      destruct (npref_total x y); tauto.
    + intros x y Nx Ny H H'. apply (key_lt_spec x y Nx Ny) in H'. congruence.
    + intros x y Nx Ny H H'. apply key_lt_spec in H; [|assumption|assumption].
      destruct (npref_total x y); tauto.
    + intros x y Nx Ny H H'. apply (key_lt_spec y x Ny Nx) in H'. congruence.
    + intros x y Nx Ny H. apply key_eq_spec in H; tauto.
Qed.
End Key.

Definition finite_pool (mx : list bool) (l : list mo) : Prop :=
  NoDup (map o_id l) /\ finite_vectors mx l.

Lemma finite_numeric mx l : finite_vectors mx l -> numeric_vectors mx l.
Proof.
  intros H x Hx. destruct (H x Hx) as [L F]. split; [exact L|]. apply Forall_forall. intros v Hv.
  apply (In_nth _ _ NNan) in Hv. destruct Hv as (k & Hk & Ek). destruct (F k ltac:(lia)) as [q Hq].
  unfold fit_at in Hq. rewrite Ek in Hq. unfold viable. congruence.
Qed.

Lemma varies_dec_list mx l k : finite_vectors mx l -> k < length mx -> varies fval k l \/ ~ varies fval k l.
Proof.
  intros HF Hk. destruct l as [|a l]; [right; intros (x & y & [] & _)|].
  apply varies_dec; [discriminate|]. apply Forall_forall. intros x Hx. apply (HF x Hx). exact Hk.
Qed.

Lemma survival_ok mx parents offspring a :
  mx <> [] -> offspring ++ parents <> [] -> finite_pool mx (offspring ++ parents) ->
  let pool := offspring ++ parents in
  exists next a' crowded dropped,
    nsga2_survival mx parents offspring a = Ok (next, a') /\
    let rank := fun x => at_rank a' (o_id x) in
    let dist := fun x => at_dist a' (o_id x) in
    front_numbers (fun y x => dominates mx (o_fit y) (o_fit x)) pool rank /\
    (forall x, In x pool -> crowding fval (length mx) (same_rank (at_rank a') pool (rank x)) dist) /\
    Permutation pool (crowded ++ dropped) /\
    (forall x, In x crowded -> ~ degenerate (length mx) (same_rank (at_rank a') pool (rank x))) /\
    (forall x, In x dropped -> degenerate (length mx) (same_rank (at_rank a') pool (rank x))) /\
    best_selection (fun x y => ~ crowded_better rank dist ext_lt x y) (length parents) crowded next.
Proof.
  intros Hmx Hne [Hid HF] pool. unfold nsga2_survival.
  destruct (rank_ordinal_correct mx offspring (Some parents) (at_rank a) Hmx Hne) as (rank & Er & FN).
  { intros x y Hx Hy. apply (same_id _ Hid x y Hx Hy). } { apply finite_numeric, HF. }
  rewrite Er. cbn [bind].
  destruct (crowding_calc_ok mx rank (offspring ++ parents) (at_dist a) Hne Hid HF)
    as (crowded & d & Ed & C & (dropped & P & D1 & D2) & _).
  rewrite Ed. cbn [bind]. eexists. exists (mk_attrs rank d), crowded, dropped.
  split; [reflexivity|]. cbn [at_rank at_dist]. split; [exact FN|]. split; [exact C|]. split; [exact P|].
  split; [exact D1|]. split; [exact D2|].
  apply crowded_truncation. apply Forall_forall. intros x Hx.
  assert (Hxp : In x pool) by (apply (Permutation_in _ (Permutation_sym P)), in_or_app; left; exact Hx).
  assert (Hg : finite_vectors mx (same_rank rank pool (rank (o_id x)))).
  { intros y Hy. apply in_same_rank in Hy. apply HF. tauto. }
  destruct (crowding_nonneg (length mx) _ _ x (fun k Hk => varies_dec_list mx _ k Hg Hk) (C x Hxp)) as [E|(q & E & _)].
  - apply in_same_rank. auto.
  - unfold numeric. rewrite E. discriminate.
  - unfold numeric. rewrite E. discriminate.
Qed.

Lemma survival_nondegenerate mx parents offspring a :
  mx <> [] -> offspring ++ parents <> [] -> finite_pool mx (offspring ++ parents) ->
  let pool := offspring ++ parents in
  (forall r, front_numbers (fun y x => dominates mx (o_fit y) (o_fit x)) pool r ->
     forall x, In x pool -> exists y z k, In y pool /\ In z pool /\ k < length mx /\
       r y = r x /\ r z = r x /\ ~ (fval k y == fval k z)%Q) ->
  exists next a',
    nsga2_survival mx parents offspring a = Ok (next, a') /\
    let rank := fun x => at_rank a' (o_id x) in
    let dist := fun x => at_dist a' (o_id x) in
    front_numbers (fun y x => dominates mx (o_fit y) (o_fit x)) pool rank /\
    length next = length parents /\
    best_selection (fun x y => ~ crowded_better rank dist ext_lt x y) (length parents) pool next /\
    exists lost, Permutation pool (next ++ lost) /\
      forall x y, In x next -> In y lost ->
        (forall z, In z pool -> ~ dominates mx (o_fit z) (o_fit y)) ->
        (forall z, In z pool -> ~ dominates mx (o_fit z) (o_fit x)).
Proof.
  intros Hmx Hne Hfin pool Hnd.
  destruct (survival_ok mx parents offspring a Hmx Hne Hfin) as (next & a' & crowded & dropped & E & FN & C & P & D1 & D2 & B).
  fold pool in FN, C, P, D1, D2, B.
  assert (dropped = []).
  { destruct dropped as [|x dr]; [reflexivity|]. exfalso.
    assert (Hx : In x pool) by (apply (Permutation_in _ (Permutation_sym P)), in_or_app; right; left; reflexivity).
    destruct (Hnd _ FN x Hx) as (y & z & k & Hy & Hz & Hk & Ey & Ez & Hv).
    apply (D2 x (or_introl eq_refl) k Hk). exists y, z. rewrite !in_same_rank. auto. }
  subst dropped. rewrite app_nil_r in P.
  assert (B' := best_selection_perm _ _ _ _ _ (Permutation_sym P) B).
  exists next, a'. split; [exact E|]. cbv zeta. split; [exact FN|].
  split; [|split; [exact B'|]].
  - destruct B' as [L _]. rewrite L. unfold pool. rewrite app_length. lia.
  - destruct B' as (_ & _ & lost & Pl & Dl). exists lost. split; [exact Pl|].
    intros x y Hx Hy Hny z Hz Hd.
    assert (Hyp : In y pool) by (apply (Permutation_in _ (Permutation_sym Pl)), in_or_app; right; exact Hy).
    assert (Hxp : In x pool) by (apply (Permutation_in _ (Permutation_sym Pl)), in_or_app; left; exact Hx).
    apply (Dl x y Hx Hy). left. destruct (FN y Hyp) as (_ & _ & [Ry|(w & Hw & Hdw & _)]); [|destruct (Hny w Hw Hdw)].
    destruct (FN x Hxp) as (_ & G & _). specialize (G z Hz Hd). destruct (FN z Hz) as [Gz _]. lia.
Qed.

(** unconditionally, a generation never enlarges the population *)
Lemma topk_length {A} (lt gt eq : A -> A -> bool) sized k l : length (topk lt gt eq sized k l) <= k.
Proof.
  destruct k as [|[|k]]; [simpl; lia|simpl; destruct l; simpl; lia|].
  unfold topk. destruct (_ && _); apply firstn_le_length.
Qed.

Lemma loop_never_grows mx pipeline stop : forall left g parents a final a',
  nsga2_loop mx pipeline stop left g parents a = Ok (final, a') -> length final <= length parents.
Proof.
  induction left as [|left IH]; intros g parents a final a' H; simpl in H.
  - injection H as <- _. lia.
  - destruct (stop g parents); [injection H as <- _; lia|].
    destruct (nsga2_survival mx parents (pipeline g parents) a) as [[next a1]|e] eqn:E; [|discriminate].
    cbn [bind] in H. apply IH in H. unfold nsga2_survival in E.
    destruct (rank_ordinal_sort mx (pipeline g parents) (Some parents) (at_rank a)) as [[pool rank]|e]; [|discriminate].
    cbn [bind] in E. destruct (crowding_distance_calc mx rank pool (at_dist a)) as [[cr d]|e]; [|discriminate].
    cbn [bind] in E. injection E as <- _. unfold truncation_selection in H.
    pose proof (topk_length (key_lt rank d) (fun x y => key_lt rank d y x) (key_eq rank d) true (length parents) cr). lia.
Qed.
