(** Scalar individuals: comparison theorems, best-so-far probes, selection operators. *)
From Coq Require Import Lia Lqa Permutation Sorted.
From Verif Require Import Model.Base Model.PyList Model.Scalar Model.Probe Model.Selection
  Spec.Order Spec.Selection Proofs.Order Proofs.PyList.

(** ** C01-C03 *)
Lemma ind_lt_spec mx coin a b :
  viable (si_fit a) \/ viable (si_fit b) ->
  (ind_lt mx coin a b = true <-> better mx (si_fit b) (si_fit a)).
Proof. intros H. unfold ind_lt. apply worse_than_spec, H. Qed.

Lemma ind_ge_spec mx coin a b :
  viable (si_fit a) \/ viable (si_fit b) ->
  (ind_ge mx coin a b = true <-> ~ better mx (si_fit b) (si_fit a)).
Proof.
  intros Hv. rewrite <- (ind_lt_spec mx coin a b Hv).
  unfold ind_ge. destruct (ind_lt mx coin a b); simpl; intuition congruence.
Qed.

Lemma ind_lt_spec_false mx coin a b :
  viable (si_fit a) \/ viable (si_fit b) ->
  (ind_lt mx coin a b = false <-> ~ better mx (si_fit b) (si_fit a)).
Proof.
  intros H. rewrite <- (ind_lt_spec mx coin a b H). symmetry. apply not_true_iff_false.
Qed.

Lemma ind_lt_swo mx coin :
  strict_weak_order_on (fun a => viable (si_fit a)) (ind_lt mx coin).
Proof.
  split; [|split; [|split]].
  - intros x Hx. apply ind_lt_spec_false; [tauto|]. apply better_irrefl.
  - intros x y Hx Hy H. apply ind_lt_spec in H; [|tauto].
    apply ind_lt_spec_false; [tauto|]. apply better_asym, H.
  - intros x y z Hx Hy Hz H1 H2. apply ind_lt_spec in H1; [|tauto].
    apply ind_lt_spec in H2; [|tauto]. apply ind_lt_spec; [tauto|].
    eapply better_trans; eassumption.
  - intros x y z Hx Hy Hz H1 H2 H3 H4.
    apply ind_lt_spec_false in H1; [|tauto]. apply ind_lt_spec_false in H2; [|tauto].
    apply ind_lt_spec_false in H3; [|tauto]. apply ind_lt_spec_false in H4; [|tauto].
    split; (apply ind_lt_spec_false; [tauto|]); intros Hb;
      apply (better_split _ _ (si_fit y)) in Hb; tauto.
Qed.

Lemma nan_worse mx coin a b :
  ~ viable (si_fit a) -> viable (si_fit b) ->
  ind_lt mx coin a b = true /\ ind_lt mx coin b a = false.
Proof.
  intros Ha Hb. split.
  - apply ind_lt_spec; [tauto|]. unfold better, viable in *.
    destruct (num_val (si_fit b)), (num_val (si_fit a)); try tauto; exfalso; apply Ha; congruence.
  - apply ind_lt_spec_false; [tauto|]. unfold better, viable in *.
    destruct (num_val (si_fit a)); [exfalso; apply Ha; congruence|tauto].
Qed.

Lemma best_of_gen_spec mx coin pop x :
  best_of_gen mx coin pop = Ok x ->
  In x pop /\ forall y, In y pop ->
    better mx (si_fit y) (si_fit x) -> within_rel tol (si_fit y) (si_fit x).
Proof.
  unfold best_of_gen, pymax. destruct pop as [|c l]; intros H; [discriminate|].
  injection H as <-. split; [apply pymax_from_in|].
  intros y Hy. exact (pymax_from_almost mx coin l c [] (fun y H => match H with end) y Hy).
Qed.

Lemma best_of_gen_total mx coin pop : pop <> [] -> exists x, best_of_gen mx coin pop = Ok x.
Proof. destruct pop; [congruence|]. unfold best_of_gen, pymax. eauto. Qed.

Lemma best_of_gen_total' mx coin pop : (pop <> [] -> exists x, best_of_gen mx coin pop = Ok x) /\
  (forall e, best_of_gen mx coin pop = Err e -> pop = [] /\ e = AssertionError).
Proof. split; [apply best_of_gen_total|]. destruct pop; cbn; intros e E; [injection E as <-; auto|discriminate]. Qed.

Lemma best_of_gen_viable mx coin pop x :
  best_of_gen mx coin pop = Ok x ->
  (exists y, In y pop /\ viable (si_fit y)) -> viable (si_fit x).
Proof.
  intros H (y & Hy & Vy). destruct (best_of_gen_spec _ _ _ _ H) as [_ Hb].
  destruct (isnan (si_fit x)) eqn:E; [|apply viable_isnan, E].
  exfalso. apply isnan_val in E.
  assert (Hbet : better mx (si_fit y) (si_fit x)).
  { unfold better, viable in *. rewrite E. destruct (num_val (si_fit y)); [exact I|congruence]. }
  apply Hb in Hbet; [|assumption]. apply within_rel_nan in Hbet. destruct Hbet as [_ Hv].
  unfold viable in Hv. congruence.
Qed.

Lemma gt_lt_agree mx coin coin' a b :
  viable (si_fit a) \/ viable (si_fit b) ->
  (ind_gt mx coin a b = ind_lt mx coin' b a <->
   ~ (better mx (si_fit a) (si_fit b) /\ blurred (si_fit a) (si_fit b))).
Proof.
  intros Hv. assert (Hv' : viable (si_fit b) \/ viable (si_fit a)) by tauto.
  assert (G := ind_gt_spec mx coin a b Hv). assert (L := ind_lt_spec mx coin' b a Hv').
  unfold clearly_better in G. split.
  - intros E [Hb Hbl]. apply L in Hb. rewrite Hb in E. apply G in E. tauto.
  - intros H. apply eq_true_iff_eq. rewrite G, L. tauto.
Qed.

(** ** exactness on sharp lists *)
Definition nbi (mx : bool) (x y : sind) : Prop := not_better mx (si_fit x) (si_fit y).

Lemma nbi_trans mx x y z : nbi mx x y -> nbi mx y z -> nbi mx x z.
Proof.
  unfold nbi, not_better. intros H1 H2 H. apply (better_split _ _ (si_fit y)) in H. tauto.
Qed.

Lemma nbi_total mx x y : nbi mx x y \/ nbi mx y x.
Proof.
  unfold nbi, not_better. destruct (better_dec mx (si_fit x) (si_fit y)) as [H|H]; [|tauto].
  right. apply better_asym, H.
Qed.

Lemma ind_lt_true mx coin x y : ind_lt mx coin x y = true -> nbi mx x y.
Proof. apply worse_than_true. Qed.

Lemma ind_lt_false mx coin x y : ind_lt mx coin x y = false -> nbi mx y x.
Proof. apply worse_than_false. Qed.

Lemma ind_gt_nb mx coin x y : ind_gt mx coin x y = true -> nbi mx y x.
Proof.
  intros H. apply ind_gt_true in H. destruct H as [H|[H1 H2]].
  - apply better_asym, H.
  - intros Hb. apply better_viable in Hb. tauto.
Qed.

Lemma ind_gt_false_sharp mx coin (l : list sind) x y :
  sharp (map si_fit l) -> In x l -> In y l -> ind_gt mx coin x y = false -> nbi mx x y.
Proof.
  intros Hs Hx Hy H Hb. assert (Hv := better_viable _ _ _ Hb).
  assert (Hn : ~ clearly_better mx (si_fit x) (si_fit y)).
  { intros Hc. apply (ind_gt_spec mx coin x y) in Hc; [congruence|tauto]. }
  apply Hn. split; [exact Hb|]. intros Hbl.
  apply (Hs _ _ mx) in Hbl; [tauto| |]; apply in_map; assumption.
Qed.

Lemma ind_eq_sharp mx (l : list sind) x y :
  sharp (map si_fit l) -> In x l -> In y l -> ind_eq x y = true ->
  nbi mx x y /\ nbi mx y x.
Proof.
  intros Hs Hx Hy H. unfold ind_eq in H. apply equivalent_spec in H.
  destruct H as [H|(_ & _ & H)]; [|apply H].
  assert (In (si_fit x) (map si_fit l)) by (apply in_map; assumption).
  assert (In (si_fit y) (map si_fit l)) by (apply in_map; assumption).
  split; [apply (Hs _ _ mx); assumption|].
  apply (Hs _ _ mx); try assumption. destruct H as (P1 & P2 & H).
  split; [exact P2|split; [exact P1|apply within_rel_sym, H]].
Qed.

Lemma topk_sind_best mx coin sized k l :
  sharp (map si_fit l) ->
  best_selection (nbi mx) k l (topk (ind_lt mx coin) (ind_gt mx coin) ind_eq sized k l).
Proof.
  intros Hs. apply (topk_best (nbi mx) (fun x => In x l)).
  - apply nbi_trans.
  - apply nbi_total.
  - intros x y _ _. apply ind_lt_true.
  - intros x y _ _. apply ind_lt_false.
  - intros x y _ _. apply ind_gt_nb.
  - intros x y Hx Hy. apply (ind_gt_false_sharp mx coin l); assumption.
  - intros x y Hx Hy H. apply (ind_eq_sharp mx l x y); assumption.
  - apply Forall_forall. auto.
Qed.

Lemma sharp_incl l l' : incl l' l -> sharp l -> sharp l'.
Proof. intros Hi Hs f g mx Hf Hg. apply Hs; apply Hi; assumption. Qed.

Lemma topk_ext {A} (lt lt' gt gt' eq : A -> A -> bool) sized k l :
  (forall x y, In x l -> In y l -> lt x y = lt' x y) ->
  (forall x y, In x l -> In y l -> gt x y = gt' x y) ->
  topk lt gt eq sized k l = topk lt' gt' eq sized k l.
Proof.
  intros Hl Hg. destruct k as [|[|k]]; [reflexivity| |].
  - cbn [topk]. destruct l as [|x l]; [reflexivity|]. f_equal.
    assert (Ext : forall l' c, incl (c :: l') (x :: l) -> pymax_from gt c l' = pymax_from gt' c l').
    { induction l' as [|y l' IH]; intros c Hc; cbn [pymax_from]; [reflexivity|].
      rewrite (Hg y c) by (apply Hc; simpl; tauto).
      destruct (gt' y c); apply IH; intros w [<-|Hw]; apply Hc; simpl; tauto. }
    apply Ext, incl_refl.
  - unfold topk. rewrite (sort_desc_ext lt lt' l Hl).
    rewrite (sort_desc_ext (fun x y => negb (eq x y) && lt x y) (fun x y => negb (eq x y) && lt' x y)).
    + reflexivity.
    + intros x y Hx Hy. rewrite Hl by assumption. reflexivity.
Qed.

Lemma ties_weaken {A} (t1 t2 : A -> A -> Prop) l r :
  (forall x y, t1 x y <-> t2 x y) -> ties_favor_earlier t1 l r -> ties_favor_earlier t2 l r.
Proof. intros He H x f Hf. apply (H x). intros y. rewrite Hf. symmetry. apply He. Qed.

Lemma lt0_cases mx x y :
  ind_lt mx (fun _ _ => false) x y = true <-> better mx (si_fit y) (si_fit x).
Proof.
  destruct (isnan (si_fit x)) eqn:Ex, (isnan (si_fit y)) eqn:Ey.
  - unfold ind_lt, worse_than. rewrite Ex, Ey. split; [discriminate|].
    apply isnan_val in Ey. unfold better. rewrite Ey. tauto.
  - apply ind_lt_spec. right. apply viable_isnan, Ey.
  - apply ind_lt_spec. left. apply viable_isnan, Ex.
  - apply ind_lt_spec. left. apply viable_isnan, Ex.
Qed.

Lemma lt0_cases_false mx x y :
  ind_lt mx (fun _ _ => false) x y = false <-> ~ better mx (si_fit y) (si_fit x).
Proof. rewrite <- lt0_cases. symmetry. apply not_true_iff_false. Qed.

(** Ties, when all individuals are numeric and sharp. *)
Lemma topk_sind_ties mx coin sized k l :
  sharp (map si_fit l) -> Forall (fun x => viable (si_fit x)) l ->
  ties_favor_earlier (fun x y => same_value mx (si_fit x) (si_fit y)) l
    (topk (ind_lt mx coin) (ind_gt mx coin) ind_eq sized k l).
Proof.
  intros Hs Hv. rewrite Forall_forall in Hv.
  set (lt0 := ind_lt mx (fun _ _ => false)).
  assert (El : forall x y, In x l -> In y l -> ind_lt mx coin x y = lt0 x y).
  { intros x y Hx Hy. apply eq_true_iff_eq. unfold lt0. rewrite lt0_cases.
    apply ind_lt_spec. left; auto. }
  rewrite (topk_ext _ lt0 _ (ind_gt mx coin) _ _ _ _ El) by reflexivity.
  apply (ties_weaken (fun x y => lt0 x y = false /\ lt0 y x = false)).
  { intros x y. unfold lt0, same_value. rewrite !lt0_cases_false. tauto. }
  apply ties_spec. apply topk_ties.
  - intros x y z H1 H2. unfold lt0 in *. rewrite lt0_cases in *. eapply better_trans; eassumption.
  - intros x y z H1. unfold lt0 in *. rewrite !lt0_cases; apply lt0_cases in H1.
    apply (better_split _ _ (si_fit y)) in H1. tauto.
  - intros x y Hx Hy. apply eq_true_iff_eq. unfold lt0. rewrite lt0_cases.
    rewrite ind_gt_spec by (left; auto). unfold clearly_better.
    split; [tauto|]. intros Hb. split; [exact Hb|]. intros Hbl.
    apply (Hs _ _ mx) in Hbl; [tauto| |]; apply in_map; assumption.
  - intros x y Hx Hy H. unfold lt0. apply lt0_cases_false.
    apply (ind_eq_sharp mx l x y Hs Hx Hy H).
Qed.

Definition pool_of {A} (offspring : list A) (parents : option (list A)) : list A :=
  offspring ++ match parents with Some ps => ps | None => [] end.

Lemma truncation_eq {A} (lt gt eq : A -> A -> bool) offspring size parents :
  exists sized, truncation_selection lt gt eq offspring size parents =
    topk lt gt eq sized size (pool_of offspring parents).
Proof.
  unfold truncation_selection, pool_of. destruct parents; eexists; rewrite ?app_nil_r; reflexivity.
Qed.

(** ** C10 *)
Lemma best_selection_incl {A} (nb : A -> A -> Prop) k l r : best_selection nb k l r -> incl r l.
Proof.
  intros (_ & _ & rest & Hp & _) x Hx. apply (Permutation_in x (Permutation_sym Hp)).
  apply in_or_app. auto.
Qed.

Lemma best_selection_top {A} (nb : A -> A -> Prop) k l r :
  (forall x, nb x x) -> (forall x y z, nb x y -> nb y z -> nb x z) ->
  best_selection nb k l r -> k <> 0 -> forall x, In x l -> exists y, In y r /\ nb x y.
Proof.
  intros Hr Ht (Hlen & Hs & rest & Hp & Hd) Hk x Hx.
  apply (Permutation_in x Hp) in Hx. apply in_app_iff in Hx. destruct Hx as [Hx|Hx]; [eauto|].
  destruct r as [|y r].
  - exfalso. apply Permutation_length in Hp. simpl in Hlen.
    assert (length l <> 0) by (rewrite Hp; destruct rest; simpl; [tauto|discriminate]). lia.
  - exists y. split; [simpl; tauto|]. apply Hd; simpl; auto.
Qed.

Lemma elitist_spec mx coin offspring parents k :
  sharp (map si_fit (offspring ++ parents)) ->
  exists elites,
    best_selection (nbi mx) k parents elites /\
    best_selection (nbi mx) (length offspring) (offspring ++ elites)
      (fst (elitist_survival (ind_lt mx coin) (ind_gt mx coin) ind_eq offspring parents k)) /\
    snd (elitist_survival (ind_lt mx coin) (ind_gt mx coin) ind_eq offspring parents k)
      = offspring ++ elites.
Proof.
  intros Hs. unfold elitist_survival. simpl.
  set (el := topk (ind_lt mx coin) (ind_gt mx coin) ind_eq true k parents).
  assert (Hel : best_selection (nbi mx) k parents el).
  { apply topk_sind_best. eapply sharp_incl; [|exact Hs].
    apply incl_map. apply incl_appr, incl_refl. }
  exists el. split; [exact Hel|]. split; [|reflexivity].
  apply topk_sind_best. eapply sharp_incl; [|exact Hs].
  apply incl_map. apply incl_app; [apply incl_appl, incl_refl|].
  apply incl_appr. eapply best_selection_incl; exact Hel.
Qed.

Lemma elitist_keeps_best mx coin offspring parents k :
  sharp (map si_fit (offspring ++ parents)) -> 1 <= k -> offspring <> [] ->
  let survivors := fst (elitist_survival (ind_lt mx coin) (ind_gt mx coin) ind_eq offspring parents k) in
  length survivors = length offspring /\
  incl survivors (offspring ++ parents) /\
  forall x, In x (offspring ++ parents) -> exists y, In y survivors /\ nbi mx x y.
Proof.
  intros Hs Hk Ho survivors. destruct (elitist_spec mx coin offspring parents k Hs) as (el & H1 & H2 & _).
  fold survivors in H2.
  assert (Hr : forall x, nbi mx x x) by (intros x; apply better_irrefl).
  split; [|split].
  - destruct H2 as (Hl & _). rewrite Hl, app_length. lia.
  - intros x Hx. apply best_selection_incl in H1, H2. apply H2 in Hx.
    rewrite in_app_iff in *. destruct Hx as [Hx|Hx]; [tauto|right; apply H1, Hx].
  - assert (Htop : forall x, In x (offspring ++ el) -> exists y, In y survivors /\ nbi mx x y).
    { apply (best_selection_top _ _ _ _ Hr (nbi_trans mx) H2). destruct offspring; simpl; congruence. }
    intros x Hx. apply in_app_iff in Hx. destruct Hx as [Hx|Hx].
    + apply Htop. apply in_or_app; auto.
    + destruct (best_selection_top _ _ _ _ Hr (nbi_trans mx) H1 ltac:(lia) x Hx) as (y & Hy & Hxy).
      destruct (Htop y) as (z & Hz & Hyz); [apply in_or_app; auto|].
      exists z. split; [exact Hz|]. eapply nbi_trans; eassumption.
Qed.

(** ** C13 *)
Lemma pymax_from_map {A B} (f : B -> A) (gt : A -> A -> bool) l : forall c,
  f (pymax_from (fun i j => gt (f i) (f j)) c l) = pymax_from gt (f c) (map f l).
Proof.
  induction l as [|x l IH]; intros c; cbn [pymax_from map]; [reflexivity|].
  rewrite IH. destruct (gt (f x) (f c)); reflexivity.
Qed.

Lemma pymin_from_map {A B} (f : B -> A) (lt : A -> A -> bool) l : forall c,
  f (pymin_from (fun i j => lt (f i) (f j)) c l) = pymin_from lt (f c) (map f l).
Proof.
  induction l as [|x l IH]; intros c; cbn [pymin_from map]; [reflexivity|].
  rewrite IH. destruct (lt (f x) (f c)); reflexivity.
Qed.

Lemma pymax_sharp mx coin c l :
  sharp (map si_fit (c :: l)) ->
  forall y, In y (c :: l) -> nbi mx y (pymax_from (ind_gt mx coin) c l).
Proof.
  intros Hs. assert (G := pymax_from_ge (nbi mx) (fun x => In x (c :: l)) (ind_gt mx coin)
    (nbi_trans mx) (nbi_total mx) (fun x y _ _ => ind_gt_nb mx coin x y)
    (fun x y Hx Hy => ind_gt_false_sharp mx coin (c :: l) x y Hs Hx Hy) l c (or_introl eq_refl)).
  destruct G as [G1 G2]; [apply Forall_forall; simpl; auto|].
  rewrite Forall_forall in G2. intros y [<-|Hy]; [exact G1|apply G2, Hy].
Qed.

Lemma tournament_spec mx coin population select_worst choices indices :
  choices <> [] -> Forall (fun i => i < length population) choices ->
  exists i x,
    tournament_turn (ind_lt mx coin) (ind_gt mx coin) population select_worst choices indices
      = Ok (x, match indices with None => None | Some _ => Some [i] end) /\
    In i choices /\ nth_error population i = Some x /\
    forall j y, In j choices -> nth_error population j = Some y ->
      if select_worst then ~ better mx (si_fit x) (si_fit y)
      else (better mx (si_fit y) (si_fit x) -> within_rel tol (si_fit y) (si_fit x)) /\
           (sharp (map si_fit population) -> ~ better mx (si_fit y) (si_fit x)).
Proof.
  intros Hne Hin. unfold tournament_turn.
  destruct population as [|d pop'] eqn:Ep.
  { destruct choices; [congruence|]. inversion Hin; simpl in *; lia. }
  rewrite <- Ep in *. clear Ep pop'.
  destruct choices as [|c cs]; [congruence|]. clear Hne.
  set (f := fun i => nth i population d).
  rewrite Forall_forall in Hin.
  assert (Hf : forall j y, nth_error population j = Some y -> f j = y)
    by (intros j y H; apply nth_error_nth, H).
  destruct select_worst.
  - set (i := pymin_from (judge (ind_lt mx coin) (ind_gt mx coin) true population d) c cs).
    assert (Hi : In i (c :: cs)) by apply pymin_from_in.
    assert (Hn : nth_error population i = Some (f i)).
    { apply nth_error_nth'. apply Hin, Hi. }
    rewrite Hn. exists i, (f i). split; [destruct indices; reflexivity|].
    split; [exact Hi|]. split; [exact Hn|].
    intros j y Hj Hy. rewrite <- (Hf j y Hy).
    assert (E : f i = pymin_from (ind_lt mx coin) (f c) (map f cs)).
    { unfold i. apply (pymin_from_map f). }
    rewrite E.
    assert (G := pymin_from_le (nbi mx) (fun _ => True) (ind_lt mx coin)
      (nbi_trans mx) (nbi_total mx) (fun x y _ _ => ind_lt_true mx coin x y)
      (fun x y _ _ => ind_lt_false mx coin x y) (map f cs) (f c) I).
    destruct G as [G1 G2]; [apply Forall_forall; auto|]. rewrite Forall_forall in G2.
    destruct Hj as [<-|Hj]; [exact G1|apply G2, in_map, Hj].
  - set (i := pymax_from (judge (ind_lt mx coin) (ind_gt mx coin) false population d) c cs).
    assert (Hi : In i (c :: cs)) by apply pymax_from_in.
    assert (Hn : nth_error population i = Some (f i)).
    { apply nth_error_nth'. apply Hin, Hi. }
    rewrite Hn. exists i, (f i). split; [destruct indices; reflexivity|].
    split; [exact Hi|]. split; [exact Hn|].
    intros j y Hj Hy. rewrite <- (Hf j y Hy).
    assert (E : f i = pymax_from (ind_gt mx coin) (f c) (map f cs)).
    { unfold i. apply (pymax_from_map f). }
    rewrite E.
    assert (Hjm : In (f j) (f c :: map f cs)).
    { change (f c :: map f cs) with (map f (c :: cs)). apply in_map, Hj. }
    split.
    + exact (pymax_from_almost mx coin (map f cs) (f c) [] (fun y H => match H with end) (f j) Hjm).
    + intros Hs. apply pymax_sharp; [|exact Hjm].
      eapply sharp_incl; [|exact Hs]. apply incl_map.
      change (f c :: map f cs) with (map f (c :: cs)). intros z Hz.
      apply in_map_iff in Hz. destruct Hz as (k & <- & Hk).
      apply nth_In, Hin, Hk.
Qed.

(** ** C14 *)
Lemma set_nth_replaced {A} i (x : A) l : i < length l -> replaced_at i x l (set_nth i x l).
Proof.
  revert l. induction i as [|i IH]; intros [|y l] H; simpl in *; try lia.
  - exists [], y, l. auto.
  - destruct (IH l ltac:(lia)) as (l1 & o & l2 & E1 & E2 & E3).
    exists (y :: l1), o, l2. rewrite E2. simpl. rewrite E1 at 1. rewrite E3. auto.
Qed.

Lemma set_nth_same {A} i (l : list A) d : set_nth i (nth i l d) l = l.
Proof.
  revert l. induction i as [|i IH]; intros [|y l]; simpl; try reflexivity. f_equal. apply IH.
Qed.

Lemma insertion_first mx coin child rest parents i draws :
  viable (si_fit child) ->
  i < length parents -> sharp (map si_fit (child :: parents)) ->
  exists r, insertion_selection (ind_gt mx coin) (child :: rest) parents (i :: draws) = Ok r /\
    each_competes (nbi mx) [child] [i] parents r.
Proof.
  intros Hv Hi Hs. unfold insertion_selection. cbn [hd].
  destruct parents as [|d ps]; [simpl in Hi; lia|].
  remember (d :: ps) as par eqn:Epar.
  eexists. split; [reflexivity|].
  set (p := nth i par d).
  assert (Hp : nth_error par i = Some p) by (apply nth_error_nth', Hi).
  assert (Hpin : In p par) by (apply nth_In, Hi).
  destruct (ind_gt mx coin p child) eqn:E.
  - econstructor; [exact Hp| | |constructor].
    + intros Hnb. exfalso. apply ind_gt_true in E. destruct E as [E|[_ E2]]; [exact (Hnb E)|tauto].
    + intros _. apply set_nth_same.
  - econstructor; [exact Hp| | |constructor].
    + intros _. apply set_nth_replaced, Hi.
    + intros Hn. exfalso. apply Hn.
      apply (ind_gt_false_sharp mx coin (child :: par)); simpl; auto.
Qed.

Lemma set_nth_length {A} i (x : A) l : length (set_nth i x l) = length l.
Proof. revert l. induction i; intros [|y l]; simpl; auto. Qed.

(** No slot ever gets worse (beyond the tolerance) and the length is kept, for any offspring. *)
Lemma insertion_slots mx coin offspring parents draws r :
  insertion_selection (ind_gt mx coin) offspring parents draws = Ok r ->
  length r = length parents /\
  forall j x y, nth_error parents j = Some x -> nth_error r j = Some y ->
    better mx (si_fit x) (si_fit y) -> within_rel tol (si_fit x) (si_fit y).
Proof.
  unfold insertion_selection. destruct offspring as [|child rest]; [discriminate|].
  destruct parents as [|d ps]; [discriminate|].
  remember (d :: ps) as par eqn:Epar. intros H. injection H as <-.
  split; [apply set_nth_length|].
  generalize (hd 0 draws). clear draws. intros i j x y Hx Hy.
  set (p := nth i par d) in *.
  assert (Hcase : x = y \/ (x = p /\ y = if ind_gt mx coin p child then p else child)).
  { unfold p in *. clear p Epar. revert i j Hx Hy.
    generalize (if ind_gt mx coin (nth 0 par d) child then nth 0 par d else child). intros _.
    assert (Gen : forall w i j, nth_error par j = Some x -> nth_error (set_nth i w par) j = Some y ->
              x = y \/ (x = nth i par d /\ y = w)).
    { clear. intros w. induction par as [|z par IH]; intros i j Hx Hy; [destruct j; discriminate|].
      destruct i, j; simpl in *; try (left; congruence).
      - right. split; congruence.
      - apply IH with (j := j); assumption. }
    intros i j Hx Hy. apply (Gen _ i j Hx Hy). }
  destruct Hcase as [->|[-> ->]]; [intros Hb; exfalso; eapply better_irrefl; exact Hb|].
  destruct (ind_gt mx coin p child) eqn:E; [intros Hb; exfalso; eapply better_irrefl; exact Hb|].
  exact (ind_gt_false mx coin p child E).
Qed.

(** ** C05 *)
Lemma within_rel_between2 t mx f g h :
  (0 <= t < 1)%Q ->
  better mx f g -> better mx g h -> within_rel t f h -> within_rel t g h.
Proof.
  intros Ht H1 H2 Hw. destruct (within_rel_nan _ _ _ Hw) as [Vf Vh].
  assert (Vg := better_viable _ _ _ H2).
  apply within_rel_sym. apply (within_rel_between t (negb mx) h g f Ht).
  - revert H2. unfold better. destruct (viable_cases _ Vh) as [? ->], (viable_cases _ Vg) as [? ->].
    destruct mx; tauto.
  - revert H1. unfold better. destruct (viable_cases _ Vf) as [? ->], (viable_cases _ Vg) as [? ->].
    destruct mx; tauto.
  - apply within_rel_sym, Hw.
Qed.

Lemma within_rel_same t mx f g h :
  ~ better mx f g -> ~ better mx g f -> viable f -> viable g -> within_rel t f h -> within_rel t g h.
Proof.
  intros H1 H2 Vf Vg. unfold better, within_rel in *.
  destruct (viable_cases _ Vf) as [x Ex], (viable_cases _ Vg) as [y Ey]. rewrite Ex, Ey in *.
  assert (Hxy : ~ ext_lt x y /\ ~ ext_lt y x) by (destruct mx; tauto).
  destruct x as [|x|], y as [|y|]; simpl in Hxy; try tauto.
  destruct (num_val h) as [[|z|]|]; try exact (fun H => H).
  assert (E : (x == y)%Q) by lra. intros H.
  assert (E1 : (Qabs (x - z) == Qabs (y - z))%Q) by (rewrite E; reflexivity).
  assert (E2 : (t * Qmax (Qabs x) (Qabs z) == t * Qmax (Qabs y) (Qabs z))%Q) by (rewrite E; reflexivity).
  lra.
Qed.

(** going through an intermediate value adds the tolerances *)
Lemma almost_trans t mx c m y :
  (0 <= t)%Q -> (t < 1)%Q -> almost t mx c m -> almost t mx m y -> almost (2 * t) mx c y.
Proof.
  intros Ht0 Ht1 Hcm Hmy Hyc.
  assert (Ht : (0 <= t < 1)%Q) by (split; assumption).
  assert (Hgrow : forall f g, within_rel t f g -> within_rel (2 * t) f g).
  { intros f g. unfold within_rel. destruct (num_val f) as [[|x|]|], (num_val g) as [[|z|]|]; try tauto.
    intros H. assert (Hp : (0 <= Qmax (Qabs x) (Qabs z))%Q).
    { eapply Qle_trans; [apply Qabs_nonneg|apply Q.le_max_l]. }
    assert ((0 <= t * Qmax (Qabs x) (Qabs z))%Q) by (apply Qmult_le_0_compat; assumption).
    lra. }
  destruct (better_dec mx y m) as [Hym|Hym].
  - destruct (better_dec mx m c) as [Hmc|Hmc].
    + specialize (Hcm Hmc). specialize (Hmy Hym).
      revert Hcm Hmy Hyc Hym Hmc. unfold within_rel, better.
      destruct (num_val y) as [[|a|]|], (num_val m) as [[|b|]|], (num_val c) as [[|d|]|];
        try (destruct mx; cbn [ext_lt]; tauto).
      intros H1 H2 H3 H4 H5.
      assert (Hb : (Qmax (Qabs b) (Qabs d) <= Qmax (Qabs a) (Qabs d))%Q /\
                   (Qmax (Qabs a) (Qabs b) <= Qmax (Qabs a) (Qabs d))%Q).
      { assert (Hbb : (Qabs b <= Qmax (Qabs a) (Qabs d))%Q).
        { assert (L1 := Q.le_max_l (Qabs a) (Qabs d)). assert (L2 := Q.le_max_r (Qabs a) (Qabs d)).
          assert (A1 := Qle_Qabs a). assert (A2 := Qle_Qabs d).
          assert (A3 := Qle_Qabs (- a)). assert (A4 := Qle_Qabs (- d)). rewrite Qabs_opp in A3, A4.
          apply Qabs_case; intros _; destruct mx; simpl in *; lra. }
        split; apply Q.max_lub; auto; try apply Q.le_max_l; try apply Q.le_max_r. }
      destruct Hb as [B1 B2].
      assert (M1 : (t * Qmax (Qabs b) (Qabs d) <= t * Qmax (Qabs a) (Qabs d))%Q)
        by (rewrite !(Qmult_comm t); apply Qmult_le_compat_r; assumption).
      assert (M2 : (t * Qmax (Qabs a) (Qabs b) <= t * Qmax (Qabs a) (Qabs d))%Q)
        by (rewrite !(Qmult_comm t); apply Qmult_le_compat_r; assumption).
      assert (T : (Qabs (a - d) <= Qabs (a - b) + Qabs (b - d))%Q).
      { setoid_replace (a - d)%Q with ((a - b) + (b - d))%Q by ring. apply Qabs_triangle. }
      lra.
    + (* y better than m, m not better than c: y between... c at least as good as m *)
      apply Hgrow. specialize (Hmy Hym).
      destruct (better_dec mx c m) as [Hcm'|Hcm'].
      * exact (within_rel_between t mx y c m Ht Hyc Hcm' Hmy).
      * assert (Vm : viable m) by (apply within_rel_nan in Hmy; tauto).
        assert (Vc : viable c).
        { destruct (isnan c) eqn:E; [|apply viable_isnan, E]. exfalso. apply Hmc.
          apply isnan_val in E. unfold better. rewrite E. destruct (viable_cases _ Vm) as [? ->]. exact I. }
        apply within_rel_sym. apply (within_rel_same t mx m c y Hmc Hcm' Vm Vc).
        apply within_rel_sym, Hmy.
  - apply Hgrow.
    assert (Hmc : better mx m c).
    { destruct (better_split mx y m c Hyc) as [H|H]; tauto. }
    specialize (Hcm Hmc).
    destruct (better_dec mx m y) as [Hmy'|Hmy'].
    + exact (within_rel_between2 t mx m y c Ht Hmy' Hyc Hcm).
    + apply (within_rel_same t mx m y c Hmy' Hym); [apply within_rel_nan in Hcm; tauto| |exact Hcm].
      apply better_viable in Hyc. exact Hyc.
Qed.

Lemma almost_grow t t' mx c y : (t <= t')%Q -> almost t mx c y -> almost t' mx c y.
Proof.
  intros Ht H Hb. specialize (H Hb). revert H. unfold within_rel.
  destruct (num_val y) as [[|x|]|], (num_val c) as [[|z|]|]; try tauto.
  intros H. eapply Qle_trans; [exact H|]. apply Qmult_le_compat_r; [exact Ht|].
  eapply Qle_trans; [apply Qabs_nonneg|apply Q.le_max_l].
Qed.

Lemma bsf_update_in mx coin old ind : bsf_update mx coin old ind = ind \/
  (exists b, old = Some b /\ bsf_update mx coin old ind = b).
Proof. destruct old as [b|]; simpl; [destruct (ind_gt mx coin ind b); eauto|auto]. Qed.

(** not regressing, not missing the newcomer *)
Lemma bsf_update_spec mx coin old ind t :
  (0 <= t)%Q -> (t < 1)%Q ->
  let b' := bsf_update mx coin old ind in
  (forall b, old = Some b -> nbi mx b b') /\
  (forall y, match old with Some b => almost t mx (si_fit b) (si_fit y) | None => False end ->
     almost t mx (si_fit b') (si_fit y)) /\
  almost tol mx (si_fit b') (si_fit ind).
Proof.
  intros Ht0 Ht1. destruct old as [b|]; simpl.
  - destruct (ind_gt mx coin ind b) eqn:E.
    + split; [|split].
      * intros b0 H. injection H as <-. eapply ind_gt_nb, E.
      * intros y Hy. destruct (ind_gt_true _ _ _ _ E) as [Hb|[_ Hn]].
        -- eapply almost_step; [split; eassumption|exact Hy|exact Hb].
        -- eapply almost_nan; eassumption.
      * apply almost_refl.
    + split; [|split].
      * intros b0 H. injection H as <-. apply better_irrefl.
      * auto.
      * eapply ind_gt_false, E.
  - split; [|split]; [discriminate|tauto|apply almost_refl].
Qed.

(** state after a history, relative to all individuals seen *)
Definition bsf_inv (t : Q) (mx : bool) (seen : list sind) (st : bsf_state) : Prop :=
  match bsf st with
  | None => seen = []
  | Some b => In b seen /\ forall y, In y seen -> almost t mx (si_fit b) (si_fit y)
  end.

(** rows never regress: each row's value is not worse than every earlier row's *)
Definition rows_inv (mx : bool) (st : bsf_state) : Prop :=
  StronglySorted (fun r1 r2 : Z * num => not_better mx (snd r1) (snd r2)) (bsf_rows st) /\
  Forall (fun r => match bsf st with Some b => not_better mx (snd r) (si_fit b) | None => False end)
    (bsf_rows st).

Lemma StronglySorted_snoc {A} (R : A -> A -> Prop) l x :
  StronglySorted R l -> Forall (fun y => R y x) l -> StronglySorted R (l ++ [x]).
Proof.
  induction 1 as [|y l Hs IH Hf]; intros H; simpl; [repeat constructor|].
  inversion H; subst. constructor; [auto|]. apply Forall_app. auto.
Qed.

Lemma nb_trans_num mx f g h : not_better mx f g -> not_better mx g h -> not_better mx f h.
Proof. intros H1 H2 H. destruct (better_split _ _ g _ H) as [H0|H0]; [exact (H1 H0)|exact (H2 H0)]. Qed.

Lemma two_tol : (0 <= 2 * tol)%Q /\ (2 * tol < 1)%Q.
Proof. split; reflexivity || (unfold Qle, Qlt; simpl; lia). Qed.

Lemma rows_step mx coin gen ind st :
  rows_inv mx st ->
  let b := bsf_update mx coin (bsf st) ind in
  rows_inv mx (mk_bsf (Some b) (bsf_rows st ++ [(gen, si_fit b)])).
Proof.
  intros [H1 H2] b. unfold rows_inv. simpl.
  assert (Hall : Forall (fun r : Z * num => not_better mx (snd r) (si_fit b)) (bsf_rows st)).
  { rewrite Forall_forall in *. intros r Hr. specialize (H2 r Hr).
    destruct (bsf st) as [b0|] eqn:E; [|tauto].
    destruct (bsf_update_spec mx coin (Some b0) ind tol (proj1 tol_range) (proj2 tol_range)) as (Hn & _).
    specialize (Hn b0 eq_refl). unfold b. eapply nb_trans_num; eassumption. }
  split.
  - apply StronglySorted_snoc; assumption.
  - apply Forall_app. split; [assumption|]. repeat constructor. apply better_irrefl.
Qed.

Lemma bsf_run_inv mx h : forall seen st,
  Forall (fun i => bi_pop i <> []) h ->
  bsf_inv (2 * tol) mx seen st -> rows_inv mx st ->
  exists st', bsf_run mx h st = Ok (map bi_pop h, st') /\
    bsf_inv (2 * tol) mx (seen ++ concat (map bi_pop h)) st' /\ rows_inv mx st' /\
    (h <> [] -> exists b, bsf st' = Some b /\ last (map snd (bsf_rows st')) NNan = si_fit b) /\
    map fst (bsf_rows st') = map fst (bsf_rows st) ++ map bi_gen h.
Proof.
  induction h as [|i h IH]; intros seen st Hne Hinv Hrows.
  - exists st. simpl. rewrite !app_nil_r. repeat split; try assumption; try reflexivity; try tauto.
    all: apply Hrows.
  - inversion Hne as [|? ? Hi Hne']; subst. cbn [bsf_run].
    unfold bsf_call. destruct (bi_pop i) as [|c l] eqn:Ep; [congruence|]. cbn [pymax bind].
    set (ind := pymax_from (ind_gt mx (bi_coin i)) c l).
    set (b := bsf_update mx (bi_coin i) (bsf st) ind).
    set (st1 := mk_bsf (Some b) (bsf_rows st ++ [(bi_gen i, si_fit b)])).
    assert (Hind : In ind (c :: l)) by apply pymax_from_in.
    assert (Hmax : forall y, In y (c :: l) -> almost tol mx (si_fit ind) (si_fit y)).
    { intros y Hy. exact (pymax_from_almost mx (bi_coin i) l c [] (fun y H => match H with end) y Hy). }
    destruct (bsf_update_spec mx (bi_coin i) (bsf st) ind (2 * tol) (proj1 two_tol) (proj2 two_tol))
      as (_ & U2 & U3). fold b in U2, U3.
    assert (Hinv1 : bsf_inv (2 * tol) mx (seen ++ c :: l) st1).
    { unfold bsf_inv, st1. simpl. split.
      - apply in_or_app. destruct (bsf_update_in mx (bi_coin i) (bsf st) ind) as [E|(b0 & E0 & E)];
          fold b in E; rewrite E; [auto|].
        unfold bsf_inv in Hinv. rewrite E0 in Hinv. left. apply Hinv.
      - intros y Hy. apply in_app_iff in Hy. destruct Hy as [Hy|Hy].
        + apply U2. unfold bsf_inv in Hinv. destruct (bsf st) as [b0|].
          * apply Hinv, Hy.
          * subst seen. destruct Hy.
        + apply (almost_trans tol mx (si_fit b) (si_fit ind) (si_fit y)
                   (proj1 tol_range) (proj2 tol_range) U3 (Hmax y Hy)). }
    assert (Hrows1 : rows_inv mx st1) by (apply rows_step, Hrows).
    destruct (IH (seen ++ c :: l) st1 Hne' Hinv1 Hrows1) as (st' & E & I1 & I2 & I3 & I4).
    exists st'. rewrite E. cbn [bind map concat]. rewrite Ep. cbn [concat]. split; [reflexivity|].
    rewrite <- app_assoc in I1. split; [exact I1|]. split; [exact I2|]. split.
    + intros _. destruct h as [|i' h].
      * simpl in E. injection E as <-. unfold st1. simpl. exists b. split; [reflexivity|].
        rewrite map_app. simpl. apply last_last.
      * apply I3. discriminate.
    + rewrite I4. unfold st1. simpl. rewrite map_app, <- app_assoc. reflexivity.
Qed.

Lemma bsf_pulls_inv mx h : forall seen st,
  bsf_inv tol mx seen st -> rows_inv mx st ->
  exists st', bsf_pulls mx h st = (map pi_ind h, st') /\
    bsf_inv tol mx (seen ++ map pi_ind h) st' /\ rows_inv mx st' /\
    (h <> [] -> exists b, bsf st' = Some b /\ last (map snd (bsf_rows st')) NNan = si_fit b) /\
    map fst (bsf_rows st') = map fst (bsf_rows st) ++ map pi_gen h.
Proof.
  induction h as [|i h IH]; intros seen st Hinv Hrows.
  - exists st. simpl. rewrite !app_nil_r. repeat split; try assumption; try reflexivity; try tauto.
    all: apply Hrows.
  - cbn [bsf_pulls]. unfold bsf_pull.
    set (ind := pi_ind i). set (b := bsf_update mx (pi_coin i) (bsf st) ind).
    set (st1 := mk_bsf (Some b) (bsf_rows st ++ [(pi_gen i, si_fit b)])).
    destruct (bsf_update_spec mx (pi_coin i) (bsf st) ind tol (proj1 tol_range) (proj2 tol_range))
      as (_ & U2 & U3). fold b in U2, U3.
    assert (Hinv1 : bsf_inv tol mx (seen ++ [ind]) st1).
    { unfold bsf_inv, st1. simpl. split.
      - apply in_or_app. destruct (bsf_update_in mx (pi_coin i) (bsf st) ind) as [E|(b0 & E0 & E)];
          fold b in E; rewrite E; [simpl; auto|].
        unfold bsf_inv in Hinv. rewrite E0 in Hinv. left. apply Hinv.
      - intros y Hy. apply in_app_iff in Hy. destruct Hy as [Hy|[<-|[]]]; [|exact U3].
        apply U2. unfold bsf_inv in Hinv. destruct (bsf st) as [b0|].
        + apply Hinv, Hy.
        + subst seen. destruct Hy. }
    assert (Hrows1 : rows_inv mx st1) by (apply rows_step, Hrows).
    destruct (IH (seen ++ [ind]) st1 Hinv1 Hrows1) as (st' & E & I1 & I2 & I3 & I4).
    exists st'. rewrite E. split; [reflexivity|].
    rewrite <- app_assoc in I1. split; [exact I1|]. split; [exact I2|]. split.
    + intros _. destruct h as [|i' h].
      * simpl in E. injection E as <-. unfold st1. simpl. exists b. split; [reflexivity|].
        rewrite map_app. simpl. apply last_last.
      * apply I3. discriminate.
    + rewrite I4. unfold st1. simpl. rewrite map_app, <- app_assoc. reflexivity.
Qed.

Lemma bsf_probe_ok mx h : Forall (fun i => bi_pop i <> []) h ->
  exists st, bsf_run mx h bsf_init = Ok (map bi_pop h, st) /\
    map fst (bsf_rows st) = map bi_gen h /\
    StronglySorted (fun r1 r2 : Z * num => ~ better mx (snd r1) (snd r2)) (bsf_rows st) /\
    (h <> [] -> exists b, bsf st = Some b /\ last (map snd (bsf_rows st)) NNan = si_fit b /\
       In b (concat (map bi_pop h)) /\
       forall y, In y (concat (map bi_pop h)) ->
         better mx (si_fit y) (si_fit b) -> within_rel (2 * tol) (si_fit y) (si_fit b)).
Proof.
  intros Hne.
  destruct (bsf_run_inv mx h [] bsf_init Hne) as (st & E & I & (R & _) & L & G).
  - reflexivity.
  - split; constructor.
  - exists st. split; [exact E|]. split; [exact G|]. split; [exact R|].
    intros Hh. destruct (L Hh) as (b & Eb & Lb). exists b. split; [exact Eb|]. split; [exact Lb|].
    unfold bsf_inv in I. rewrite Eb in I. exact I.
Qed.

Lemma bsf_iter_ok mx h :
  exists st, bsf_pulls mx h bsf_init = (map pi_ind h, st) /\
    map fst (bsf_rows st) = map pi_gen h /\
    StronglySorted (fun r1 r2 : Z * num => ~ better mx (snd r1) (snd r2)) (bsf_rows st) /\
    (h <> [] -> exists b, bsf st = Some b /\ last (map snd (bsf_rows st)) NNan = si_fit b /\
       In b (map pi_ind h) /\
       forall y, In y (map pi_ind h) ->
         better mx (si_fit y) (si_fit b) -> within_rel tol (si_fit y) (si_fit b)).
Proof.
  destruct (bsf_pulls_inv mx h [] bsf_init) as (st & E & I & (R & _) & L & G).
  - reflexivity.
  - split; constructor.
  - exists st. split; [exact E|]. split; [exact G|]. split; [exact R|].
    intros Hh. destruct (L Hh) as (b & Eb & Lb). exists b. split; [exact Eb|]. split; [exact Lb|].
    unfold bsf_inv in I. rewrite Eb in I. exact I.
Qed.

Lemma truncation_best mx coin offspring size parents :
  sharp (map si_fit (pool_of offspring parents)) ->
  best_selection (nbi mx) size (pool_of offspring parents)
    (truncation_selection (ind_lt mx coin) (ind_gt mx coin) ind_eq offspring size parents).
Proof.
  intros Hs. destruct (truncation_eq (ind_lt mx coin) (ind_gt mx coin) ind_eq offspring size parents)
    as (sized & ->). apply topk_sind_best, Hs.
Qed.

Lemma truncation_ties mx coin offspring size parents :
  sharp (map si_fit (pool_of offspring parents)) ->
  Forall (fun x => viable (si_fit x)) (pool_of offspring parents) ->
  ties_favor_earlier (fun x y => same_value mx (si_fit x) (si_fit y)) (pool_of offspring parents)
    (truncation_selection (ind_lt mx coin) (ind_gt mx coin) ind_eq offspring size parents).
Proof.
  intros Hs Hv. destruct (truncation_eq (ind_lt mx coin) (ind_gt mx coin) ind_eq offspring size parents)
    as (sized & ->). apply topk_sind_ties; assumption.
Qed.

(** With a key whose comparison is a strict weak order. *)
Lemma truncation_key {A K} (key : A -> K) (ltk eqk : K -> K -> bool) offspring size parents :
  (forall x, ltk x x = false) ->
  (forall x y z, ltk x y = true -> ltk y z = true -> ltk x z = true) ->
  (forall x y z, ltk x z = true -> ltk x y = true \/ ltk y z = true) ->
  (forall x y, eqk x y = true -> ltk x y = false /\ ltk y x = false) ->
  let lt := fun a b => ltk (key a) (key b) in
  let r := truncation_selection lt (fun a b => lt b a) (fun a b => eqk (key a) (key b))
             offspring size parents in
  best_selection (fun x y => ltk (key y) (key x) = false) size (pool_of offspring parents) r /\
  ties_favor_earlier (fun x y => ltk (key x) (key y) = false /\ ltk (key y) (key x) = false)
    (pool_of offspring parents) r.
Proof.
  intros Hi Ht Hs He lt r.
  assert (Ha : forall x y, ltk x y = true -> ltk y x = false).
  { intros x y H. destruct (ltk y x) eqn:E; [|reflexivity].
    rewrite <- (Hi x). symmetry. exact (Ht _ _ _ H E). }
  destruct (truncation_eq lt (fun a b => lt b a) (fun a b => eqk (key a) (key b)) offspring size parents)
    as (sized & E). unfold r. rewrite E. split.
  - apply (topk_best _ (fun _ => True)).
    + intros x y z H1 H2. destruct (ltk (key z) (key x)) eqn:E'; [|reflexivity].
      destruct (Hs _ (key y) _ E'); congruence.
    + intros x y. destruct (ltk (key y) (key x)) eqn:E'; [right; apply Ha, E'|auto].
    + intros x y _ _ H. apply Ha, H.
    + intros x y _ _ H. exact H.
    + intros x y _ _ H. apply Ha, H.
    + intros x y _ _ H. exact H.
    + intros x y _ _ H. apply He in H. tauto.
    + apply Forall_forall. auto.
  - apply (ties_spec lt). apply topk_ties.
    + intros x y z. apply Ht.
    + intros x y z. apply Hs.
    + reflexivity.
    + intros x y _ _ H. apply He in H. tauto.
Qed.

Lemma random_turn_spec A (population : list A) i indices : i < length population ->
  exists x, nth_error population i = Some x /\
    random_turn population i indices
      = Ok (x, match indices with None => None | Some _ => Some [i] end).
Proof.
  intros H. unfold random_turn. destruct (nth_error population i) as [x|] eqn:E.
  - exists x. split; [reflexivity|]. destruct indices; reflexivity.
  - apply nth_error_None in E. lia.
Qed.
