(** The bounded population of the asynchronous NSGA-II. *)
From Coq Require Import Lia Permutation.
From Verif Require Import Model.Base Model.PyList Model.Pareto Model.Crowding Model.Enlu
  Spec.Order Spec.Pareto Spec.Crowding Proofs.Order Proofs.PyList Proofs.Pareto Proofs.RankOrdinal
  Proofs.Crowding Proofs.Nsga2 Proofs.Enlu.

Lemma crowding_ext m L (d1 d2 : mo -> option ext) :
  (forall x, In x L -> d1 x = d2 x) -> crowding fval m L d1 -> crowding fval m L d2.
Proof.
  intros H (arr & A1 & A2). exists arr. split; [exact A1|]. intros x Hx. rewrite <- (H x Hx). apply A2, Hx.
Qed.

Lemma crowd_layers_ok mx : forall seg d, NoDup (map o_id (concat seg)) -> Forall (fun l => l <> []) seg ->
  finite_vectors mx (concat seg) ->
  (forall l, In l seg -> crowding fval (length mx) l (fun x => crowd_layers mx seg d (o_id x))) /\
  (forall i, ~ In i (map o_id (concat seg)) -> crowd_layers mx seg d i = d i).
Proof.
  unfold crowd_layers. induction seg as [|l seg IH]; intros d HN HF HV; simpl.
  - split; [intros l []|reflexivity].
  - simpl in HN, HV. rewrite map_app in HN. apply NoDup_app_disjoint in HN. destruct HN as (N1 & N2 & N3).
    inversion HF as [|? ? Hl HF']; subst.
    destruct (per_rank_ok mx l d Hl N1) as (out & d' & E & C & _ & _ & _ & Fr).
    { intros x Hx. apply HV, in_or_app. left. exact Hx. }
    rewrite E. cbn [snd]. destruct (IH d' N2 HF') as [I1 I2].
    { intros x Hx. apply HV, in_or_app. right. exact Hx. }
    split.
    + intros l' [<-|Hl']; [|apply I1, Hl']. apply (crowding_ext _ _ (fun x => d' (o_id x))); [|exact C].
      intros x Hx. symmetry. apply I2. apply N3, in_map, Hx.
    + intros i Hi. rewrite map_app, in_app_iff in Hi. rewrite I2 by tauto. apply Fr. tauto.
Qed.

(** ** the state between calls *)
Definition good_state (mx : list bool) (st : inserter) : Prop :=
  wf (ins_layers st) (at_rank (ins_attrs st)) /\
  finite_vectors mx (concat (ins_layers st)) /\
  (forall l, In l (ins_layers st) -> crowding fval (length mx) l (fun x => at_dist (ins_attrs st) (o_id x))).

Lemma min_index_spec mx d l : l <> [] -> finite_vectors mx l -> crowding fval (length mx) l (fun x => d (o_id x)) ->
  exists x, nth_error l (min_index d l) = Some x /\
    forall y, In y l -> exists e f, d (o_id x) = Some e /\ d (o_id y) = Some f /\ ~ ext_lt f e.
Proof.
  intros Hne HF HC. destruct l as [|a r]; [congruence|]. unfold min_index.
  replace (length (a :: r) - 1) with (length r) by (simpl; lia). cbn [tl].
  set (lt := fun a0 b : nat * mo => vlt (d (o_id (snd a0))) (d (o_id (snd b)))).
  assert (Hd : forall x, In x (a :: r) -> exists e, d (o_id x) = Some e).
  { intros x Hx. destruct (crowding_nonneg (length mx) (a :: r) (fun y => d (o_id y)) x) as [E|(q & E & _)]; eauto.
    intros k Hk. apply (varies_dec_list mx); assumption. }
  set (P := fun p : nat * mo => exists e, d (o_id (snd p)) = Some e).
  set (nb := fun p q : nat * mo => vlt (d (o_id (snd q))) (d (o_id (snd p))) = false).
  assert (Hc : forall k (r' : list mo), forall p, In p (combine (seq k (length r')) r') -> k <= fst p /\ nth_error r' (fst p - k) = Some (snd p)).
  { clear. intros k r'. revert k. induction r' as [|x r' IH]; intros k p Hp; simpl in Hp; [destruct Hp|].
    destruct Hp as [<-|Hp]; [simpl; rewrite Nat.sub_diag; split; [lia|reflexivity]|].
    destruct (IH (S k) p Hp) as [H1 H2]. split; [lia|]. replace (fst p - k) with (S (fst p - S k)) by lia. exact H2. }
  assert (HPl : Forall P (combine (seq 1 (length r)) r)).
  { apply Forall_forall. intros p Hp. apply Hd. right. apply Hc in Hp. destruct Hp as [_ Hp]. eapply nth_error_In, Hp. }
  assert (G : forall l c, P c -> Forall P l ->
     vlt (d (o_id (snd c))) (d (o_id (snd (pymin_from lt c l)))) = false /\
     forall p, In p l -> vlt (d (o_id (snd p))) (d (o_id (snd (pymin_from lt c l)))) = false).
  { clear. induction l as [|x l IH]; intros c Pc Pl; cbn [pymin_from].
    - split; [|intros p []]. destruct Pc as [e ->]. simpl. destruct (ext_ltb e e) eqn:E; [|reflexivity].
      apply ext_ltb_lt in E. destruct (ext_lt_irrefl _ E).
    - inversion Pl as [|? ? Px Pl']; subst. change (lt x c) with (vlt (d (o_id (snd x))) (d (o_id (snd c)))). destruct (vlt (d (o_id (snd x))) (d (o_id (snd c)))) eqn:E.
      + destruct (IH x Px Pl') as [I1 I2]. split.
        * set (z := pymin_from lt x l) in *. destruct (vlt (d (o_id (snd c))) (d (o_id (snd z)))) eqn:F; [|reflexivity].
          rewrite <- I1. symmetry. destruct Px as [ex Ex], Pc as [ec Ec]. rewrite Ex, Ec in *. simpl in *.
          destruct (d (o_id (snd z))) as [ez|]; [|discriminate]. apply ext_ltb_lt in E, F. apply ext_ltb_lt.
          eapply ext_lt_trans; eassumption.
        * intros p [<-|Hp]; [exact I1|apply I2, Hp].
      + destruct (IH c Pc Pl') as [I1 I2]. split; [exact I1|]. intros p [<-|Hp]; [|apply I2, Hp].
        set (z := pymin_from lt c l) in *. destruct (vlt (d (o_id (snd x))) (d (o_id (snd z)))) eqn:F; [|reflexivity].
        destruct Px as [ex Ex], Pc as [ec Ec]. rewrite Ex, Ec in *. simpl in *.
        destruct (d (o_id (snd z))) as [ez|]; [|discriminate].
        apply ext_ltb_lt in F. apply ext_ltb_nlt in E, I1. destruct (ext_lt_split ex ec ez F); contradiction. }
  set (p := pymin_from lt (0, a) (combine (seq 1 (length r)) r)).
  assert (Hp : nth_error (a :: r) (fst p) = Some (snd p)).
  { pose proof (pymin_from_in lt (combine (seq 1 (length r)) r) (0, a)) as Hi. fold p in Hi. destruct Hi as [<-|Hi]; [reflexivity|].
    apply Hc in Hi. destruct Hi as [H1 H2]. destruct (fst p) as [|n]; [lia|]. simpl. replace n with (S n - 1) by lia. exact H2. }
  exists (snd p). split; [exact Hp|]. intros y Hy.
  destruct (Hd (snd p)) as [e Ee]; [eapply nth_error_In, Hp|]. destruct (Hd y Hy) as [f Ef]. exists e, f. split; [exact Ee|]. split; [exact Ef|].
  assert (Hv : vlt (d (o_id y)) (d (o_id (snd p))) = false).
  { destruct (G (combine (seq 1 (length r)) r) (0, a)) as [G1 G2]; [apply Hd; left; reflexivity|exact HPl|]. fold p in G1, G2.
    destruct Hy as [<-|Hy]; [exact G1|].
    apply In_nth_error in Hy. destruct Hy as (n & Hn).
    specialize (G2 (S n, y)). apply G2. clear -Hn. 
    assert (Q : forall (r : list mo) k n, nth_error r n = Some y -> In (k + n, y) (combine (seq k (length r)) r)).
    { clear. induction r as [|x r IH]; intros k n Hn; [destruct n; discriminate|]. destruct n as [|n].
      - injection Hn as ->. rewrite Nat.add_0_r. left. reflexivity.
      - right. replace (k + S n) with (S k + n) by lia. apply IH, Hn. }
    exact (Q r 1 n Hn). }
  rewrite Ee, Ef in Hv. simpl in Hv. rewrite <- ext_ltb_lt. congruence.
Qed.

Lemma remove_nth_perm {A} : forall i (l : list A) x, nth_error l i = Some x -> Permutation l (x :: remove_nth i l).
Proof.
  induction i as [|i IH]; intros [|a l] x H; try discriminate; simpl in *.
  - injection H as ->. reflexivity.
  - rewrite (IH l x H) at 1. apply perm_swap.
Qed.

Lemma ranked_sub r ls l l' rank : (forall x, In x l' -> In x l) -> ranked r (ls ++ [l]) rank -> ranked r (ls ++ [l']) rank.
Proof.
  rewrite !ranked_app, !ranked_cons. intros H (A & B & C). split; [exact A|]. split; [auto|exact C].
Qed.

(** ** one call, any number of objectives *)
Lemma inserter_ok mx pop_size ind st : good_state mx st ->
  ~ In (o_id ind) (map o_id (concat (ins_layers st))) -> finite_vectors mx [ind] ->
  exists dropped st' layers1 rank1 se d1,
    inserter_call mx pop_size ind st = Some (dropped, st') /\
    enlu_inds_rank mx ind (ins_layers st) (at_rank (ins_attrs st)) = Some (layers1, rank1, se) /\
    good_state mx st' /\
    wf layers1 rank1 /\
    Permutation (ind :: concat (ins_layers st)) (concat layers1) /\
    (forall l, In l layers1 -> crowding fval (length mx) l (fun x => d1 (o_id x))) /\
    match dropped with
    | None => length (concat (ins_layers st)) < pop_size /\
              Permutation (ind :: concat (ins_layers st)) (concat (ins_layers st'))
    | Some x => pop_size <= length (concat (ins_layers st)) /\
              Permutation (ind :: concat (ins_layers st)) (x :: concat (ins_layers st')) /\
              In x (last layers1 []) /\
              forall y, In y (last layers1 []) ->
                exists e f, d1 (o_id x) = Some e /\ d1 (o_id y) = Some f /\ ~ ext_lt f e
    end /\
    match dropped with
    | None => ins_layers st' = layers1
    | Some x => exists ls l l', layers1 = ls ++ [l] /\ (forall y, In y l' -> In y l) /\
                  ((l' = [] /\ ins_layers st' = ls) \/ (l' <> [] /\ ins_layers st' = ls ++ [l']))
    end.
Proof.
  intros (HW & HV & HC) Hfresh Hind.
  destruct (enlu_any mx ind (ins_layers st) (at_rank (ins_attrs st)) HW Hfresh)
    as (layers1 & rank1 & s & e & E & W1 & P1 & (front & ch & un & EL & Es & Ee & Hsame)).
  unfold inserter_call. rewrite E.
  assert (Eseg : firstn (e - s) (skipn s layers1) = ch).
  { rewrite EL, <- Es, skipn_app, skipn_all, Nat.sub_diag. simpl. rewrite Ee, Es.
    replace (s + length ch - s) with (length ch) by lia. rewrite firstn_app, firstn_all, Nat.sub_diag. simpl. apply app_nil_r. }
  rewrite Eseg. set (d1 := crowd_layers mx ch (at_dist (ins_attrs st))).
  assert (HV1 : finite_vectors mx (concat layers1)).
  { intros x Hx. apply (Permutation_in _ (Permutation_sym P1)) in Hx. destruct Hx as [<-|Hx]; [apply Hind; left; reflexivity|apply HV, Hx]. }
  destruct W1 as (N1 & F1 & R1).
  assert (HC1 : forall l, In l layers1 -> crowding fval (length mx) l (fun x => d1 (o_id x))).
  { pose proof N1 as N1'. rewrite EL, !concat_app, !map_app in N1'. apply NoDup_app_disjoint in N1'. destruct N1' as (_ & Nr & Nf).
    apply NoDup_app_disjoint in Nr. destruct Nr as (Nch & _ & Nu).
    destruct (crowd_layers_ok mx ch (at_dist (ins_attrs st))) as [C1 C2].
    - exact Nch.
    - rewrite EL in F1. apply Forall_app in F1. destruct F1 as [_ F1]. apply Forall_app in F1. apply F1.
    - intros x Hx. apply HV1. rewrite EL, !concat_app, !in_app_iff. auto.
    - intros l Hl. rewrite EL, !in_app_iff in Hl.
      assert (Keep : In l front \/ In l un -> (forall x, In x l -> ~ In (o_id x) (map o_id (concat ch))) ->
                     crowding fval (length mx) l (fun x => d1 (o_id x))).
      { intros Hl' Hx. apply (crowding_ext _ _ (fun x => at_dist (ins_attrs st) (o_id x))).
        - intros x Hxl. symmetry. apply C2, Hx, Hxl.
        - apply HC, Hsame, Hl'. }
      destruct Hl as [Hl|[Hl|Hl]].
      + apply Keep; [auto|]. intros x Hx Hin. apply (Nf (o_id x)).
        * apply in_map, in_concat. eauto.
        * apply in_or_app. left. exact Hin.
      + apply C1, Hl.
      + apply Keep; [auto|]. intros x Hx Hin. apply (Nu (o_id x) Hin). apply in_map, in_concat. eauto. }
  pose proof (Permutation_length P1) as Len. simpl in Len.
  destruct (Nat.ltb_spec pop_size (length (concat layers1))) as [Hfull|Hroom].
  - (* over capacity *)
    assert (HneL : layers1 <> []) by (intros ->; simpl in Len; lia).
    destruct (exists_last HneL) as (ls & l & Els).
    assert (Elast : last layers1 [] = l) by (rewrite Els; apply last_last).
    assert (Erm : removelast layers1 = ls) by (rewrite Els; apply removelast_last).
    rewrite Elast, Erm.
    assert (Hinl : In l layers1) by (rewrite Els; apply in_or_app; right; left; reflexivity).
    assert (Hlne : l <> []) by (rewrite Forall_forall in F1; apply F1, Hinl).
    assert (HVl : finite_vectors mx l) by (intros x Hx; apply HV1, in_concat; eauto).
    destruct (min_index_spec mx d1 l Hlne HVl (HC1 l Hinl)) as (x & Ex & Hmin).
    pose proof (remove_nth_perm _ _ _ Ex) as Prm.
    assert (Hsub : forall y, In y (remove_nth (min_index d1 l) l) -> In y l).
    { intros y Hy. apply (Permutation_in _ (Permutation_sym Prm)). right. exact Hy. }
    assert (PF : Permutation (ind :: concat (ins_layers st)) (x :: (concat ls ++ remove_nth (min_index d1 l) l))).
    { rewrite P1, Els, concat_app. simpl. rewrite app_nil_r. rewrite Prm at 1. symmetry. apply Permutation_middle. }
    assert (N2 : NoDup (map o_id (concat ls ++ remove_nth (min_index d1 l) l))).
    { pose proof (Permutation_trans (Permutation_sym P1) PF) as PP. apply (Permutation_map o_id) in PP.
      apply (Permutation_NoDup PP) in N1. inversion N1; assumption. }
    pose proof F1 as F1'. rewrite Els in F1'. apply Forall_app in F1'. destruct F1' as [Fls _].
    pose proof R1 as R1'. rewrite Els in R1'.
    rewrite Ex. set (l' := remove_nth (min_index d1 l) l) in *.
    destruct l' as [|y l''] eqn:El'.
    + rewrite app_nil_r in PF, N2.
      exists (Some x), (mk_ins ls (mk_attrs rank1 d1)), layers1, rank1, (s, e), d1.
      split; [reflexivity|]. split; [reflexivity|]. split; [|split; [split; [exact N1|split; [exact F1|exact R1]]|split; [exact P1|split; [exact HC1|split]]]].
      * split; [split; [exact N2|split; [exact Fls|]]|split].
        -- apply ranked_app in R1'. apply R1'.
        -- intros z Hz. apply HV1. rewrite Els, concat_app, in_app_iff. left. exact Hz.
        -- intros z Hz. apply HC1. rewrite Els. apply in_or_app. left. exact Hz.
      * split; [lia|]. split; [exact PF|]. split; [rewrite Elast; eapply nth_error_In, Ex|rewrite Elast; exact Hmin].
      * exists ls, l, []. split; [exact Els|]. split; [intros ? []|]. left. auto.
    + rewrite <- El' in *. assert (Hl'ne : l' <> []) by (rewrite El'; discriminate). clear El' y l''.
      rewrite map_app in N2. apply NoDup_app_disjoint in N2. destruct N2 as (Na & Nb & Nc).
      destruct (per_rank_ok mx l' d1 Hl'ne Nb) as (out & d2 & E2 & C2 & _ & _ & _ & Fr).
      { intros z Hz. apply HVl, Hsub, Hz. }
      rewrite E2. cbn [snd].
      exists (Some x), (mk_ins (ls ++ [l']) (mk_attrs rank1 d2)), layers1, rank1, (s, e), d1.
      split; [destruct l'; [congruence|reflexivity]|]. split; [reflexivity|].
      split; [|split; [split; [exact N1|split; [exact F1|exact R1]]|split; [exact P1|split; [exact HC1|split]]]].
      * unfold good_state, wf. cbn [ins_layers ins_attrs at_rank at_dist]. split; [split; [|split]|split].
        -- rewrite concat_app. simpl. rewrite app_nil_r, map_app. clear -Na Nb Nc.
           induction (map o_id (concat ls)) as [|a la IH]; simpl; [exact Nb|]. inversion Na; subst.
           constructor; [|apply IH; [assumption|intros z Hz; apply Nc; right; exact Hz]].
           rewrite in_app_iff. intros [H|H]; [contradiction|]. exact (Nc a (or_introl eq_refl) H).
        -- apply Forall_app. split; [exact Fls|]. constructor; [exact Hl'ne|constructor].
        -- apply (ranked_sub _ _ l); assumption.
        -- intros z Hz. apply HV1. rewrite Els, concat_app, in_app_iff. rewrite concat_app, in_app_iff in Hz. simpl in Hz |- *. rewrite app_nil_r in *.
           destruct Hz as [Hz|Hz]; [left; exact Hz|right; apply Hsub, Hz].
        -- intros z Hz. apply in_app_or in Hz. destruct Hz as [Hz|[<-|[]]]; [|exact C2].
           apply (crowding_ext _ _ (fun w => d1 (o_id w))).
           ++ intros w Hw. symmetry. apply Fr. apply Nc. apply in_map, in_concat. eauto.
           ++ apply HC1. rewrite Els. apply in_or_app. left. exact Hz.
      * split; [lia|]. split; [|split; [rewrite Elast; eapply nth_error_In, Ex|rewrite Elast; exact Hmin]].
        cbn [ins_layers]. rewrite concat_app. simpl. rewrite app_nil_r. exact PF.
      * exists ls, l, l'. split; [exact Els|]. split; [exact Hsub|]. right. auto.
  - exists None, (mk_ins layers1 (mk_attrs rank1 d1)), layers1, rank1, (s, e), d1.
    split; [reflexivity|]. split; [reflexivity|]. split; [|split; [split; [exact N1|split; [exact F1|exact R1]]|split; [exact P1|split; [exact HC1|split]]]].
    + split; [split; [exact N1|split; [exact F1|exact R1]]|]. split; [exact HV1|exact HC1].
    + split; [lia|exact P1].
    + reflexivity.
Qed.

(** the state produced by __init__ *)
Definition empty_inserter (a : attrs) : inserter := mk_ins [] a.
Lemma empty_good mx a : good_state mx (empty_inserter a).
Proof.
  split; [split; [constructor|split; [constructor|intros [|k] l x H; discriminate]]|]. split; [intros x []|intros l []].
Qed.

(** everything that ever came in is in the population or was dropped *)
Definition dropped_list (ds : list (option mo)) : list mo :=
  concat (map (fun o => match o with Some x => [x] | None => [] end) ds).

Lemma insert_all_ok mx pop_size : forall inds st, good_state mx st ->
  NoDup (map o_id (inds ++ concat (ins_layers st))) -> finite_vectors mx inds ->
  exists ds st', insert_all mx pop_size inds st = Some (ds, st') /\ good_state mx st' /\
    length ds = length inds /\
    Permutation (inds ++ concat (ins_layers st)) (dropped_list ds ++ concat (ins_layers st')) /\
    length (concat (ins_layers st')) =
      Nat.max (length (concat (ins_layers st))) (Nat.min pop_size (length (concat (ins_layers st)) + length inds)).
Proof.
  induction inds as [|x inds IH]; intros st HG HN HV.
  - exists [], st. split; [reflexivity|]. split; [exact HG|]. split; [reflexivity|]. split; [reflexivity|]. simpl. lia.
  - pose proof HN as HN0. simpl in HN. inversion HN as [|? ? Hx HN']; subst. rewrite map_app, in_app_iff in Hx.
    destruct (inserter_ok mx pop_size x st HG) as (dr & st1 & l1 & r1 & se & d1 & E & _ & HG1 & _ & _ & _ & HD & _); [tauto| |].
    { intros y [<-|[]]. apply HV. left. reflexivity. }
    assert (HP : Permutation (x :: concat (ins_layers st)) ((match dr with Some x => [x] | None => [] end) ++ concat (ins_layers st1))).
    { destruct dr as [y|]; simpl; tauto. }
    assert (HP2 : Permutation ((x :: inds) ++ concat (ins_layers st))
              ((match dr with Some x => [x] | None => [] end) ++ (inds ++ concat (ins_layers st1)))).
    { rewrite app_assoc. rewrite (Permutation_app_comm _ inds). rewrite <- app_assoc, <- HP. simpl. apply Permutation_middle. }
    destruct (IH st1 HG1) as (ds & st' & E' & HG' & Hl & HP' & Hlen).
    { apply (Permutation_map o_id) in HP2. apply (Permutation_NoDup HP2) in HN0. rewrite map_app in HN0.
      apply NoDup_app_disjoint in HN0. apply HN0. }
    { intros y Hy. apply HV. right. exact Hy. }
    exists (dr :: ds), st'. simpl. rewrite E, E'. split; [reflexivity|]. split; [exact HG'|]. split; [lia|]. split.
    + change ((x :: inds) ++ concat (ins_layers st)) with (x :: inds ++ concat (ins_layers st)) in HP2. rewrite HP2.
      unfold dropped_list. simpl. rewrite <- app_assoc. apply Permutation_app_head. exact HP'.
    + rewrite Hlen. pose proof (Permutation_length HP) as L. rewrite app_length in L. simpl in L.
      destruct dr as [y|]; simpl in L; destruct HD as [HD _]; lia.
Qed.

Lemma insert_all_app mx pop_size : forall l1 l2 st,
  insert_all mx pop_size (l1 ++ l2) st =
  match insert_all mx pop_size l1 st with
  | None => None
  | Some (d1, st1) =>
      match insert_all mx pop_size l2 st1 with None => None | Some (d2, st2) => Some (d1 ++ d2, st2) end
  end.
Proof.
  induction l1 as [|x l1 IH]; intros l2 st; simpl.
  - destruct (insert_all mx pop_size l2 st) as [[d2 st2]|]; reflexivity.
  - destruct (inserter_call mx pop_size x st) as [[d st1]|]; [|reflexivity]. rewrite IH.
    destruct (insert_all mx pop_size l1 st1) as [[d1 st2]|]; [|reflexivity].
    destruct (insert_all mx pop_size l2 st2) as [[d2 st3]|]; reflexivity.
Qed.

(** C39 for a history from the empty population *)
Lemma capacity_history mx pop_size a inds :
  NoDup (map o_id inds) -> finite_vectors mx inds ->
  exists ds st, insert_all mx pop_size inds (empty_inserter a) = Some (ds, st) /\
    length ds = length inds /\
    Permutation inds (dropped_list ds ++ concat (ins_layers st)) /\
    length (concat (ins_layers st)) = Nat.min pop_size (length inds) /\
    (forall l, In l (ins_layers st) -> l <> []) /\
    (forall k l x, nth_error (ins_layers st) k = Some l -> In x l -> at_rank (ins_attrs st) (o_id x) = S k) /\
    (forall l, In l (ins_layers st) -> crowding fval (length mx) l (fun x => at_dist (ins_attrs st) (o_id x))).
Proof.
  intros HN HV. destruct (insert_all_ok mx pop_size inds (empty_inserter a) (empty_good mx a)) as (ds & st & E & HG & Hl & HP & Hlen).
  - simpl. rewrite app_nil_r. exact HN.
  - exact HV.
  - simpl in HP, Hlen. rewrite app_nil_r in HP. exists ds, st. split; [exact E|]. split; [exact Hl|]. split; [exact HP|].
    split; [lia|]. destruct HG as ((_ & F & R) & _ & C). split; [|split; [|exact C]].
    + rewrite Forall_forall in F. exact F.
    + exact R.
Qed.

(** C39, the next insertion after any history *)
Lemma next_insertion mx pop_size a inds x :
  NoDup (map o_id (inds ++ [x])) -> finite_vectors mx (inds ++ [x]) ->
  exists ds st dropped st' layers rank se dist,
    insert_all mx pop_size inds (empty_inserter a) = Some (ds, st) /\
    inserter_call mx pop_size x st = Some (dropped, st') /\
    enlu_inds_rank mx x (ins_layers st) (at_rank (ins_attrs st)) = Some (layers, rank, se) /\
    Permutation (x :: concat (ins_layers st)) (concat layers) /\
    (forall l, In l layers -> crowding fval (length mx) l (fun y => dist (o_id y))) /\
    match dropped with
    | None => length inds < pop_size /\
              Permutation (x :: concat (ins_layers st)) (concat (ins_layers st'))
    | Some z => pop_size <= length inds /\
              Permutation (x :: concat (ins_layers st)) (z :: concat (ins_layers st')) /\
              In z (last layers []) /\
              forall y, In y (last layers []) ->
                exists e f, dist (o_id z) = Some e /\ dist (o_id y) = Some f /\ ~ ext_lt f e
    end.
Proof.
  intros HN HV. rewrite map_app in HN. apply NoDup_app_disjoint in HN. destruct HN as (N1 & N2 & N3).
  destruct (insert_all_ok mx pop_size inds (empty_inserter a) (empty_good mx a)) as (ds & st & E & HG & Hl & HP & Hlen).
  { simpl. rewrite app_nil_r. exact N1. } { intros y Hy. apply HV, in_or_app. left. exact Hy. }
  simpl in HP, Hlen. rewrite app_nil_r in HP.
  destruct (inserter_ok mx pop_size x st HG) as (dr & st' & l1 & r1 & se & d1 & E1 & E2 & _ & _ & P1 & C1 & HD & _).
  { intros Hin. apply (N3 (o_id x)); [|left; reflexivity]. apply in_map_iff in Hin. destruct Hin as (y & Ey & Hy). rewrite <- Ey.
    apply in_map. apply (Permutation_in _ (Permutation_sym HP)). apply in_or_app. right. exact Hy. }
  { intros y [<-|[]]. apply HV, in_or_app. right. left. reflexivity. }
  exists ds, st, dr, st', l1, r1, se, d1. split; [exact E|]. split; [exact E1|]. split; [exact E2|]. split; [exact P1|]. split; [exact C1|].
  destruct dr as [z|]; [|split; [lia|tauto]]. destruct HD as (D1 & D2). split; [|exact D2]. lia.
Qed.

(** ** up to two objectives: true fronts *)
Lemma finite_ok mx l : finite_vectors mx l -> forall x, In x l -> ok mx x.
Proof. intros H x Hx. apply finite_numeric in H. apply H, Hx. Qed.

Lemma inserter_TL mx pop_size ind st dropped st' : length mx <= 2 -> good_state mx st ->
  ~ In (o_id ind) (map o_id (concat (ins_layers st))) -> finite_vectors mx [ind] ->
  TL mx None (ins_layers st) -> inserter_call mx pop_size ind st = Some (dropped, st') -> TL mx None (ins_layers st').
Proof.
  intros Hmx HG Hf Hi HT E.
  destruct (inserter_ok mx pop_size ind st HG Hf Hi) as (dr & st1 & l1 & r1 & se & d1 & E1 & E2 & _ & _ & _ & _ & _ & HS).
  rewrite E in E1. injection E1 as <- <-.
  assert (T1 : TL mx None l1).
  { apply (enlu_TL mx ind (ins_layers st) (at_rank (ins_attrs st)) l1 r1 se); auto.
    - apply (finite_ok mx [ind]); [exact Hi|left; reflexivity].
    - destruct HG as (_ & HV & _). apply finite_ok, HV. }
  destruct dropped as [x|]; [|rewrite HS; exact T1].
  destruct HS as (ls & l & l' & -> & Hsub & HS). apply TL_app in T1. destruct T1 as (A & B & C).
  destruct HS as [(-> & ->)|(Hne & ->)]; [exact A|]. apply TL_app. split; [exact A|].
  simpl in B, C |- *. rewrite app_nil_r in *. split; [intros p q Hp Hq; apply B; auto|].
  destruct C as (_ & C1 & C2 & _). split; [exact Hne|]. split; [|split; [|exact I]].
  - intros p q Hp Hq. apply C1; [auto|]. rewrite ?app_nil_r in *. auto.
  - intros p Hp. apply C2. auto.
Qed.

Lemma insert_all_TL mx pop_size : length mx <= 2 -> forall inds st ds st', good_state mx st ->
  NoDup (map o_id (inds ++ concat (ins_layers st))) -> finite_vectors mx inds -> TL mx None (ins_layers st) ->
  insert_all mx pop_size inds st = Some (ds, st') -> TL mx None (ins_layers st').
Proof.
  intros Hmx. induction inds as [|x inds IH]; intros st ds st' HG HN HV HT E.
  - injection E as _ <-. exact HT.
  - pose proof HN as HN0. simpl in HN. inversion HN as [|? ? Hx HN']; subst. rewrite map_app, in_app_iff in Hx.
    assert (Hx' : ~ In (o_id x) (map o_id (concat (ins_layers st)))) by tauto.
    assert (HVx : finite_vectors mx [x]) by (intros y [<-|[]]; apply HV; left; reflexivity).
    destruct (inserter_ok mx pop_size x st HG Hx' HVx) as (dr & st1 & l1 & r1 & se & d1 & E1 & _ & HG1 & _ & _ & _ & HD & _).
    assert (HP : Permutation (x :: concat (ins_layers st)) ((match dr with Some x => [x] | None => [] end) ++ concat (ins_layers st1))).
    { destruct dr as [y|]; simpl; tauto. }
    simpl in E. rewrite E1 in E. destruct (insert_all mx pop_size inds st1) as [[ds2 st2]|] eqn:E2; [|discriminate].
    injection E as _ <-. apply (IH st1 ds2 st2 HG1); [| | |exact E2].
    + assert (HP2 : Permutation ((x :: inds) ++ concat (ins_layers st))
              ((match dr with Some x => [x] | None => [] end) ++ (inds ++ concat (ins_layers st1)))).
      { rewrite app_assoc. rewrite (Permutation_app_comm _ inds). rewrite <- app_assoc, <- HP. simpl. apply Permutation_middle. }
      apply (Permutation_map o_id) in HP2. apply (Permutation_NoDup HP2) in HN0. rewrite map_app in HN0.
      apply NoDup_app_disjoint in HN0. apply HN0.
    + intros y Hy. apply HV. right. exact Hy.
    + apply (inserter_TL mx pop_size x st dr st1); assumption.
Qed.

Lemma last_rank layers rank : wf layers rank -> forall x y, In x (last layers []) -> In y (concat layers) ->
  rank (o_id y) <= rank (o_id x) /\ (rank (o_id y) = rank (o_id x) <-> In y (last layers [])).
Proof.
  intros (HN & HF & HR) x y Hx Hy. destruct layers as [|l0 ls0]; [destruct Hx|].
  destruct (exists_last (l := l0 :: ls0) ltac:(discriminate)) as (ls & l & E). rewrite E in *. rewrite last_last in *.
  apply ranked_app in HR. destruct HR as [R1 R2]. apply ranked_cons in R2. destruct R2 as [R2 _].
  rewrite (R2 x Hx). rewrite concat_app, in_app_iff in Hy. simpl in Hy. rewrite app_nil_r in Hy.
  rewrite concat_app in HN. simpl in HN. rewrite app_nil_r, map_app in HN. apply NoDup_app_disjoint in HN. destruct HN as (_ & _ & N3).
  destruct Hy as [Hy|Hy].
  - apply in_concat in Hy. destruct Hy as (l' & Hl' & Hy). pose proof Hl' as Hl2. apply In_nth_error in Hl'. destruct Hl' as (k & Hk).
    assert (k < length ls) by (apply nth_error_Some; congruence).
    rewrite (R1 k l' y Hk Hy). split; [lia|]. split; [lia|]. intros Hyl. exfalso.
    apply (N3 (o_id y)); [apply in_map, in_concat; eauto|apply in_map, Hyl].
  - rewrite (R2 y Hy). split; [lia|tauto].
Qed.

Lemma two_objectives mx pop_size a inds x : length mx <= 2 ->
  NoDup (map o_id (inds ++ [x])) -> finite_vectors mx (inds ++ [x]) ->
  exists ds st dropped st' rank dist,
    insert_all mx pop_size inds (empty_inserter a) = Some (ds, st) /\
    inserter_call mx pop_size x st = Some (dropped, st') /\
    front_numbers (fun v u => dominates mx (o_fit v) (o_fit u)) (concat (ins_layers st'))
      (fun u => at_rank (ins_attrs st') (o_id u)) /\
    let pool := x :: concat (ins_layers st) in
    front_numbers (fun v u => dominates mx (o_fit v) (o_fit u)) pool rank /\
    match dropped with
    | None => Permutation pool (concat (ins_layers st'))
    | Some z =>
        Permutation pool (z :: concat (ins_layers st')) /\
        (forall y, In y pool -> rank y <= rank z) /\
        exists worst, (forall y, In y worst <-> In y pool /\ rank y = rank z) /\
          crowding fval (length mx) worst dist /\
          forall y, In y worst -> exists e f, dist z = Some e /\ dist y = Some f /\ ~ ext_lt f e
    end.
Proof.
  intros Hmx HN HV. rewrite map_app in HN. apply NoDup_app_disjoint in HN. destruct HN as (N1 & N2 & N3).
  assert (HVi : finite_vectors mx inds) by (intros y Hy; apply HV, in_or_app; left; exact Hy).
  assert (HVx : finite_vectors mx [x]) by (intros y Hy; apply HV, in_or_app; right; exact Hy).
  assert (N1' : NoDup (map o_id (inds ++ concat (ins_layers (empty_inserter a))))) by (simpl; rewrite app_nil_r; exact N1).
  destruct (insert_all_ok mx pop_size inds (empty_inserter a) (empty_good mx a) N1' HVi) as (ds & st & E & HG & Hl & HP & Hlen).
  simpl in HP. rewrite app_nil_r in HP.
  assert (Hf : ~ In (o_id x) (map o_id (concat (ins_layers st)))).
  { intros Hin. apply (N3 (o_id x)); [|left; reflexivity]. apply in_map_iff in Hin. destruct Hin as (y & Ey & Hy). rewrite <- Ey.
    apply in_map. apply (Permutation_in _ (Permutation_sym HP)). apply in_or_app. right. exact Hy. }
  destruct (inserter_ok mx pop_size x st HG Hf HVx) as (dr & st' & l1 & r1 & se & d1 & E1 & E2 & HG' & W1 & P1 & C1 & HD & _).
  pose proof (insert_all_TL mx pop_size Hmx inds (empty_inserter a) ds st (empty_good mx a) N1' HVi I E) as HT.
  pose proof (inserter_TL mx pop_size x st dr st' Hmx HG Hf HVx HT E1) as HT'.
  assert (T1 : TL mx None l1).
  { apply (enlu_TL mx x (ins_layers st) (at_rank (ins_attrs st)) l1 r1 se); auto.
    - apply (finite_ok mx [x]); [exact HVx|left; reflexivity].
    - destruct HG as (_ & HV' & _). apply finite_ok, HV'. }
  exists ds, st, dr, st', (fun u => r1 (o_id u)), (fun u => d1 (o_id u)). split; [exact E|]. split; [exact E1|].
  assert (Hperm : forall u, In u (x :: concat (ins_layers st)) <-> In u (concat l1)).
  { intros u. split; apply Permutation_in; [exact P1|apply Permutation_sym, P1]. }
  split; [apply TL_fronts; [exact HT'|apply HG']|]. cbv zeta. split.
  - intros u Hu. apply Hperm in Hu. destruct (TL_fronts mx l1 r1 T1 (proj2 (proj2 W1)) u Hu) as (A & B & C).
    split; [exact A|]. split; [intros y Hy; apply B, Hperm, Hy|]. destruct C as [C|(y & Hy & C)]; [left; exact C|right].
    exists y. split; [apply Hperm, Hy|exact C].
  - destruct dr as [z|]; [|apply HD]. destruct HD as (_ & D2 & D3 & D4). split; [exact D2|]. split.
    + intros y Hy. apply Hperm in Hy. apply (last_rank l1 r1 W1 z y D3 Hy).
    + exists (last l1 []). split; [|split; [|exact D4]].
      * intros y. split.
        -- intros Hy. assert (Hy' : In y (concat l1)).
           { apply in_concat. exists (last l1 []). split; [|exact Hy]. destruct l1 as [|l0 ls0]; [destruct Hy|].
             destruct (exists_last (l := l0 :: ls0) ltac:(discriminate)) as (ls & l & El). rewrite El, last_last. apply in_or_app. right. left. reflexivity. }
           split; [apply Hperm, Hy'|]. apply (last_rank l1 r1 W1 z y D3 Hy'), Hy.
        -- intros [Hy Hr]. apply Hperm in Hy. apply (last_rank l1 r1 W1 z y D3 Hy), Hr.
      * apply C1. destruct l1 as [|l0 ls0]; [destruct D3|].
        destruct (exists_last (l := l0 :: ls0) ltac:(discriminate)) as (ls & l & El). rewrite El, last_last. apply in_or_app. right. left. reflexivity.
Qed.
