(** Proofs about counters and birth branding. *)
From Coq Require Import Lia.
From Verif Require Import Model.Base Model.Counters Spec.Counters.

Lemma gen_run_spec callbacks : forall n g vs g',
  gc_ctx g = gc_curr g -> gen_run callbacks n g = (vs, g') ->
  gc_curr g' = (gc_curr g + Z.of_nat n)%Z /\ gc_ctx g' = gc_curr g' /\
  vs = map (fun j => (gc_curr g + 1 + Z.of_nat j)%Z) (seq 0 n) /\
  gc_log g' = gc_log g ++ flat_map (fun v => map (fun f => (f, v)) callbacks) vs.
Proof.
  induction n as [|n IH]; intros g vs g' Hc Hrun; cbn [gen_run] in Hrun.
  - injection Hrun as <- <-. split; [lia|]. split; [exact Hc|]. split; [reflexivity|].
    symmetry. apply app_nil_r.
  - destruct (gen_run callbacks n (snd (gc_increment callbacks g))) as [vs' g''] eqn:E.
    cbn [gc_increment snd fst] in *. rewrite E in Hrun. injection Hrun as <- <-.
    destruct (IH (snd (gc_increment callbacks g)) vs' g'' eq_refl E) as (H1 & H2 & H3 & H4).
    cbn [gc_increment snd gc_curr gc_log] in *.
    split; [lia|]. split; [exact H2|]. split.
    + rewrite H3. cbn [seq map]. f_equal; [lia|]. rewrite <- seq_shift, map_map.
      apply map_ext. intros j. lia.
    + rewrite H4. cbn [flat_map]. rewrite <- app_assoc. reflexivity.
Qed.

Lemma birth_run_spec callbacks : forall ops b vs b',
  bc_ctx b = bc_curr b -> birth_run callbacks ops b = (vs, b') ->
  bc_curr b' = value_after (bc_curr b) ops (length ops) /\ bc_ctx b' = bc_curr b' /\
  length vs = length ops /\
  (forall j v, nth_error vs j = Some v -> v = value_after (bc_curr b) ops (S j)) /\
  bc_log b' = bc_log b ++
    flat_map (fun ov => match fst ov with BInc _ => map (fun f => (f, snd ov)) callbacks | BDec => [] end)
      (combine ops vs).
Proof.
  induction ops as [|op ops IH]; intros b vs b' Hc Hrun; cbn [birth_run] in Hrun.
  - injection Hrun as <- <-. unfold value_after. simpl. split; [lia|]. split; [exact Hc|].
    split; [reflexivity|]. split; [intros [|j] v; discriminate|]. symmetry. apply app_nil_r.
  - destruct (birth_step callbacks op b) as [v b1] eqn:E1.
    destruct (birth_run callbacks ops b1) as [vs' b2] eqn:E2. injection Hrun as <- <-.
    assert (H1 : bc_curr b1 = (bc_curr b + op_delta op)%Z /\ bc_ctx b1 = bc_curr b1 /\ v = bc_curr b1 /\
      bc_log b1 = bc_log b ++ match op with BInc _ => map (fun f => (f, v)) callbacks | BDec => [] end).
    { destruct op; injection E1 as <- <-; simpl.
      - split; [reflexivity|]. split; [lia|]. split; reflexivity.
      - split; [lia|]. split; [lia|]. split; [reflexivity|]. symmetry. apply app_nil_r. }
    destruct H1 as (Hb & Hx & Hv & Hl).
    destruct (IH b1 vs' b2 Hx E2) as (H1 & H2 & H3 & H4 & H5).
    assert (Hval : forall n, value_after (bc_curr b) (op :: ops) (S n) = value_after (bc_curr b1) ops n).
    { intros n. unfold value_after. cbn [firstn map zsum fold_right]. fold (zsum (map op_delta (firstn n ops))). lia. }
    split; [cbn [length]; rewrite Hval; exact H1|]. split; [exact H2|]. split; [simpl; lia|]. split.
    + intros [|j] w Hw.
      * injection Hw as <-. rewrite Hval, Hv. unfold value_after. simpl. lia.
      * rewrite Hval. apply H4, Hw.
    + rewrite H5, Hl, <- app_assoc. reflexivity.
Qed.

Lemma told_app l1 l2 f v : told (l1 ++ l2) f v = told l1 f v + told l2 f v.
Proof. unfold told. rewrite filter_app, app_length. reflexivity. Qed.

Lemma told_callbacks callbacks f v w : NoDup callbacks -> In f callbacks ->
  told (map (fun f => (f, w)) callbacks) f v = if Z.eqb w v then 1 else 0.
Proof.
  intros Hnd Hin. induction callbacks as [|c cs IH]; [destruct Hin|].
  inversion Hnd as [|? ? Hni Hnd']; subst.
  change (told (map (fun f => (f, w)) (c :: cs)) f v)
    with (told ([(c, w)] ++ map (fun f => (f, w)) cs) f v).
  rewrite told_app. destruct Hin as [->|Hin].
  - assert (E : told (map (fun f0 => (f0, w)) cs) f v = 0).
    { clear - Hni. induction cs as [|c cs IH]; [reflexivity|].
      unfold told in *. cbn [map filter fst snd].
      destruct (Nat.eqb_spec c f); [subst; simpl in Hni; tauto|].
      apply IH. intros H. apply Hni. right. exact H. }
    rewrite E. unfold told. simpl. rewrite Nat.eqb_refl. destruct (Z.eqb w v); reflexivity.
  - rewrite (IH Hnd' Hin). unfold told. simpl.
    destruct (Nat.eqb_spec c f); [subst; tauto|]. reflexivity.
Qed.

Lemma generation_counter callbacks start n vs g' :
  gen_run callbacks n (inc_generation start) = (vs, g') ->
  gc_generation g' = (start + Z.of_nat n)%Z /\ gc_ctx g' = (start + Z.of_nat n)%Z /\
  vs = map (fun j => (start + 1 + Z.of_nat j)%Z) (seq 0 n) /\
  (NoDup callbacks -> forall f v, In f callbacks ->
     told (gc_log g') f v = if (Z.ltb start v && Z.leb v (start + Z.of_nat n))%bool then 1 else 0).
Proof.
  intros Hrun. destruct (gen_run_spec callbacks n (inc_generation start) vs g' eq_refl Hrun) as (H1 & H2 & H3 & H4).
  simpl gc_curr in *. unfold gc_generation. split; [exact H1|]. split; [congruence|]. split; [exact H3|].
  intros Hnd f v Hin. rewrite H4. cbn [inc_generation gc_log app]. rewrite H3. clear - Hnd Hin.
  assert (G : forall m s, told (flat_map (fun v => map (fun f => (f, v)) callbacks)
            (map (fun j => (start + 1 + Z.of_nat j)%Z) (seq s m))) f v =
            if (Z.leb (start + 1 + Z.of_nat s) v && Z.ltb v (start + 1 + Z.of_nat s + Z.of_nat m))%bool
            then 1 else 0).
  { induction m as [|m IH]; intros s.
    - simpl. destruct (Z.leb_spec (start + 1 + Z.of_nat s) v); [|reflexivity].
      destruct (Z.ltb_spec v (start + 1 + Z.of_nat s + 0)); [lia|reflexivity].
    - cbn [seq map flat_map]. rewrite told_app, told_callbacks by assumption. rewrite IH.
      destruct (Z.eqb_spec (start + 1 + Z.of_nat s) v);
      destruct (Z.leb_spec (start + 1 + Z.of_nat (S s)) v); destruct (Z.leb_spec (start + 1 + Z.of_nat s) v);
      destruct (Z.ltb_spec v (start + 1 + Z.of_nat (S s) + Z.of_nat m));
      destruct (Z.ltb_spec v (start + 1 + Z.of_nat s + Z.of_nat (S m))); simpl; lia. }
  rewrite G. destruct (Z.leb_spec (start + 1 + Z.of_nat 0) v); destruct (Z.ltb_spec start v);
    destruct (Z.ltb_spec v (start + 1 + Z.of_nat 0 + Z.of_nat n)); destruct (Z.leb_spec v (start + Z.of_nat n));
    simpl; lia.
Qed.

Lemma birth_counter_ok callbacks start ops vs b' :
  birth_run callbacks ops (inc_births start) = (vs, b') ->
  bc_curr b' = value_after start ops (length ops) /\ bc_ctx b' = value_after start ops (length ops) /\
  length vs = length ops /\
  (forall j v, nth_error vs j = Some v -> v = value_after start ops (S j)) /\
  bc_log b' = flat_map (fun ov => match fst ov with
                                  | BInc _ => map (fun f => (f, snd ov)) callbacks
                                  | BDec => [] end) (combine ops vs).
Proof.
  intros Hrun. destruct (birth_run_spec callbacks ops (inc_births start) vs b' eq_refl Hrun) as (H1 & H2 & H3 & H4 & H5).
  simpl bc_curr in *. split; [exact H1|]. split; [congruence|]. auto.
Qed.

(** ** C32 *)
Definition br_inv (birth0 : nat -> option nat) (b : brander) : Prop :=
  (forall i n, birth0 i = Some n -> br_birth b i = Some n) /\
  (forall n, n < br_next b <-> exists i, birth0 i = None /\ br_birth b i = Some n) /\
  (forall i j n, birth0 i = None -> birth0 j = None -> br_birth b i = Some n -> br_birth b j = Some n -> i = j).

Lemma brand_inv birth0 i b : br_inv birth0 b -> br_inv birth0 (brand i b).
Proof.
  intros (H1 & H2 & H3). unfold brand. destruct (br_birth b i) as [m|] eqn:E; [repeat split; try assumption; apply H2|].
  assert (Hi0 : birth0 i = None).
  { destruct (birth0 i) as [k|] eqn:E0; [|reflexivity]. rewrite (H1 _ _ E0) in E. discriminate. }
  unfold br_inv. cbn [br_birth br_next]. split; [|split].
  - intros j n Hj. destruct (Nat.eqb_spec j i) as [->|]; [congruence|]. apply H1, Hj.
  - intros n. split.
    + intros Hn. destruct (Nat.eq_dec n (br_next b)) as [->|Hne].
      * exists i. rewrite Nat.eqb_refl. auto.
      * destruct (proj1 (H2 n) ltac:(lia)) as (j & J0 & J1). exists j.
        destruct (Nat.eqb_spec j i) as [->|]; [congruence|]. auto.
    + intros (j & J0 & J1). destruct (Nat.eqb_spec j i).
      * injection J1 as <-. lia.
      * assert (n < br_next b) by (apply H2; eauto). lia.
  - intros j k n J0 K0 J1 K1. destruct (Nat.eqb_spec j i), (Nat.eqb_spec k i); subst; try reflexivity.
    + injection J1 as <-. assert (br_next b < br_next b) by (apply H2; eauto). lia.
    + injection K1 as <-. assert (br_next b < br_next b) by (apply H2; eauto). lia.
    + eapply H3; eassumption.
Qed.

Lemma brand_branded i b : exists n, br_birth (brand i b) i = Some n.
Proof.
  unfold brand. destruct (br_birth b i) as [m|] eqn:E; [eauto|].
  exists (br_next b). cbn [br_birth]. rewrite Nat.eqb_refl. reflexivity.
Qed.

Definition br_ext (b b' : brander) : Prop := forall i n, br_birth b i = Some n -> br_birth b' i = Some n.

Lemma brand_ext i b : br_ext b (brand i b).
Proof.
  intros j n H. unfold brand. destruct (br_birth b i) eqn:E; [exact H|]. cbn [br_birth].
  destruct (Nat.eqb_spec j i); [subst; congruence|exact H].
Qed.

Lemma brand_population_ext l : forall b, br_ext b (brand_population l b).
Proof.
  induction l as [|x l IH]; intros b i n H; [exact H|]. apply IH, brand_ext, H.
Qed.

Lemma brand_population_inv birth0 l : forall b, br_inv birth0 b -> br_inv birth0 (brand_population l b).
Proof. induction l as [|x l IH]; intros b H; [exact H|]. apply IH, brand_inv, H. Qed.

Lemma brand_population_all l : forall b i, In i l -> exists n, br_birth (brand_population l b) i = Some n.
Proof.
  induction l as [|x l IH]; intros b i Hi; [destruct Hi|].
  destruct Hi as [->|Hi]; [|apply (IH (brand x b)), Hi].
  destruct (brand_branded i b) as [n Hn]. exists n. apply (brand_population_ext l (brand i b)), Hn.
Qed.

Lemma br_inv_iter birth0 b it : br_inv birth0 b -> br_inv birth0 (mk_br (br_next b) it (br_birth b)).
Proof. intros H. exact H. Qed.

Lemma brand_pull_ok birth0 gl src b r b' :
  brand_pull gl src b = (r, b') ->
  (br_inv birth0 b -> br_inv birth0 b') /\ br_ext b b' /\
  (forall x s, r = Ok (x, s) -> exists n, br_birth b' x = Some n).
Proof.
  assert (G : forall x it, (br_inv birth0 b -> br_inv birth0 (brand x (mk_br (br_next b) it (br_birth b)))) /\
      br_ext b (brand x (mk_br (br_next b) it (br_birth b))) /\
      (exists n, br_birth (brand x (mk_br (br_next b) it (br_birth b))) x = Some n)).
  { intros x it. split; [intros H; apply brand_inv, H|].
    split; [|apply brand_branded]. exact (brand_ext x (mk_br (br_next b) it (br_birth b))). }
  assert (K : forall it, (br_inv birth0 b -> br_inv birth0 (mk_br (br_next b) it (br_birth b))) /\
      br_ext b (mk_br (br_next b) it (br_birth b))) by (intros it; split; [intros H; exact H|intros i n H; exact H]).
  destruct src as [[|x l]|l|i]; simpl; intros E.
  - injection E as <- <-. split; [auto|]. split; [intros i n H; exact H|discriminate].
  - injection E as <- <-. split; [apply brand_inv|]. split; [apply brand_ext|].
    intros y s H. injection H as <- <-. apply brand_branded.
  - destruct (match br_iter b with Some it => it | None => map ItInd l end) as [|[x|] it];
      injection E as <- <-; [destruct (K (Some [])) as [K1 K2]|destruct (G x (Some it)) as (G1 & G2 & G3)|destruct (K (Some it)) as [K1 K2]];
      (split; [assumption|split; [assumption|]]); intros y s H; try discriminate. injection H as <- <-. exact G3.
  - destruct (match br_iter b with Some it => it | None => repeat ItGene (gl i) end) as [|[x|] it];
      injection E as <- <-; [destruct (K (Some [])) as [K1 K2]|destruct (G x (Some it)) as (G1 & G2 & G3)|destruct (K (Some it)) as [K1 K2]];
      (split; [assumption|split; [assumption|]]); intros y s H; try discriminate. injection H as <- <-. exact G3.
Qed.

Definition not_clone (op : br_op) : Prop := match op with OClone _ _ => False | _ => True end.

Lemma br_step_ok birth0 gl op w : not_clone op ->
  (br_inv birth0 (bw_br w) -> br_inv birth0 (bw_br (br_step gl op w))) /\
  br_ext (bw_br w) (bw_br (br_step gl op w)) /\
  exists new, bw_out (br_step gl op w) = bw_out w ++ new /\
    forall x, In x new -> exists n, br_birth (bw_br (br_step gl op w)) x = Some n.
Proof.
  assert (N : forall w, exists new, bw_out w = bw_out w ++ new /\
            forall x, In x new -> exists n, br_birth (bw_br w) x = Some n)
    by (intros v; exists []; split; [symmetry; apply app_nil_r|intros x []]).
  intros Hn. destruct op as [l|s|g|i j]; cbn [br_step bw_br bw_out]; [| | |destruct Hn].
  - split; [apply brand_population_inv|]. split; [apply brand_population_ext|].
    exists []. split; [symmetry; apply app_nil_r|intros x []].
  - split; [auto|]. split; [intros i n H; exact H|].
    exists []. split; [symmetry; apply app_nil_r|intros x []].
  - destruct (nth_error (bw_gens w) g) as [[s|]|]; [|split; [auto|split; [intros i n H; exact H|apply N]]..].
    destruct (brand_pull gl s (bw_br w)) as [r b'] eqn:E.
    destruct (brand_pull_ok birth0 gl s _ _ _ E) as (H1 & H2 & H3).
    destruct r as [[x s']|e]; cbn [bw_br bw_out]; (split; [exact H1|split; [exact H2|]]).
    + exists [x]. split; [reflexivity|]. intros y [<-|[]]. eapply H3. reflexivity.
    + exists []. split; [symmetry; apply app_nil_r|intros x []].
Qed.

Lemma br_run_ok birth0 gl ops : forall w, Forall not_clone ops ->
  (br_inv birth0 (bw_br w) -> br_inv birth0 (bw_br (br_run gl ops w))) /\
  br_ext (bw_br w) (bw_br (br_run gl ops w)) /\
  ((forall x, In x (bw_out w) -> exists n, br_birth (bw_br w) x = Some n) ->
   forall x, In x (bw_out (br_run gl ops w)) -> exists n, br_birth (bw_br (br_run gl ops w)) x = Some n).
Proof.
  induction ops as [|op ops IH]; intros w Hn; [split; [auto|split; [intros i n H; exact H|auto]]|].
  inversion Hn as [|? ? Hop Hops]; subst.
  change (br_run gl (op :: ops) w) with (br_run gl ops (br_step gl op w)).
  destruct (br_step_ok birth0 gl op w Hop) as (S1 & S2 & new & S3 & S4).
  destruct (IH (br_step gl op w) Hops) as (I1 & I2 & I3).
  split; [auto|]. split; [intros i n H; apply I2, S2, H|].
  intros Hw. apply I3. intros x Hx. rewrite S3 in Hx. apply in_app_or in Hx.
  destruct Hx as [Hx|Hx]; [|auto]. destruct (Hw x Hx) as [n H]. exists n. apply S2, H.
Qed.

Lemma branding gl birth0 ops :
  Forall not_clone ops ->
  let w := br_run gl ops (mk_bw (birth_brander birth0) [] []) in
  (forall i n, birth0 i = Some n -> br_birth (bw_br w) i = Some n) /\
  (forall n, n < br_next (bw_br w) <-> exists i, birth0 i = None /\ br_birth (bw_br w) i = Some n) /\
  (forall i j n, birth0 i = None -> birth0 j = None ->
     br_birth (bw_br w) i = Some n -> br_birth (bw_br w) j = Some n -> i = j) /\
  (forall i, In i (bw_out w) -> exists n, br_birth (bw_br w) i = Some n).
Proof.
  intros Hn w. destruct (br_run_ok birth0 gl ops (mk_bw (birth_brander birth0) [] []) Hn) as (I1 & _ & I3).
  destruct I1 as (J1 & J2 & J3).
  { split; [intros i n H; exact H|]. split.
    - intros n. simpl. split; [lia|]. intros (i & E1 & E2). congruence.
    - simpl. intros i j n E1 E2 E3. congruence. }
  split; [exact J1|]. split; [exact J2|]. split; [exact J3|]. apply I3. intros x [].
Qed.

Lemma branding_permanent gl birth0 ops1 ops2 i n :
  Forall not_clone ops2 ->
  br_birth (bw_br (br_run gl ops1 (mk_bw (birth_brander birth0) [] []))) i = Some n ->
  br_birth (bw_br (br_run gl (ops1 ++ ops2) (mk_bw (birth_brander birth0) [] []))) i = Some n.
Proof.
  intros Hn H. unfold br_run. rewrite fold_left_app.
  apply (br_run_ok birth0 gl ops2 _ Hn), H.
Qed.

Lemma population_all_branded gl birth0 ops l i :
  In i l ->
  exists n, br_birth (bw_br (br_run gl (ops ++ [OBrandPop l]) (mk_bw (birth_brander birth0) [] []))) i = Some n.
Proof.
  intros Hi. unfold br_run. rewrite fold_left_app. cbn [fold_left br_step bw_br].
  apply brand_population_all, Hi.
Qed.

(** ** get_step *)
Lemma get_step_value gen births ug ub v :
  get_step gen births ug ub = Ok (Some v) <->
  (ug = Some true /\ ub <> Some true \/ ug = None /\ ub = None /\ births = None) /\ gen = Some v \/
  (ub = Some true /\ ug <> Some true \/ ug = None /\ ub = None /\ gen = None) /\ births = Some v.
Proof.
  destruct gen, births, ug as [[|]|], ub as [[|]|]; cbn; split; intros H;
    repeat match goal with
           | H : _ /\ _ |- _ => destruct H
           | H : _ \/ _ |- _ => destruct H
           end; try discriminate; try congruence;
    try (left; split; [auto; left; split; [reflexivity|discriminate]|congruence]);
    try (right; split; [auto; left; split; [reflexivity|discriminate]|congruence]);
    try (left; split; [right; auto|congruence]); try (right; split; [right; auto|congruence]).
Qed.
Lemma get_step_fails gen births ug ub :
  (get_step gen births ug ub = Ok None <-> ug = Some false /\ ub = None \/ ug = None /\ ub = Some false) /\
  (forall e, get_step gen births ug ub = Err e -> e = AssertionError).
Proof.
  destruct gen, births, ug as [[|]|], ub as [[|]|]; cbn; (split; [split; intros H|intros e H]);
    repeat match goal with
           | H : _ /\ _ |- _ => destruct H
           | H : _ \/ _ |- _ => destruct H
           end; try discriminate; try congruence; auto.
Qed.

(** ** a generator that has raised yields nothing any more *)
Lemma failed_generator genome_len g s w e : nth_error (bw_gens w) g = Some (Some s) ->
  fst (brand_pull genome_len s (bw_br w)) = Err e ->
  let w' := br_step genome_len (OPull g) w in
  bw_out w' = bw_out w /\ br_step genome_len (OPull g) w' = w' /\
  forall g' s', g' <> g -> nth_error (bw_gens w') g' = Some s' <-> nth_error (bw_gens w) g' = Some s'.
Proof.
  intros E F. assert (L : g < length (bw_gens w)) by (apply nth_error_Some; rewrite E; discriminate).
  destruct (brand_pull genome_len s (bw_br w)) as [r b'] eqn:B. cbn [fst] in F. subst r.
  assert (W : br_step genome_len (OPull g) w = mk_bw b' (firstn g (bw_gens w) ++ None :: skipn (S g) (bw_gens w)) (bw_out w)) by (unfold br_step; rewrite E, B; reflexivity).
  cbv zeta. rewrite W. cbn [bw_out bw_gens].
  assert (N : nth_error (firstn g (bw_gens w) ++ None :: skipn (S g) (bw_gens w)) g = Some None).
  { rewrite nth_error_app2 by (rewrite firstn_length; lia). rewrite firstn_length. replace (g - Nat.min g (length (bw_gens w))) with 0 by lia. reflexivity. }
  split; [reflexivity|]. split.
  - unfold br_step. cbn [bw_gens]. rewrite N. reflexivity.
  - intros g' s' D. assert (K : nth_error (firstn g (bw_gens w) ++ None :: skipn (S g) (bw_gens w)) g' = nth_error (bw_gens w) g').
    { rewrite <- (firstn_skipn g (bw_gens w)) at 3. destruct (Nat.lt_ge_cases g' g) as [H | H].
      - rewrite !nth_error_app1 by (rewrite firstn_length; lia). reflexivity.
      - rewrite !nth_error_app2 by (rewrite firstn_length; lia). rewrite firstn_length. replace (g' - Nat.min g (length (bw_gens w))) with (S (g' - S g)) by lia.
        cbn [nth_error]. clear - L. revert L. generalize (g' - S g) as k, (bw_gens w) as l. clear. induction g as [|g IH]; intros k [|x l] L; cbn in *; try lia; [reflexivity|]. apply IH. lia. }
    rewrite K. reflexivity.
Qed.

(** ** histories with clones *)
Record br_winv (birth0 : nat -> option nat) (M : nat -> Prop) (R : nat -> nat -> Prop) (b : brander) : Prop := {
  wi_kept : forall i n, birth0 i = Some n -> br_birth b i = Some n;
  wi_owner : exists owner, (forall n, n < br_next b -> birth0 (owner n) = None /\ br_birth b (owner n) = Some n) /\
    (forall i n, br_birth b i = Some n -> (exists x, birth0 x = Some n /\ R x i) \/ (n < br_next b /\ R (owner n) i));
  wi_unseen : forall i, ~ M i -> br_birth b i = birth0 i;
  wi_iter : forall it i, br_iter b = Some it -> In (ItInd i) it -> M i }.

Lemma winv_mono birth0 (M M' : nat -> Prop) (R R' : nat -> nat -> Prop) b : (forall i, M i -> M' i) -> (forall i j, R i j -> R' i j) ->
  br_winv birth0 M R b -> br_winv birth0 M' R' b.
Proof.
  intros HM HR [K (o & O1 & O2) U I]. split; [exact K| | |].
  - exists o. split; [exact O1|]. intros i n H. destruct (O2 i n H) as [(x & X1 & X2)|(L & X)]; [left; eauto|right; auto].
  - intros i H. apply U. auto.
  - intros it i E H. apply HM. eapply I; eauto.
Qed.
Lemma winv_iter birth0 (M : nat -> Prop) (R : nat -> nat -> Prop) b it : (forall i, In (ItInd i) it -> M i) -> br_winv birth0 M R b -> br_winv birth0 M R (mk_br (br_next b) (Some it) (br_birth b)).
Proof. intros H [K O U I]. split; try assumption. cbn. intros it' i E Hi. injection E as <-. auto. Qed.
Lemma brand_winv birth0 (M : nat -> Prop) (R : nat -> nat -> Prop) x b : (forall i, R i i) -> M x -> br_winv birth0 M R b -> br_winv birth0 M R (brand x b).
Proof.
  intros Rr Hx [K (o & O1 & O2) U I]. unfold brand. destruct (br_birth b x) as [k|] eqn:E; [split; eauto|].
  assert (X0 : birth0 x = None) by (destruct (birth0 x) as [k|] eqn:E0; [rewrite (K _ _ E0) in E; discriminate|reflexivity]).
  split; cbn [br_birth br_next br_iter].
  - intros i n H. destruct (Nat.eqb_spec i x) as [->|]; [congruence|]. apply K, H.
  - exists (fun n => if n =? br_next b then x else o n). split.
    + intros n Hn. destruct (Nat.eqb_spec n (br_next b)) as [-> | N]; [rewrite Nat.eqb_refl; auto|].
      destruct (O1 n ltac:(lia)) as (P1 & P2). destruct (Nat.eqb_spec (o n) x) as [E1|]; [congruence|auto].
    + intros i n H. destruct (Nat.eqb_spec i x) as [-> | N].
      * injection H as <-. right. rewrite Nat.eqb_refl. split; [lia|apply Rr].
      * destruct (O2 i n H) as [L | (L & X)]; [left; exact L|right]. replace (n =? br_next b) with false by (symmetry; apply Nat.eqb_neq; lia). split; [lia|exact X].
  - intros i H. destruct (Nat.eqb_spec i x) as [-> | N]; [contradiction|]. apply U, H.
  - exact I.
Qed.
Lemma brand_population_winv birth0 (M : nat -> Prop) (R : nat -> nat -> Prop) l : (forall i, R i i) -> forall b, (forall i, In i l -> M i) -> br_winv birth0 M R b ->
  br_winv birth0 M R (brand_population l b).
Proof. intros Rr. induction l as [|x l IH]; intros b Hl H; [exact H|]. apply IH; [intros i Hi; apply Hl; right; exact Hi|]. apply brand_winv; [exact Rr|apply Hl; left; reflexivity|exact H]. Qed.
Lemma brand_pull_winv birth0 (M : nat -> Prop) (R : nat -> nat -> Prop) gl s b r b' : (forall i, R i i) -> (forall i, In i (ids_of_source s) -> M i) -> brand_pull gl s b = (r, b') ->
  br_winv birth0 M R b -> br_winv birth0 M R b' /\ (forall x s', r = Ok (x, s') -> forall i, In i (ids_of_source s') -> M i).
Proof.
  intros Rr Hs E W.
  assert (G : forall it, (forall i, In (ItInd i) it -> M i) ->
    (match it with
     | [] => (Err RuntimeError, mk_br (br_next b) (Some []) (br_birth b))
     | ItInd x :: r => (Ok (x, SInd x), brand x (mk_br (br_next b) (Some r) (br_birth b)))
     | ItGene :: r => (Err AttributeError, mk_br (br_next b) (Some r) (br_birth b))
     end) = (r, b') -> br_winv birth0 M R b' /\ (forall x s', r = Ok (x, s') -> forall i, In i (ids_of_source s') -> M i)).
  { intros it Hit E'. destruct it as [|[x|] it]; injection E' as <- <-.
    - split; [apply winv_iter; [intros i []|exact W]|discriminate].
    - split.
      + apply brand_winv; [exact Rr|apply Hit; left; reflexivity|]. apply winv_iter; [intros i Hi; apply Hit; right; exact Hi|exact W].
      + intros y s' H. injection H as <- <-. intros i [<- | []]. apply Hit. left. reflexivity.
    - split; [apply winv_iter; [intros i Hi; apply Hit; right; exact Hi|exact W]|discriminate]. }
  destruct s as [[|x l]|l|i]; cbn [brand_pull ids_of_source] in *.
  - injection E as <- <-. split; [exact W|discriminate].
  - injection E as <- <-. split; [apply brand_winv; [exact Rr|apply Hs; left; reflexivity|exact W]|].
    intros y s' H. injection H as <- <-. intros i [<- | []]. apply Hs. left. reflexivity.
  - refine (G _ _ E). intros i Hi. destruct (br_iter b) as [it|] eqn:Eb; [eapply wi_iter; eauto|].
    apply in_map_iff in Hi. destruct Hi as (j & Ej & Hj). injection Ej as ->. apply Hs, Hj.
  - refine (G _ _ E). intros j Hj. destruct (br_iter b) as [it|] eqn:Eb; [eapply wi_iter; eauto|].
    apply repeat_spec in Hj. discriminate.
Qed.

Lemma copy_mono ops op x i : copy_of ops x i -> copy_of (ops ++ [op]) x i.
Proof. induction 1; [apply copy_self|]. eapply copy_clone; [eassumption|]. apply in_or_app. left. assumption. Qed.
Lemma clones_prefix birth0 ops op : clones_are_new birth0 (ops ++ [op]) -> clones_are_new birth0 ops.
Proof. intros H a i j b E. apply (H a i j (b ++ [op])). rewrite E, <- app_assoc. reflexivity. Qed.

Lemma branding_inv gl birth0 ops : clones_are_new birth0 ops ->
  let w := br_run gl ops (mk_bw (birth_brander birth0) [] []) in
  br_winv birth0 (fun i => In i (flat_map mentioned ops)) (copy_of ops) (bw_br w) /\
  (forall s, In (Some s) (bw_gens w) -> forall i, In i (ids_of_source s) -> In i (flat_map mentioned ops)) /\
  (forall i, In i (bw_out w) -> exists n, br_birth (bw_br w) i = Some n).
Proof.
  induction ops as [|op ops IH] using rev_ind; intros Hc w.
  - unfold w. cbn. split; [|split; intros ? []]. split; cbn; [auto| |auto|discriminate].
    exists (fun _ => 0). split; [intros n H; lia|]. intros i n H. left. exists i. split; [exact H|apply copy_self].
  - specialize (IH (clones_prefix _ _ _ Hc)). cbv zeta in IH. destruct IH as (W & G & O).
    assert (Ew : w = br_step gl op (br_run gl ops (mk_bw (birth_brander birth0) [] []))) by (unfold w, br_run; rewrite fold_left_app; reflexivity).
    clearbody w. set (w0 := br_run gl ops _) in *. clearbody w0.
    assert (Hm : forall i, In i (flat_map mentioned ops) -> In i (flat_map mentioned (ops ++ [op]))) by (intros i H; rewrite flat_map_app; apply in_or_app; left; exact H).
    assert (Hm' : forall i, In i (mentioned op) -> In i (flat_map mentioned (ops ++ [op]))) by (intros i H; rewrite flat_map_app; apply in_or_app; right; cbn; rewrite app_nil_r; exact H).
    assert (W' : br_winv birth0 (fun i => In i (flat_map mentioned (ops ++ [op]))) (copy_of (ops ++ [op])) (bw_br w0)) by (eapply winv_mono; [exact Hm|intros i j; apply copy_mono|exact W]).
    subst w. destruct op as [l|s|g|i j]; cbn [br_step].
    + cbn [bw_br bw_gens bw_out]. split; [apply brand_population_winv; [apply copy_self|exact Hm'|exact W']|]. split; [intros s Hs i Hi; apply Hm, (G s Hs i Hi)|].
      intros i Hi. destruct (O i Hi) as (n & Hn). exists n. apply brand_population_ext, Hn.
    + cbn [bw_br bw_gens bw_out]. split; [exact W'|]. split; [|exact O]. intros s' Hs i Hi. apply in_app_or in Hs. destruct Hs as [Hs | [E | []]]; [apply Hm, (G s' Hs i Hi)|].
      injection E as <-. apply Hm', Hi.
    + destruct (nth_error (bw_gens w0) g) as [[s|]|] eqn:Eg; [|split; [exact W'|split; [intros s Hs i Hi; apply Hm, (G s Hs i Hi)|exact O]] ..].
      destruct (brand_pull gl s (bw_br w0)) as [r b'] eqn:Ep. assert (Hs : In (Some s) (bw_gens w0)) by (eapply nth_error_In; eauto).
      destruct (brand_pull_winv birth0 _ (copy_of (ops ++ [OPull g])) gl s _ r b' (copy_self _) (fun i Hi => Hm i (G s Hs i Hi)) Ep W') as (B1 & B2).
      destruct (brand_pull_ok birth0 gl s _ r b' Ep) as (_ & Bx & Bo).
      assert (Gs : forall v s0, In (Some s0) (firstn g (bw_gens w0) ++ v :: skipn (S g) (bw_gens w0)) -> Some s0 = v \/ In (Some s0) (bw_gens w0)).
      { intros v s0 H. apply in_app_or in H. destruct H as [H | [H | H]]; [right|left; congruence|right].
        - rewrite <- (firstn_skipn g (bw_gens w0)). apply in_or_app. left. exact H.
        - rewrite <- (firstn_skipn (S g) (bw_gens w0)). apply in_or_app. right. exact H. }
      destruct r as [[x s']|e]; cbn [bw_br bw_gens bw_out].
      * split; [exact B1|]. split.
        -- intros s0 H0. destruct (Gs _ _ H0) as [E | H']; [injection E as ->; apply (B2 x s' eq_refl)|intros i Hi; apply Hm, (G s0 H' i Hi)].
        -- intros i Hi. apply in_app_or in Hi. destruct Hi as [Hi | [<- | []]]; [destruct (O i Hi) as (n & Hn); exists n; apply Bx, Hn|apply (Bo x s' eq_refl)].
      * split; [exact B1|]. split; [|intros i Hi; destruct (O i Hi) as (n & Hn); exists n; apply Bx, Hn].
        intros s0 H0. destruct (Gs _ _ H0) as [E | H']; [discriminate|intros i Hi; apply Hm, (G s0 H' i Hi)].
    + destruct (Hc ops i j [] eq_refl) as (Nij & Bj & Mj). assert (Uj : br_birth (bw_br w0) j = None) by (rewrite (wi_unseen _ _ _ _ W j Mj); exact Bj).
      cbn [bw_br bw_gens bw_out]. split; [|split].
      * destruct W' as [K (o & O1 & O2) U I]. split; cbn [br_birth br_next br_iter].
        -- intros k n H. destruct (Nat.eqb_spec k j) as [-> | N]; [congruence|apply K, H].
        -- exists o. split.
           ++ intros n Hn. destruct (O1 n Hn) as (P1 & P2). destruct (Nat.eqb_spec (o n) j) as [E|]; [congruence|auto].
           ++ intros k n H. destruct (Nat.eqb_spec k j) as [-> | N]; [|apply O2, H].
              assert (S1 : forall x, copy_of (ops ++ [OClone i j]) x i -> copy_of (ops ++ [OClone i j]) x j).
              { intros x Hx. eapply copy_clone; [exact Hx|]. apply in_or_app. right. left. reflexivity. }
              destruct (O2 i n H) as [(x & X1 & X2)|(L & X)]; [left; eauto|right; auto].
        -- intros k H. destruct (Nat.eqb_spec k j) as [-> | N]; [exfalso; apply H, Hm'; right; left; reflexivity|apply U, H].
        -- exact I.
      * intros s Hs k Hk. apply Hm, (G s Hs k Hk).
      * intros k Hk. destruct (O k Hk) as (n & Hn). exists n. cbn. destruct (Nat.eqb_spec k j) as [-> | N]; [congruence|exact Hn].
Qed.

Lemma branding_with_clones gl birth0 ops : clones_are_new birth0 ops ->
  let w := br_run gl ops (mk_bw (birth_brander birth0) [] []) in
  (forall i n, birth0 i = Some n -> br_birth (bw_br w) i = Some n) /\
  (exists owner,
     (forall n, n < br_next (bw_br w) -> birth0 (owner n) = None /\ br_birth (bw_br w) (owner n) = Some n) /\
     (forall i n, br_birth (bw_br w) i = Some n ->
        (exists x, birth0 x = Some n /\ copy_of ops x i) \/ (n < br_next (bw_br w) /\ copy_of ops (owner n) i))) /\
  (forall i, In i (bw_out w) -> exists n, br_birth (bw_br w) i = Some n).
Proof. intros Hc w. destruct (branding_inv gl birth0 ops Hc) as (W & _ & O). split; [apply W|]. split; [apply (wi_owner _ _ _ _ W)|exact O]. Qed.

Lemma branding_permanent_clones gl birth0 ops1 ops2 i n : clones_are_new birth0 (ops1 ++ ops2) ->
  br_birth (bw_br (br_run gl ops1 (mk_bw (birth_brander birth0) [] []))) i = Some n ->
  br_birth (bw_br (br_run gl (ops1 ++ ops2) (mk_bw (birth_brander birth0) [] []))) i = Some n.
Proof.
  intros Hc Hi. induction ops2 as [|op ops IH] using rev_ind; [rewrite app_nil_r; exact Hi|].
  rewrite app_assoc in *. specialize (IH (clones_prefix _ _ _ Hc)). destruct (branding_inv gl birth0 _ (clones_prefix _ _ _ Hc)) as (W & _ & _).
  unfold br_run in *. rewrite fold_left_app. cbn [fold_left]. set (w0 := fold_left _ (ops1 ++ ops) _) in *. destruct op as [l|s|g|a j]; cbn [br_step].
  - apply brand_population_ext, IH.
  - exact IH.
  - destruct (nth_error (bw_gens w0) g) as [[s|]|]; try exact IH. destruct (brand_pull gl s (bw_br w0)) as [r b'] eqn:Ep.
    destruct (brand_pull_ok birth0 gl s _ r b' Ep) as (_ & Bx & _). destruct r as [[x s']|e]; apply Bx, IH.
  - cbn. destruct (Nat.eqb_spec i j) as [-> | N]; [|exact IH]. destruct (Hc (ops1 ++ ops) a j [] eq_refl) as (_ & Bj & Mj).
    rewrite (wi_unseen _ _ _ _ W j Mj) in IH. congruence.
Qed.
