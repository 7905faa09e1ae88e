From Coq Require Import Lia Lqa Permutation Sorted ZifyBool.
From Verif Require Import Model.Base Model.PyList Model.Variation Model.Cgp Spec.Variation Spec.Cgp Proofs.Variation
  Proofs.CgpDecode Proofs.CgpExec Proofs.CgpPrune.

Lemma combine_seq_nth {A} (l : list A) j x : In (j, x) (combine (seq 0 (length l)) l) -> nth_error l j = Some x.
Proof.
  assert (forall a, In (j, x) (combine (seq a (length l)) l) -> a <= j /\ nth_error l (j - a) = Some x) as H.
  { induction l as [|y l IH]; intros a; cbn [length seq combine]; [intros []|]. intros [E | H].
    - injection E as -> ->. split; [lia|]. rewrite Nat.sub_diag. reflexivity.
    - apply IH in H as [H1 H2]. split; [lia|]. replace (j - a) with (S (j - S a)) by lia. exact H2. }
  intros Hi. apply H in Hi as [_ Hi]. rewrite Nat.sub_0_r in Hi. exact Hi.
Qed.

Section Props.
Context {V : Type}.
Variable d : decoder V.
Hypothesis Hd : proper d.

Lemma program_exists genome nodes outs (params : nat -> list V) : layout d genome nodes outs -> feasible d nodes outs ->
  exists prog, program d params nodes prog.
Proof.
  intros Hl Hf.
  assert (G : forall n, n <= length nodes -> exists prog, length prog = n /\ forall j nd, j < n -> nth_error nodes j = Some nd -> exists p,
    nth_error (c_prims d) (Z.to_nat (fst nd)) = Some p /\ nth_error prog j = Some (p, used p (snd nd), params j)).
  { induction n as [|n IH]; intros Hn; [exists []; split; [reflexivity|intros; lia]|].
    destruct IH as (prog & E & H); [lia|]. destruct (nth_error nodes n) as [nd|] eqn:End; [|apply nth_error_None in End; lia].
    destruct (prim_at d Hd genome nodes outs Hl Hf n nd End) as (p & Ep).
    exists (prog ++ [(p, used p (snd nd), params n)]). split; [rewrite app_length, E; cbn; lia|].
    intros j nd' Hj Hjn. destruct (Nat.eq_dec j n) as [-> | Hne].
    - rewrite End in Hjn. injection Hjn as <-. exists p. split; [exact Ep|]. rewrite nth_error_app2, E, Nat.sub_diag by lia. reflexivity.
    - destruct (H j nd' ltac:(lia) Hjn) as (p' & E1 & E2). exists p'. split; [exact E1|]. rewrite nth_error_app1; [exact E2|]. lia. }
  destruct (G (length nodes) (le_n _)) as (prog & E & H). exists prog. split; [exact E|]. intros j nd Hj. apply H; [|exact Hj].
  apply nth_error_Some. congruence.
Qed.

Local Notation is_circuit_of := (circuit_of d).

Lemma prune_is (prog : list (pnode V)) outs g :
  circuit g (c_inputs d) prog outs -> g_nodes g = zrange 0 (c_inputs d + length prog + length outs) ->
  feed_forward (c_inputs d) prog outs -> length outs = c_outputs d ->
  is_circuit_of true prog outs (prune_graph g (c_inputs d) (c_outputs d)).
Proof.
  intros Hc Hn Hf Ho. destruct (prune_ok (c_inputs d) prog outs g Hc Hn Hf) as (keep & prog' & outs' & H1 & H2 & H3).
  exists keep, prog', outs'. split; [exact H1|]. rewrite <- Ho. split; [exact H3|]. split; [|exact H2].
  exact (reduced_feed_forward (c_inputs d) keep prog prog' outs outs' H1 Hf).
Qed.

Lemma decode_ok prune genome nodes outs prog : layout d genome nodes outs -> feasible d nodes outs ->
  program d (fun _ => []) nodes prog ->
  exists g, decode d prune genome = Ok g /\ is_circuit_of prune prog outs g.
Proof.
  intros Hl Hf Hp. destruct (decode_graph_ok d Hd genome nodes outs Hl Hf prog _ Hp) as (g & E & H1 & H2 & H3 & H4).
  assert (Hlen : length prog = c_layers d * c_width d) by (destruct Hp as [-> _]; destruct Hl as (_ & Hl & _); exact Hl).
  assert (Ho : length outs = c_outputs d) by (destruct Hl as (_ & _ & _ & Ho); exact Ho).
  assert (Hn : g_nodes g = zrange 0 (c_inputs d + length prog + length outs)) by (rewrite H1, Hlen, Ho; reflexivity).
  assert (Hc : circuit g (c_inputs d) prog outs).
  { split; [rewrite Hn; reflexivity|]. split.
    - intros j p srcs par Hj. split; [apply (H3 j p srcs par Hj)|]. rewrite H2. destruct Hp as [Hl2 HP].
      destruct (nth_error nodes j) as [nd|] eqn:End; [|apply nth_error_None in End; assert (j < length prog) by (apply nth_error_Some; congruence); lia].
      destruct (HP j nd End) as (p' & _ & E2). rewrite Hj in E2. injection E2 as -> -> ->. reflexivity.
    - rewrite H4. reflexivity. }
  assert (Hff : feed_forward (c_inputs d) prog outs) by exact (prog_feed_forward d Hd genome nodes outs Hl Hf prog _ Hp).
  unfold decode. rewrite E. cbn [bind]. eexists. split; [reflexivity|]. destruct prune.
  - apply prune_is; assumption.
  - split; assumption.
Qed.

Lemma fold_left_map {A B C} (f : C -> B -> C) (h : A -> B) l c : fold_left f (map h l) c = fold_left (fun c a => f c (h a)) l c.
Proof. revert c. induction l; intros c; cbn; [reflexivity|apply IHl]. Qed.
Lemma fold_left_same {A C} (f f' : C -> A -> C) l c : (forall c a, f c a = f' c a) -> fold_left f l c = fold_left f' l c.
Proof. intros H. revert c. induction l; intros c; cbn; [reflexivity|]. rewrite H. apply IHl. Qed.

Lemma decode_params_ok np prune genome nodes outs pars prog : layout d genome nodes outs -> feasible d nodes outs ->
  length pars = np * (c_layers d * c_width d) ->
  program d (fun j => firstn np (skipn (j * np) pars)) nodes prog ->
  exists g, decode_with_parameters d np prune genome pars = Ok g /\ is_circuit_of prune prog outs g.
Proof.
  intros Hl Hf Hpars Hp. destruct (decode_graph_ok d Hd genome nodes outs Hl Hf prog _ Hp) as (g & E & H1 & H2 & H3 & H4).
  assert (HW : 0 < c_width d) by apply Hd.
  assert (Hlen : length prog = c_layers d * c_width d) by (destruct Hp as [-> _]; destruct Hl as (_ & Hl & _); exact Hl).
  assert (Ho : length outs = c_outputs d) by (destruct Hl as (_ & _ & _ & Ho); exact Ho).
  unfold decode_with_parameters. rewrite E. cbn [bind].
  destruct (negb _) eqn:En; [exfalso; apply negb_true_iff, Nat.eqb_neq in En; apply En; rewrite Hpars; lia|]. clear En.
  rewrite grid by exact HW. rewrite fold_left_map.
  rewrite (fold_left_same _ (fun g j => set_par g (Z.of_nat (c_inputs d + j)) (firstn np (skipn (j * np) pars)))).
  2:{ intros c j. cbn [fst snd]. replace (j / c_width d * c_width d + j mod c_width d) with j; [reflexivity|].
      rewrite Nat.mul_comm. apply Nat.div_mod. lia. }
  pose proof (set_params_ok d (fun j => firstn np (skipn (j * np) pars)) g (c_layers d * c_width d)) as HS. cbv zeta in HS.
  set (g' := fold_left _ _ g) in *. destruct HS as (S1 & S2 & S3 & S4).
  assert (Hn : g_nodes g' = zrange 0 (c_inputs d + length prog + length outs)) by (rewrite S1, H1, Hlen, Ho; reflexivity).
  assert (Hc : circuit g' (c_inputs d) prog outs).
  { split; [rewrite Hn; reflexivity|]. split.
    - intros j p srcs par Hj. rewrite S3. split; [apply (H3 j p srcs par Hj)|].
      assert (Hjn : j < length prog) by (apply nth_error_Some; congruence).
      rewrite S4. destruct (j <? c_layers d * c_width d) eqn:Ej; [|lia]. destruct Hp as [Hl2 HP].
      destruct (nth_error nodes j) as [nd|] eqn:End; [|apply nth_error_None in End; lia].
      destruct (HP j nd End) as (p' & _ & E2). rewrite Hj in E2. injection E2 as -> -> ->. reflexivity.
    - rewrite S2, H4. reflexivity. }
  assert (Hff : feed_forward (c_inputs d) prog outs) by exact (prog_feed_forward d Hd genome nodes outs Hl Hf prog _ Hp).
  eexists. split; [reflexivity|]. destruct prune.
  - apply prune_is; assumption.
  - split; assumption.
Qed.

(** ** what circuits compute *)
Section Run.
Variables (prog : list (pnode V)) (outs : list Z) (input : list V).
Hypothesis Hin : length input = c_inputs d.
Hypothesis Ho : length outs = c_outputs d.
Let val := value (c_inputs d) prog input.

Lemma run_unpruned g o : is_circuit_of false prog outs g ->
  (forall vs, (exists o', call g (c_inputs d) (c_outputs d) o input = Ok (o', vs)) -> Forall2 val outs vs) /\
  ((forall j, j < length prog -> exists v, val (Z.of_nat (c_inputs d + j)) v) ->
   exists o' vs, call g (c_inputs d) (c_outputs d) o input = Ok (o', vs)).
Proof.
  intros [Hc Hff]. destruct (call_spec (c_inputs d) prog outs g Hc Hff input Hin o) as [H1 H2]. rewrite Ho in H1, H2.
  split; [intros vs (o' & E); apply (H1 o' vs E)|exact H2].
Qed.

Lemma run_pruned g o : feed_forward (c_inputs d) prog outs -> is_circuit_of true prog outs g ->
  forall vs, (exists o', call g (c_inputs d) (c_outputs d) o input = Ok (o', vs)) <-> Forall2 val outs vs.
Proof.
  intros Hff (keep & prog' & outs' & Hr & Hc & Hf' & Ho') vs.
  destruct (call_spec (c_inputs d) prog' outs' g Hc Hf' input Hin o) as [H1 H2]. rewrite Ho' in H1, H2.
  pose proof (renumbered_outs (c_inputs d) keep prog prog' outs outs' input Hr Hff) as HR. split.
  - intros (o' & E). apply HR. apply (H1 o' vs E).
  - intros F. destruct H2 as (o' & vs' & E).
    + intros i Hi. destruct Hr as (Hs & Hk & Fo & Hlen & Hn). rewrite Hlen in Hi.
      destruct (nth_error keep i) as [j|] eqn:Ei; [|apply nth_error_None in Ei; lia].
      pose proof (nth_error_In _ _ Ei) as Hj. apply Hk in Hj as [Hj Hneed].
      destruct (needed_value (c_inputs d) prog outs input vs _ F Hneed) as (v & Hv).
      exists v. apply (renumbered_value (c_inputs d) keep prog prog' outs outs' input (conj Hs (conj Hk (conj Fo (conj Hlen Hn)))) Hff
        (c_inputs d + length prog) (Z.of_nat (c_inputs d + j)) (Z.of_nat (c_inputs d + i)) v); [lia| |exact Hv].
      right. exists j, i. auto.
    + exists o'. rewrite E. f_equal. f_equal.
      apply (values_det (c_inputs d) prog' outs' g Hc Hf' input Hin outs').
      * apply (H1 o' vs' E).
      * apply HR, F.
Qed.

Lemma total_values : feed_forward (c_inputs d) prog outs ->
  (forall j p srcs par, nth_error prog j = Some (p, srcs, par) -> forall args, exists v, p_call p args = Ok v) ->
  forall n s, (0 <= s < Z.of_nat (c_inputs d + length prog))%Z -> (s < Z.of_nat n)%Z -> exists v, val s v.
Proof.
  intros [Hf _] Ht. induction n as [|n IH]; intros s Hs Hn; [lia|]. destruct (Z_lt_le_dec s (Z.of_nat (c_inputs d))).
  - destruct (nth_error input (Z.to_nat s)) as [v|] eqn:E; [|apply nth_error_None in E; lia]. exists v.
    replace s with (Z.of_nat (Z.to_nat s)) by lia. constructor; [lia|exact E].
  - set (j := Z.to_nat s - c_inputs d). assert (Es : s = Z.of_nat (c_inputs d + j)) by lia.
    destruct (nth_error prog j) as [[[p srcs] par]|] eqn:Ej; [|apply nth_error_None in Ej; lia].
    specialize (Hf j p srcs par Ej).
    assert (exists args, Forall2 val srcs args) as (args & F).
    { assert (Hjl : j < length prog) by (apply nth_error_Some; congruence).
      assert (Hb : Forall (fun x => (0 <= x < Z.of_nat (c_inputs d + length prog))%Z /\ (x < Z.of_nat n)%Z) srcs).
      { eapply Forall_impl; [|exact Hf]. cbv beta. intros x Hx. lia. }
      clear -Hb IH. induction Hb as [|x l [Hx1 Hx2] Hl IHl]; [exists []; constructor|].
      destruct (IH x Hx1 Hx2) as (v & Hv). destruct IHl as (args & F). exists (v :: args). constructor; assumption. }
    destruct (Ht j p srcs par Ej (args ++ par)) as (v & Hc). exists v. rewrite Es. econstructor; eassumption.
Qed.
End Run.

(** ** reading a circuit graph *)
Lemma circuit_reading (g : graph V) ni prog outs : circuit g ni prog outs -> feed_forward ni prog outs ->
  (forall e, In e (g_edges g) -> (0 <= src e < dst e)%Z) /\
  (forall k o, nth_error outs k = Some o -> in_edges g (Z.of_nat (ni + length prog + k)) = [(o, Z.of_nat (ni + length prog + k), None)]) /\
  (forall j p srcs par, nth_error prog j = Some (p, srcs, par) ->
     g_fun g (Z.of_nat (ni + j)) = Some p /\ length (in_edges g (Z.of_nat (ni + j))) = length srcs /\
     sorted_inputs g (Z.of_nat (ni + j)) = srcs) /\
  (forall i, i < ni -> in_edges g (Z.of_nat i) = []).
Proof.
  intros Hc Hf. split; [|split; [|split]].
  - intros e He. destruct Hf as [Hf Hfo]. pose proof Hc as (_ & _ & HP).
    pose proof (Permutation_in e HP He) as Hi. apply in_app_or in Hi as [Hi | Hi].
    + apply in_concat in Hi as (es & Hes & Hi). apply in_map_iff in Hes as ([j [[p srcs] par]] & <- & Hj).
      apply arg_edges_dst in Hi as [-> [Hs _]]. cbn [fst snd] in *. apply combine_seq_nth in Hj. specialize (Hf j p srcs par Hj). rewrite Forall_forall in Hf. specialize (Hf _ Hs). lia.
    + apply in_map_iff in Hi as ([k o] & <- & Hk). cbn [src dst fst snd]. apply in_combine_r in Hk. rewrite Forall_forall in Hfo. specialize (Hfo _ Hk). lia.
  - intros k o Hk. exact (output_edge ni prog outs g Hc k o Hk).
  - intros j p srcs par Hj. pose proof Hc as (_ & Hfun & _). split; [apply (Hfun j p srcs par Hj)|]. split.
    + rewrite (Permutation_length (in_edges_perm g _)), (Permutation_length (circuit_edges ni prog outs g Hc _)).
      rewrite (all_edges_node ni prog outs j p srcs par Hj). rewrite <- (arg_edges_srcs (Z.of_nat (ni + j)) srcs) at 2. rewrite map_length. reflexivity.
    + exact (sorted_inputs_ok ni prog outs g Hc j p srcs par Hj).
  - intros i Hi. apply Permutation_nil. symmetry. rewrite (in_edges_perm g), (circuit_edges ni prog outs g Hc).
    rewrite (all_edges_input ni prog outs i Hi). reflexivity.
Qed.

Lemma used_arity (p : prim V) l a : p_arity p = Some a -> a <= length l -> length (used p l) = a.
Proof. intros E H. unfold used. rewrite E, firstn_length. lia. Qed.

(** ** initialisation and mutation *)
Lemma bounds_nonempty : (1 <= c_back d)%Z -> Forall (fun b => fst b <= snd b)%Z (bounds d).
Proof.
  intros Hb. destruct Hd as (H1 & H2 & H3 & H4 & H5 & H6). rewrite bounds_blocks by exact Hd. apply Forall_app. split.
  - apply Forall_flat_map. apply Forall_forall. intros j Hj. unfold block. constructor.
    + cbn. destruct (c_prims d); [contradiction|]. cbn [length]. lia.
    + apply Forall_forall. intros b Hin. apply repeat_spec in Hin. subst b. cbn [fst snd]. unfold min_source, max_source.
      destruct (_ || _); [nia|]. nia.
  - apply Forall_forall. intros b Hin. apply repeat_spec in Hin. subst b. cbn [fst snd]. lia.
Qed.

Lemma within_in_bounds g bs : within g bs <-> length g = length bs /\ in_bounds Z.le (BEach bs) g.
Proof.
  unfold within, in_bounds. cbn [bound_at]. split.
  - intros F. split; [eapply Forall2_len, F|]. induction F as [|x [lo hi] l bs Hx Hl IH]; intros i y Hy; [destruct i; discriminate|].
    destruct i as [|i]; cbn in Hy |- *; [injection Hy as <-; exists lo, hi; cbn in Hx; auto|]. apply IH, Hy.
  - revert bs. induction g as [|x g IH]; intros [|[lo hi] bs] [E H]; try discriminate; constructor.
    + destruct (H 0 x eq_refl) as (a & b & E1 & E2). cbn in E1. injection E1 as <- <-. cbn. exact E2.
    + apply IH. split; [injection E as E; exact E|]. intros i y Hy. exact (H (S i) y Hy).
Qed.

Lemma create_within ds : (1 <= c_back d)%Z -> num_genes d <= length ds ->
  exists g, create_cgp_vector d ds = Ok g /\ within g (bounds d).
Proof.
  intros Hb Hds. destruct (randint_genes_spec (bounds d) ds) as (g & E & F).
  - rewrite bounds_length by exact Hd. exact Hds.
  - apply bounds_nonempty, Hb.
  - exists g. split; [exact E|]. unfold within. clear -F. induction F; constructor; assumption.
Qed.

Lemma rate_of_ok expected probability us len u m :
  check_rate ValueError expected probability = Ok u -> mutation_mask expected probability us len = Ok m ->
  exists p, rate_is expected probability len p /\ (0 <= p)%Q /\ (p <= 1)%Q.
Proof.
  unfold check_rate, mutation_mask. destruct expected as [e|], probability as [p|]; try discriminate.
  - intros _. unfold compute_expected_probability. destruct (len =? 0) eqn:El; [discriminate|]. apply Nat.eqb_neq in El.
    cbn [bind]. unfold random_bernoulli_vector. destruct (_ && _) eqn:Ep; [|discriminate]. intros _.
    apply andb_prop in Ep as [P1 P2]. apply Qle_bool_iff in P1, P2. eexists. split; [|split; [exact P1|exact P2]].
    right. exists e. split; [reflexivity|]. split; [reflexivity|]. split; [exact El|]. field.
    intros Hz. unfold Qeq in Hz. cbn in Hz. lia.
  - destruct (_ || _) eqn:Ep; [discriminate|]. intros _ _. apply orb_false_iff in Ep as [P1 P2].
    unfold Qltb in P1, P2. apply negb_false_iff, Qle_bool_iff in P1, P2. exists p. split; [left; auto|]. split; assumption.
Qed.

Lemma mutate_within expected probability us ds g g' : (1 <= c_back d)%Z ->
  length us = length g -> length g <= length ds -> within g (bounds d) ->
  cgp_mutate d expected probability us ds g = Ok g' -> within g' (bounds d).
Proof.
  intros Hb Hu Hds Hw E. apply within_in_bounds in Hw as [Hl Hw]. unfold cgp_mutate, cgp_genome_mutate in E.
  destruct (check_rate ValueError expected probability) as [u|] eqn:Ec; cbn [bind] in E; [|discriminate].
  assert (exists m, mutation_mask expected probability us (length g) = Ok m) as (m & Em).
  { unfold individual_mutate_randint in E. destruct (check_rate AssertionError expected probability); cbn [bind] in E; [|discriminate].
    destruct (mutation_mask expected probability us (length g)) as [m|]; [eauto|discriminate]. }
  destruct (rate_of_ok _ _ _ _ _ _ Ec Em) as (p & Hr & P1 & P2).
  destruct (randint_in_bounds (bounds d) expected probability us ds g p Hu (eq_sym Hl) Hds Hr P1 P2 (bounds_nonempty Hb))
    as (g2 & E2 & Hin & [Hlen _]). rewrite E in E2. injection E2 as <-. apply within_in_bounds. split; [congruence|]. apply Hin, Hw.
Qed.

Lemma mutate_returns expected probability us ds g p : (1 <= c_back d)%Z ->
  length us = length g -> length g <= length ds -> within g (bounds d) ->
  rate_is expected probability (length g) p -> (0 <= p)%Q -> (p <= 1)%Q ->
  exists g', cgp_mutate d expected probability us ds g = Ok g' /\ cgp_genome_mutate d expected probability us ds g = Ok g' /\
    within g' (bounds d) /\ changed_where (drawn us p) (fun _ _ _ => True) (fun _ x x' => x' = x) g g'.
Proof.
  intros Hb Hu Hds Hw Hr P1 P2. pose proof Hw as Hw2. apply within_in_bounds in Hw2 as [Hl _].
  destruct (randint_in_bounds (bounds d) expected probability us ds g p Hu (eq_sym Hl) Hds Hr P1 P2 (bounds_nonempty Hb))
    as (g2 & E2 & Hin & C). exists g2.
  assert (Em : cgp_mutate d expected probability us ds g = Ok g2).
  { unfold cgp_mutate, cgp_genome_mutate. destruct (@mask_of_rate ValueError expected probability us (length g) p Hr P1 P2) as [-> _]. exact E2. }
  split; [exact Em|]. split; [exact E2|]. split; [exact (mutate_within _ _ _ _ _ _ Hb Hu Hds Hw Em)|].
  destruct C as [C1 C2]. split; [exact C1|]. intros i x Hx. destruct (C2 i x Hx) as (x' & Hx' & _ & Hk). exists x'. auto.
Qed.

Lemma history_within g g' : (1 <= c_back d)%Z -> within g (bounds d) -> cgp_history d g g' -> within g' (bounds d).
Proof.
  intros Hb Hw H. induction H as [g|g g' g'' expected probability us ds H IH Hu Hds E]; [exact Hw|].
  exact (mutate_within _ _ _ _ _ _ Hb Hu Hds (IH Hw) E).
Qed.

Lemma within_decodes prune g : within g (bounds d) -> exists nodes outs prog gr,
  layout d g nodes outs /\ feasible d nodes outs /\ program d (fun _ => []) nodes prog /\
  decode d prune g = Ok gr /\ is_circuit_of prune prog outs gr.
Proof.
  intros Hw. apply within_iff in Hw as (nodes & outs & Hl & Hf); [|exact Hd].
  destruct (program_exists g nodes outs (fun _ => []) Hl Hf) as (prog & Hp).
  destruct (decode_ok prune g nodes outs prog Hl Hf Hp) as (gr & E & Hc). exists nodes, outs, prog, gr. auto.
Qed.

Lemma same_results prune genome nodes outs input : layout d genome nodes outs -> feasible d nodes outs ->
  length input = c_inputs d ->
  forall prog, program d (fun _ => []) nodes prog ->
  exists g, decode d prune genome = Ok g /\
  ((forall j p srcs par, nth_error prog j = Some (p, srcs, par) -> forall args, exists v, p_call p args = Ok v) ->
   forall o, exists o' vs, call g (c_inputs d) (c_outputs d) o input = Ok (o', vs) /\ Forall2 (value (c_inputs d) prog input) outs vs).
Proof.
  intros Hl Hf Hi prog Hp. destruct (decode_ok prune genome nodes outs prog Hl Hf Hp) as (g & E & Hc). exists g. split; [exact E|].
  intros Ht o. assert (Ho : length outs = c_outputs d) by apply Hl.
  assert (Hff : feed_forward (c_inputs d) prog outs) by exact (prog_feed_forward d Hd genome nodes outs Hl Hf prog _ Hp).
  pose proof (total_values prog outs input Hi Ho Hff Ht) as Hv.
  destruct prune.
  - assert (exists vs, Forall2 (value (c_inputs d) prog input) outs vs) as (vs & F).
    { destruct Hff as [_ Ho2]. clear -Ho2 Hv. induction Ho2 as [|s l Hs Hl IH]; [exists []; constructor|].
      destruct (Hv (c_inputs d + length prog) s Hs ltac:(lia)) as (v & H). destruct IH as (vs & F). exists (v :: vs). constructor; assumption. }
    destruct (proj2 (run_pruned prog outs input Hi Ho g o Hff Hc vs) F) as (o' & Ec). exists o', vs. split; assumption.
  - destruct (run_unpruned prog outs input Hi Ho g o Hc) as [H1 H2]. destruct H2 as (o' & vs & Ec).
    + intros j Hj. apply (Hv (S (c_inputs d + j))); lia.
    + exists o', vs. split; [exact Ec|]. apply (H1 vs). exists o'. exact Ec.
Qed.

End Props.

Lemma make_proper {V} (prims : list (prim V)) ni no nl w a back d : make_decoder prims ni no nl w a back = Ok d ->
  proper d /\ c_prims d = prims /\ c_inputs d = ni /\ c_outputs d = no /\ c_layers d = nl /\ c_width d = w /\ c_arity d = a.
Proof.
  unfold make_decoder. destruct (_ || _) eqn:E; [discriminate|]. intros H. injection H as <-.
  repeat (apply orb_false_iff in E as [E ?]). unfold proper. cbn.
  repeat match goal with H : (_ =? 0) = false |- _ => apply Nat.eqb_neq in H end.
  split; [|repeat split]. split; [destruct prims; [contradiction|discriminate]|]. lia.
Qed.

Lemma make_back {V} (prims : list (prim V)) ni no nl w a back d : make_decoder prims ni no nl w a back = Ok d ->
  match back with
  | Some b => c_back d = b
  | None => forall layer s, layer < nl -> (may_read d layer s <-> (0 <= s < Z.of_nat (ni + layer * w))%Z)
  end.
Proof.
  unfold make_decoder. destruct (_ || _); [discriminate|]. intros H. injection H as <-. destruct back as [b|]; [reflexivity|].
  intros layer s Hl. unfold may_read. cbn. split; [tauto|]. intros H. split; [exact H|]. lia.
Qed.

Lemma total_same {V} (d : decoder V) genome nodes outs prog input (Hd : proper d) :
  layout d genome nodes outs -> feasible d nodes outs -> program d (fun _ => []) nodes prog -> length input = c_inputs d ->
  (forall p, In p (c_prims d) -> forall args, exists v, p_call p args = Ok v) ->
  exists g g' vs, decode d false genome = Ok g /\ decode d true genome = Ok g' /\
    Forall2 (value (c_inputs d) prog input) outs vs /\
    forall o, (exists o', call g (c_inputs d) (c_outputs d) o input = Ok (o', vs)) /\
              (exists o', call g' (c_inputs d) (c_outputs d) o input = Ok (o', vs)).
Proof.
  intros Hl Hf Hp Hi Ht.
  assert (Ht2 : forall j p srcs par, nth_error prog j = Some (p, srcs, par) -> forall args, exists v, p_call p args = Ok v).
  { intros j p srcs par Hj. apply Ht. destruct Hp as [Hlen Hp].
    destruct (nth_error nodes j) as [nd|] eqn:End; [|apply nth_error_None in End; assert (j < length prog) by (apply nth_error_Some; congruence); lia].
    destruct (Hp j nd End) as (p' & E1 & E2). rewrite Hj in E2. injection E2 as -> _ _. eapply nth_error_In, E1. }
  destruct (same_results d Hd false genome nodes outs input Hl Hf Hi prog Hp) as (g & E & H). specialize (H Ht2).
  destruct (same_results d Hd true genome nodes outs input Hl Hf Hi prog Hp) as (g' & E' & H'). specialize (H' Ht2).
  destruct (H (fun _ => None)) as (o1 & vs & _ & F).
  assert (D : forall vs', Forall2 (value (c_inputs d) prog input) outs vs' -> vs' = vs).
  { intros vs' F'. destruct (decode_ok d Hd false genome nodes outs prog Hl Hf Hp) as (g2 & _ & Hc & Hff).
    exact (values_det (c_inputs d) prog outs g2 Hc Hff input Hi outs vs' vs F' F). }
  exists g, g', vs. split; [exact E|]. split; [exact E'|]. split; [exact F|]. intros o. split.
  - destruct (H o) as (o' & vs' & Ec & F'). rewrite (D vs' F') in Ec. eauto.
  - destruct (H' o) as (o' & vs' & Ec & F'). rewrite (D vs' F') in Ec. eauto.
Qed.

Lemma any_pruned {V} (d : decoder V) genome nodes outs prog input (Hd : proper d) :
  layout d genome nodes outs -> feasible d nodes outs -> program d (fun _ => []) nodes prog -> length input = c_inputs d ->
  exists g g', decode d false genome = Ok g /\ decode d true genome = Ok g' /\
    forall o vs,
      ((exists o', call g (c_inputs d) (c_outputs d) o input = Ok (o', vs)) ->
        Forall2 (value (c_inputs d) prog input) outs vs) /\
      ((exists o', call g' (c_inputs d) (c_outputs d) o input = Ok (o', vs)) <->
        Forall2 (value (c_inputs d) prog input) outs vs).
Proof.
  intros Hl Hf Hp Hi. destruct (decode_ok d Hd false genome nodes outs prog Hl Hf Hp) as (g & E & Hc).
  destruct (decode_ok d Hd true genome nodes outs prog Hl Hf Hp) as (g' & E' & Hc').
  assert (Hff : feed_forward (c_inputs d) prog outs) by apply Hc.
  exists g, g'. split; [exact E|]. split; [exact E'|]. intros o vs. split.
  - intros (o' & Ec). apply (run_unpruned d prog outs input Hi (proj2 (proj2 (proj2 Hl))) g o Hc). exists o'. exact Ec.
  - exact (run_pruned d prog outs input Hi (proj2 (proj2 (proj2 Hl))) g' o Hff Hc' vs).
Qed.

(** with parameters: both runs interpret the program with its parameters *)
Lemma params_run {V} (d : decoder V) np genome nodes outs pars prog input (Hd : proper d) :
  layout d genome nodes outs -> feasible d nodes outs -> length pars = np * (c_layers d * c_width d) ->
  program d (fun j => firstn np (skipn (j * np) pars)) nodes prog -> length input = c_inputs d ->
  exists g g', decode_with_parameters d np false genome pars = Ok g /\ decode_with_parameters d np true genome pars = Ok g' /\
    forall o vs,
      ((exists o', call g (c_inputs d) (c_outputs d) o input = Ok (o', vs)) ->
        Forall2 (value (c_inputs d) prog input) outs vs) /\
      ((exists o', call g' (c_inputs d) (c_outputs d) o input = Ok (o', vs)) <->
        Forall2 (value (c_inputs d) prog input) outs vs).
Proof.
  intros Hl Hf Hn Hp Hi. destruct (decode_params_ok d Hd np false genome nodes outs pars prog Hl Hf Hn Hp) as (g & E & Hc).
  destruct (decode_params_ok d Hd np true genome nodes outs pars prog Hl Hf Hn Hp) as (g' & E' & Hc').
  assert (Hff : feed_forward (c_inputs d) prog outs) by apply Hc.
  exists g, g'. split; [exact E|]. split; [exact E'|]. intros o vs. split.
  - intros (o' & Ec). apply (run_unpruned d prog outs input Hi (proj2 (proj2 (proj2 Hl))) g o Hc). exists o'. exact Ec.
  - exact (run_pruned d prog outs input Hi (proj2 (proj2 (proj2 Hl))) g' o Hff Hc' vs).
Qed.

Lemma program_arity {V} (d : decoder V) params genome nodes outs prog : layout d genome nodes outs -> program d params nodes prog ->
  forall j p srcs par a, nth_error prog j = Some (p, srcs, par) -> p_arity p = Some a -> a <= c_arity d -> length srcs = a.
Proof.
  intros (_ & _ & Hl & _) [Hlen Hp] j p srcs par a Hj Ea Ha.
  destruct (nth_error nodes j) as [nd|] eqn:End; [|apply nth_error_None in End; assert (j < length prog) by (apply nth_error_Some; congruence); lia].
  destruct (Hp j nd End) as (p' & E1 & E2). rewrite Hj in E2. injection E2 as <- -> _.
  rewrite Forall_forall in Hl. specialize (Hl nd (nth_error_In _ _ End)). apply used_arity; [exact Ea|lia].
Qed.

Lemma history_decodes {V} (d : decoder V) prune ds g g' : proper d -> (1 <= c_back d)%Z -> num_genes d <= length ds ->
  create_cgp_vector d ds = Ok g -> cgp_history d g g' ->
  within g' (bounds d) /\
  exists nodes outs prog gr, layout d g' nodes outs /\ feasible d nodes outs /\ program d (fun _ => []) nodes prog /\
    decode d prune g' = Ok gr /\ circuit_of d prune prog outs gr.
Proof.
  intros Hd Hb Hds E H. destruct (create_within d Hd ds Hb Hds) as (g0 & E0 & Hw). rewrite E in E0. injection E0 as <-.
  pose proof (history_within d Hd g g' Hb Hw H) as Hw'. split; [exact Hw'|]. exact (within_decodes d Hd prune g' Hw').
Qed.

(** ** a concrete decoder: addition and negation, two inputs, two layers of two nodes *)
Definition ex_add : prim Z := mk_prim (Some 2) (fun l => match l with [x; y] => Ok (x + y)%Z | _ => Err TypeError end).
Definition ex_neg : prim Z := mk_prim (Some 1) (fun l => match l with [x] => Ok (- x)%Z | _ => Err TypeError end).
Definition ex_sum : prim Z := mk_prim None (fun l => Ok (fold_right Z.add 0%Z l)).
Definition ex_opp : prim Z := mk_prim (Some 1) (fun l => Ok (- (fold_right Z.add 0 l))%Z).
(** raises when called *)
Definition ex_bad : prim Z := mk_prim (Some 1) (fun _ => Err (UserError 0)).
Definition ex_decoder (prims : list (prim Z)) : decoder Z := mk_decoder prims 2 1 2 2 2 2%Z.
Definition ex_nodes : list (Z * list Z) := [(0, [0; 1]); (1, [1; 0]); (0, [2; 3]); (1, [2; 2])]%Z.
Definition ex_genome : list Z := [0; 0; 1; 1; 1; 0; 0; 2; 3; 1; 2; 2; 4]%Z.
Definition ex_program (a b : prim Z) (params : nat -> list Z) : list (pnode Z) :=
  [(a, used a [0; 1]%Z, params 0); (b, used b [1; 0]%Z, params 1); (a, used a [2; 3]%Z, params 2); (b, used b [2; 2]%Z, params 3)].

Lemma ex_setup a b params :
  proper (ex_decoder [a; b]) /\ layout (ex_decoder [a; b]) ex_genome ex_nodes [4%Z] /\
  feasible (ex_decoder [a; b]) ex_nodes [4%Z] /\ program (ex_decoder [a; b]) params ex_nodes (ex_program a b params).
Proof.
  split; [repeat split; [discriminate|cbn; lia..]|]. split; [split; [reflexivity|split; [reflexivity|split; [|reflexivity]]]; repeat constructor|].
  split.
  - split; [|repeat constructor; cbn; lia]. intros layer pos nd Hl Hp Hn. cbn in Hl, Hp.
    destruct layer as [|[|layer]]; [| |lia]; destruct pos as [|[|pos]]; try lia; cbn in Hn; injection Hn as <-;
    unfold may_read; cbn; (split; [lia|]); repeat (constructor; [lia|]); constructor.
  - split; [reflexivity|]. intros j nd Hj.
    destruct j as [|[|[|[|j]]]]; cbn in Hj; [injection Hj as <-; cbn; eexists; split; reflexivity..|destruct j; discriminate].
Qed.

Lemma levels_zero a b c e f ds :
  create_cgp_vector (mk_decoder [ex_sum] 1 1 2 1 1 0%Z) (a :: b :: c :: e :: f :: ds) = Err ValueError.
Proof. reflexivity. Qed.

(** ** outside the bounds, and graphs that are no circuits *)
Lemma primitive_ids {V} (d : decoder V) genome layer node id :
  nth_error genome ((layer * c_width d + node) * (c_arity d + 1)) = Some id ->
  (forall p, get_primitive d genome layer node = Ok p <->
     exists k, nth_error (c_prims d) k = Some p /\ (id = Z.of_nat k \/ id = (Z.of_nat k - Z.of_nat (length (c_prims d)))%Z)) /\
  ((Z.of_nat (length (c_prims d)) <= id)%Z -> get_primitive d genome layer node = Err AssertionError) /\
  ((id < - Z.of_nat (length (c_prims d)))%Z -> get_primitive d genome layer node = Err IndexError).
Proof.
  intros E. unfold get_primitive. rewrite E. set (n := length (c_prims d)). destruct (id <? Z.of_nat n)%Z eqn:L.
  - apply Z.ltb_lt in L. unfold py_index. fold n. set (j := if (id <? 0)%Z then (id + Z.of_nat n)%Z else id).
    assert (J : (id < 0 /\ j = id + Z.of_nat n \/ 0 <= id /\ j = id)%Z) by (unfold j; destruct (id <? 0)%Z eqn:Q0; [apply Z.ltb_lt in Q0|apply Z.ltb_ge in Q0]; lia).
    assert (K : forall k p, nth_error (c_prims d) k = Some p -> k < n) by (intros k p H; apply nth_error_Some; rewrite H; discriminate).
    destruct (j <? 0)%Z eqn:J0; [apply Z.ltb_lt in J0|apply Z.ltb_ge in J0].
    + split; [|split; [lia|reflexivity]]. intros p. split; [discriminate|]. intros (k & Hk & C). apply K in Hk. lia.
    + split; [|split; [lia|lia]]. intros p. destruct (nth_error (c_prims d) (Z.to_nat j)) as [q|] eqn:Nq.
      * split.
        -- intros H. injection H as <-. exists (Z.to_nat j). split; [exact Nq|]. lia.
        -- intros (k & Hk & C). pose proof (K k p Hk) as Kk. replace (Z.to_nat j) with k in Nq by lia. congruence.
      * split; [discriminate|]. intros (k & Hk & C). pose proof (K k p Hk) as Kk. replace (Z.to_nat j) with k in Nq by lia. congruence.
  - apply Z.ltb_ge in L. split; [|split; [reflexivity|lia]]. intros p. split; [discriminate|]. intros (k & Hk & C).
    assert (k < n) by (apply nth_error_Some; rewrite Hk; discriminate). lia.
Qed.

Lemma fold_bind_err {A B} (f : B -> A -> result B) : forall l e, fold_left (fun r n => bind r (fun acc => f acc n)) l (Err e) = Err e.
Proof. induction l as [|x l IH]; intros e; [reflexivity|]. cbn [fold_left bind]. apply IH. Qed.
Lemma run_outputs_edges {V} (g : graph V) : forall ns acc r,
  fold_left (fun r n => bind r (fun acc => run_output g acc n)) ns (Ok acc) = Ok r -> forall n, In n ns -> In n (g_nodes g) /\ exists e, in_edges g n = [e].
Proof.
  induction ns as [|n ns IH]; intros acc r E m; [intros []|]. cbn [fold_left bind] in E. destruct (run_output g acc n) as [acc'|e] eqn:R; [|rewrite fold_bind_err in E; discriminate].
  intros [<- | H]; [|exact (IH acc' r E m H)]. unfold run_output in R. destruct (memZ n (g_nodes g)) eqn:M; [|discriminate]. cbn [negb] in R. split; [apply memZ_in, M|].
  destruct (in_edges g n) as [|e [|]]; try discriminate. exists e. reflexivity.
Qed.
Lemma outputs_have_one_source {V} (g : graph V) ni no o input r : call g ni no o input = Ok r ->
  length input = ni /\
  forall k, k < no -> let n := Z.of_nat (ni + (length (g_nodes g) - ni - no) + k) in In n (g_nodes g) /\ exists e, in_edges g n = [e].
Proof.
  unfold call. destruct (length input =? ni) eqn:L; [|discriminate]. cbn [negb]. cbv zeta. intros E. split; [apply Nat.eqb_eq, L|].
  destruct (fold_left _ (zrange ni (length (g_nodes g) - ni - no)) _) as [o2|e]; [|discriminate]. cbn [bind] in E. intros k Hk.
  apply (run_outputs_edges g _ _ r E). unfold zrange. apply in_map_iff. exists (ni + (length (g_nodes g) - ni - no) + k). split; [reflexivity|]. apply in_seq. lia.
Qed.
