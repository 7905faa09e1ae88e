(** CGP genomes made of any integers. *)
From Coq Require Import Lia Permutation Sorted.
From Verif Require Import Model.Base Model.PyList Model.Cgp Spec.Cgp Spec.CgpWild Proofs.CgpDecode Proofs.CgpExec Proofs.CgpProps.
Local Open Scope nat_scope.
Local Open Scope list_scope.

Lemma constructor_refuses {V} (prims : list (prim V)) ni no nl w a back e :
  make_decoder prims ni no nl w a back = Err e <->
  e = AssertionError /\ (prims = [] \/ ni = 0 \/ no = 0 \/ nl = 0 \/ w = 0 \/ a = 0).
Proof.
  assert (Z0 : forall n, (n =? 0) = true <-> n = 0) by (intros n; apply Nat.eqb_eq).
  assert (ZP : (length prims =? 0) = true <-> prims = []) by (rewrite Z0; split; [apply length_zero_iff_nil|intros ->; reflexivity]).
  unfold make_decoder.
  assert (B : (length prims =? 0) || (ni =? 0) || (no =? 0) || (nl =? 0) || (w =? 0) || (a =? 0) = true <->
    (prims = [] \/ ni = 0 \/ no = 0 \/ nl = 0 \/ w = 0 \/ a = 0)) by (rewrite !Bool.orb_true_iff, ZP, !Z0; tauto).
  destruct ((length prims =? 0) || (ni =? 0) || (no =? 0) || (nl =? 0) || (w =? 0) || (a =? 0)); split.
  - intros [= <-]. split; [reflexivity|apply B; reflexivity].
  - intros [-> _]. reflexivity.
  - discriminate.
  - intros [_ H]. apply B in H. discriminate.
Qed.

(** ** decoding *)
Section Decode.
Context {V : Type}.
Variable d : decoder V.
Hypothesis Hd : proper d.
Let L := c_layers d. Let W := c_width d. Let A := c_arity d. Let NI := c_inputs d. Let P := length (c_prims d).

Lemma position_inside (genome : list Z) j i : length genome = num_genes d -> j < L * W -> i <= A -> j * (A + 1) + i < length genome.
Proof. intros -> Hj Hi. unfold num_genes. fold L W A. nia. Qed.

Lemma gene_there genome j : length genome = num_genes d -> j < L * W ->
  nth_error genome (j * (A + 1)) = Some (function_gene d genome j).
Proof.
  intros Hl Hj. unfold function_gene. fold A. apply nth_error_nth'. pose proof (position_inside genome j 0 Hl Hj ltac:(lia)). lia.
Qed.

Lemma sources_there genome layer pos : length genome = num_genes d -> layer * W + pos < L * W ->
  exists l, get_input_sources d genome layer pos = Ok l /\ length l = A.
Proof.
  intros Hl Hj. unfold get_input_sources. fold W A.
  assert (G : forall n s, s + n = A -> exists l,
    fold_right (fun i r => bind r (fun l => match nth_error genome ((layer * W + pos) * (A + 1) + 1 + i) with
       Some x => Ok (x :: l) | None => Err IndexError end)) (Ok []) (seq s n) = Ok l /\ length l = n).
  { induction n as [|n IH]; intros s Hs; [exists []; split; reflexivity|].
    destruct (IH (S s) ltac:(lia)) as (l & E & Ll). cbn [seq fold_right]. rewrite E. cbn [bind].
    destruct (nth_error genome ((layer * W + pos) * (A + 1) + 1 + s)) as [x|] eqn:Ex.
    - exists (x :: l). split; [reflexivity|cbn; congruence].
    - exfalso. apply nth_error_None in Ex. pose proof (position_inside genome _ (1 + s) Hl Hj ltac:(lia)). lia. }
  apply G. reflexivity.
Qed.

Lemma primitive_cases genome layer pos : length genome = num_genes d -> layer * W + pos < L * W ->
  let z := function_gene d genome (layer * W + pos) in
  (names_function d z -> exists p, get_primitive d genome layer pos = Ok p) /\
  ((Z.of_nat P <= z)%Z -> get_primitive d genome layer pos = Err AssertionError) /\
  ((z < - Z.of_nat P)%Z -> get_primitive d genome layer pos = Err IndexError).
Proof.
  intros Hl Hj z. pose proof (gene_there genome _ Hl Hj) as E. fold z in E.
  destruct (primitive_ids d genome layer pos z E) as (H1 & H2 & H3). split; [|split; assumption].
  intros [N1 N2]. fold P in N1, N2. destruct (Z_lt_le_dec z 0) as [Hz|Hz].
  - destruct (nth_error (c_prims d) (Z.to_nat (z + Z.of_nat P))) as [p|] eqn:Ep.
    + exists p. apply H1. exists (Z.to_nat (z + Z.of_nat P)). split; [exact Ep|]. right. unfold P in *. lia.
    + apply nth_error_None in Ep. unfold P in *. lia.
  - destruct (nth_error (c_prims d) (Z.to_nat z)) as [p|] eqn:Ep.
    + exists p. apply H1. exists (Z.to_nat z). split; [exact Ep|]. left. lia.
    + apply nth_error_None in Ep. unfold P in *. lia.
Qed.

Let step genome r (ln : nat * nat) := bind r (fun g => add_cgp_node d genome g (fst ln) (snd ln)).

Lemma step_ok genome g n : length genome = num_genes d -> n < L * W -> names_function d (function_gene d genome n) ->
  exists g', step genome (Ok g) (n / W, n mod W) = Ok g'.
Proof.
  intros Hl Hn Hf. assert (HW : 0 < W) by apply Hd.
  assert (En : n / W * W + n mod W = n) by (symmetry; rewrite Nat.mul_comm; apply Nat.div_mod; lia).
  destruct (primitive_cases genome (n / W) (n mod W) Hl ltac:(lia)) as (H1 & _). rewrite En in H1. destruct (H1 Hf) as (p & Ep).
  destruct (sources_there genome (n / W) (n mod W) Hl ltac:(lia)) as (l & El & _).
  unfold step, add_cgp_node. cbn [bind fst snd]. rewrite Ep. cbn [bind]. rewrite El. cbn [bind]. eauto.
Qed.
Lemma step_bad genome g n : length genome = num_genes d -> n < L * W ->
  ((Z.of_nat P <= function_gene d genome n)%Z -> step genome (Ok g) (n / W, n mod W) = Err AssertionError) /\
  ((function_gene d genome n < - Z.of_nat P)%Z -> step genome (Ok g) (n / W, n mod W) = Err IndexError).
Proof.
  intros Hl Hn. assert (HW : 0 < W) by apply Hd.
  assert (En : n / W * W + n mod W = n) by (symmetry; rewrite Nat.mul_comm; apply Nat.div_mod; lia).
  destruct (primitive_cases genome (n / W) (n mod W) Hl ltac:(lia)) as (_ & H2 & H3). rewrite En in H2, H3.
  unfold step, add_cgp_node. cbn [bind fst snd]. split; intros H; [rewrite (H2 H)|rewrite (H3 H)]; reflexivity.
Qed.

Lemma loop_ok genome g0 n : length genome = num_genes d -> n <= L * W ->
  (forall j, j < n -> names_function d (function_gene d genome j)) ->
  exists g, fold_left (step genome) (map (fun j => (j / W, j mod W)) (seq 0 n)) (Ok g0) = Ok g.
Proof.
  intros Hl. induction n as [|n IH]; intros Hn Hf; [exists g0; reflexivity|].
  destruct IH as (g & E); [lia|intros; apply Hf; lia|]. rewrite seq_S, map_app, fold_left_app, E. cbn [Nat.add map fold_left].
  apply step_ok; [exact Hl|lia|apply Hf; lia].
Qed.
Lemma loop_bad genome g0 n m : length genome = num_genes d -> n < m -> m <= L * W ->
  (forall j, j < n -> names_function d (function_gene d genome j)) ->
  ((Z.of_nat P <= function_gene d genome n)%Z ->
     fold_left (step genome) (map (fun j => (j / W, j mod W)) (seq 0 m)) (Ok g0) = Err AssertionError) /\
  ((function_gene d genome n < - Z.of_nat P)%Z ->
     fold_left (step genome) (map (fun j => (j / W, j mod W)) (seq 0 m)) (Ok g0) = Err IndexError).
Proof.
  intros Hl Hnm Hm Hf. destruct (loop_ok genome g0 n Hl ltac:(lia) Hf) as (g & E).
  assert (S1 : seq 0 m = seq 0 n ++ n :: seq (S n) (m - S n)).
  { replace m with (n + (1 + (m - S n))) at 1 by lia. rewrite seq_app. reflexivity. }
  destruct (step_bad genome g n Hl ltac:(lia)) as [B1 B2].
  rewrite S1, map_app, fold_left_app, E. cbn [map fold_left].
  split; intros H; [rewrite (B1 H)|rewrite (B2 H)]; unfold step; apply fold_bind_err.
Qed.

Lemma decode_graph_wild genome :
  (length genome <> num_genes d -> decode_graph d genome = Err AssertionError) /\
  (length genome = num_genes d ->
    ((forall j, j < L * W -> names_function d (function_gene d genome j)) -> exists g, decode_graph d genome = Ok g) /\
    (forall j, j < L * W -> (forall i, i < j -> names_function d (function_gene d genome i)) ->
       ((Z.of_nat P <= function_gene d genome j)%Z -> decode_graph d genome = Err AssertionError) /\
       ((function_gene d genome j < - Z.of_nat P)%Z -> decode_graph d genome = Err IndexError))).
Proof.
  assert (HW : 0 < W) by apply Hd. unfold decode_graph. split.
  - intros H. apply Nat.eqb_neq in H. rewrite H. reflexivity.
  - intros Hl. rewrite Hl, Nat.eqb_refl. cbn [negb]. fold L W. rewrite (grid W L HW). split.
    + intros Hf. destruct (loop_ok genome (mk_graph (zrange 0 (num_cgp_nodes d)) [] (fun _ => None) (fun _ => None)) (L * W) Hl (le_n _) Hf) as (g & E).
      unfold step in E. rewrite E. cbn [bind]. eauto.
    + intros j Hj Hf.
      destruct (loop_bad genome (mk_graph (zrange 0 (num_cgp_nodes d)) [] (fun _ => None) (fun _ => None)) j (L * W) Hl Hj (le_n _) Hf) as [B1 B2].
      unfold step in B1, B2. split; intros H; [rewrite (B1 H)|rewrite (B2 H)]; reflexivity.
Qed.

Lemma decode_wild prune genome :
  (length genome <> num_genes d -> decode d prune genome = Err AssertionError) /\
  (length genome = num_genes d ->
    ((forall j, j < L * W -> names_function d (function_gene d genome j)) -> exists g, decode d prune genome = Ok g) /\
    (forall j, j < L * W -> (forall i, i < j -> names_function d (function_gene d genome i)) ->
       ((Z.of_nat P <= function_gene d genome j)%Z -> decode d prune genome = Err AssertionError) /\
       ((function_gene d genome j < - Z.of_nat P)%Z -> decode d prune genome = Err IndexError))).
Proof.
  destruct (decode_graph_wild genome) as [H1 H2]. unfold decode. split.
  - intros H. rewrite (H1 H). reflexivity.
  - intros Hl. destruct (H2 Hl) as [G1 G2]. split.
    + intros Hf. destruct (G1 Hf) as (g & ->). cbn [bind]. eauto.
    + intros j Hj Hf. destruct (G2 j Hj Hf) as [B1 B2]. split; intros H; [rewrite (B1 H)|rewrite (B2 H)]; reflexivity.
Qed.

Lemma parameters_wild np prune genome pars :
  (forall e, decode d prune genome = Err e -> decode_with_parameters d np prune genome pars = Err e) /\
  (forall g, decode d prune genome = Ok g ->
     (length pars <> np * W * L -> decode_with_parameters d np prune genome pars = Err AttributeError) /\
     (length pars = np * W * L -> exists g', decode_with_parameters d np prune genome pars = Ok g')).
Proof.
  unfold decode, decode_with_parameters. destruct (decode_graph d genome) as [g0|e0]; cbn [bind].
  - split; [discriminate|]. intros g _. fold W L. split; intros H.
    + apply Nat.eqb_neq in H. rewrite H. reflexivity.
    + apply Nat.eqb_eq in H. rewrite H. cbn [negb]. eauto.
  - split; [intros e [= ->]; reflexivity|discriminate].
Qed.
End Decode.

(** ** the graph *)
Section Graph.
Context {V : Type}.

Lemma add_node_in l x y : In y (add_node l x) <-> In y l \/ y = x.
Proof.
  unfold add_node. destruct (memZ x l) eqn:E.
  - apply memZ_in in E. split; [auto|intros [H| ->]; assumption].
  - rewrite in_app_iff. cbn. split; [intros [H|[->|[]]]; auto|intros [H| ->]; auto].
Qed.
Lemma NoDup_snoc (l : list Z) x : NoDup l -> ~ In x l -> NoDup (l ++ [x]).
Proof. intros N H. apply (Permutation_NoDup (Permutation_cons_append l x)). constructor; assumption. Qed.
Lemma add_node_nodup l x : NoDup l -> NoDup (add_node l x).
Proof.
  intros N. unfold add_node. destruct (memZ x l) eqn:E; [exact N|]. apply NoDup_snoc; [exact N|].
  intros H. apply memZ_in in H. congruence.
Qed.

Lemma add_edges_any es : forall g : graph V,
  let g' := fold_left add_edge es g in
  g_edges g' = g_edges g ++ es /\ g_fun g' = g_fun g /\ g_par g' = g_par g /\
  (NoDup (g_nodes g) -> NoDup (g_nodes g')) /\
  forall y, In y (g_nodes g') <-> In y (g_nodes g) \/ exists e, In e es /\ (y = src e \/ y = dst e).
Proof.
  induction es as [|e es IH]; intros g g'.
  - subst g'. cbn. rewrite app_nil_r. split; [reflexivity|]. split; [reflexivity|]. split; [reflexivity|]. split; [auto|].
    intros y. split; [auto|]. intros [H|(e & [] & _)]; exact H.
  - subst g'. cbn [fold_left]. destruct (IH (add_edge g e)) as (H1 & H2 & H3 & H4 & H5).
    split; [rewrite H1; cbn [add_edge g_edges]; rewrite <- app_assoc; reflexivity|]. split; [exact H2|]. split; [exact H3|]. split.
    + intros N. apply H4. cbn [add_edge g_nodes]. apply add_node_nodup, add_node_nodup, N.
    + intros y. rewrite H5. cbn [add_edge g_nodes]. rewrite !add_node_in. split.
      * intros [[[H|H]|H]|(e' & He & H)]; [auto|right; exists e; cbn; auto|right; exists e; cbn; auto|right; exists e'; cbn; auto].
      * intros [H|(e' & [<-|He] & [H|H])]; auto; right; exists e'; auto.
Qed.

(** nodes numbered inputs, program nodes, outputs, and whatever else is read *)
Definition wired (g : graph V) (ni : nat) (prog : list (pnode V)) (outs : list Z) : Prop :=
  NoDup (g_nodes g) /\
  (forall n, In n (g_nodes g) <-> (0 <= n < Z.of_nat (ni + length prog + length outs))%Z \/ exists e, In e (g_edges g) /\ n = src e) /\
  (forall j p srcs par, nth_error prog j = Some (p, srcs, par) -> g_fun g (Z.of_nat (ni + j)) = Some p /\
     match g_par g (Z.of_nat (ni + j)) with Some l => l | None => [] end = par) /\
  (forall n, (Z.of_nat (ni + length prog) <= n)%Z -> g_fun g n = None) /\
  g_edges g = all_edges ni prog outs.

Variable d : decoder V.
Hypothesis Hd : proper d.
Variables (genome : list Z) (nodes : list (Z * list Z)) (outs : list Z) (prog : list (pnode V)).
Hypothesis Hlay : layout d genome nodes outs.
Hypothesis Hfun : Forall (fun nd => 0 <= fst nd < Z.of_nat (length (c_prims d)))%Z nodes.
Hypothesis Hprog : program d (fun _ => []) nodes prog.
Let L := c_layers d. Let W := c_width d. Let A := c_arity d. Let NI := c_inputs d. Let N := num_cgp_nodes d.

Lemma prim_of layer pos nd p : nth_error nodes (layer * W + pos) = Some nd ->
  nth_error (c_prims d) (Z.to_nat (fst nd)) = Some p -> get_primitive d genome layer pos = Ok p.
Proof.
  intros Hj Hp. unfold get_primitive. fold W. rewrite (gene_fun d genome nodes outs Hlay _ _ Hj).
  assert (H : (0 <= fst nd < Z.of_nat (length (c_prims d)))%Z) by (rewrite Forall_forall in Hfun; apply Hfun; eapply nth_error_In, Hj).
  destruct (fst nd <? Z.of_nat (length (c_prims d)))%Z eqn:E; [|lia]. unfold py_index.
  destruct (fst nd <? 0)%Z eqn:E0; [lia|]. rewrite E0, Hp. reflexivity.
Qed.
Lemma sources_of layer pos nd : nth_error nodes (layer * W + pos) = Some nd -> get_input_sources d genome layer pos = Ok (snd nd).
Proof.
  intros Hj. unfold get_input_sources. fold W A.
  assert (Hlen : length (snd nd) = A).
  { pose proof Hlay as (_ & _ & F & _). rewrite Forall_forall in F. apply F. eapply nth_error_In, Hj. }
  assert (G : forall n s, s + n = A ->
    fold_right (fun i r => bind r (fun l => match nth_error genome ((layer * W + pos) * (A + 1) + 1 + i) with
       Some x => Ok (x :: l) | None => Err IndexError end)) (Ok []) (seq s n) = Ok (skipn s (snd nd))).
  { induction n as [|n IH]; intros s Hs.
    - cbn. rewrite skipn_all2 by lia. reflexivity.
    - cbn [seq fold_right]. rewrite IH by lia. cbn [bind]. unfold A. rewrite (gene_src d genome nodes outs Hlay _ _ s Hj) by (unfold A in Hs; lia).
      destruct (nth_error (snd nd) s) as [x|] eqn:E; [|apply nth_error_None in E; unfold A in *; lia].
      f_equal. clear -E. revert s E. induction (snd nd) as [|y l IH]; intros [|s] E; try discriminate.
      + injection E as ->. reflexivity.
      + cbn [skipn]. apply IH, E. }
  apply (G A 0). reflexivity.
Qed.

Let g0 := mk_graph (V:=V) (zrange 0 N) [] (fun _ => None) (fun _ => None).

Lemma zrange_nodup a n : NoDup (zrange a n).
Proof. unfold zrange. apply FinFun.Injective_map_NoDup; [intros x y; apply Nat2Z.inj|apply seq_NoDup]. Qed.

Lemma wild_loop n : n <= L * W ->
  exists g, fold_left (fun r ln => bind r (fun g => add_cgp_node d genome g (fst ln) (snd ln)))
    (map (fun j => (j / W, j mod W)) (seq 0 n)) (Ok g0) = Ok g /\
    NoDup (g_nodes g) /\ (forall y, In y (g_nodes g) <-> (0 <= y < Z.of_nat N)%Z \/ exists e, In e (g_edges g) /\ y = src e) /\
    g_edges g = edges_upto d prog n /\ g_par g = (fun _ => None) /\
    (forall j p srcs par, j < n -> nth_error prog j = Some (p, srcs, par) -> g_fun g (Z.of_nat (NI + j)) = Some p) /\
    (forall m, (Z.of_nat (NI + n) <= m)%Z -> g_fun g m = None).
Proof.
  induction n as [|n IH]; intros Hn.
  - exists g0. split; [reflexivity|]. split; [apply zrange_nodup|]. split.
    { intros y. cbn [g_nodes g_edges g0]. unfold g0. cbn. rewrite zrange_in. cbn [Nat.add].
      split; [intros H; left; lia|intros [H|(e & [] & _)]; lia]. }
    split; [reflexivity|]. split; [reflexivity|]. split; [intros; lia|reflexivity].
  - destruct IH as (g & E & H1 & H2 & H3 & H4 & H5 & H6); [lia|]. rewrite seq_S, map_app, fold_left_app, E. cbn [Nat.add map fold_left bind].
    assert (HW : 0 < W) by apply Hd.
    assert (En : n / W * W + n mod W = n) by (symmetry; rewrite Nat.mul_comm; apply Nat.div_mod; lia).
    destruct (nth_error nodes n) as [nd|] eqn:End.
    2:{ apply nth_error_None in End. destruct Hlay as (_ & Hl & _). fold L W in Hl. lia. }
    pose proof Hprog as [_ HP]. destruct (HP n nd End) as (p & Ep & Epr).
    unfold add_cgp_node. cbn [fst snd].
    rewrite (prim_of (n / W) (n mod W) nd p) by (rewrite ?En; assumption). cbn [bind].
    rewrite (sources_of (n / W) (n mod W) nd) by (rewrite ?En; assumption). cbn [bind].
    fold (used p (snd nd)). fold NI W. replace (NI + n / W * W + n mod W) with (NI + n) by lia.
    fold (arg_edges (Z.of_nat (NI + n)) (used p (snd nd))).
    destruct (add_edges_any (arg_edges (Z.of_nat (NI + n)) (used p (snd nd))) (set_fun g (Z.of_nat (NI + n)) p)) as (G1 & G2 & G3 & G4 & G5).
    eexists. split; [reflexivity|]. split; [apply G4; exact H1|]. split; [|split; [|split; [|split]]].
    + intros y. rewrite G5, G1. cbn [set_fun g_nodes g_edges]. rewrite H2. split.
      * intros [[H|(e & He & ->)]|(e & He & [-> | ->])].
        -- left. exact H.
        -- right. exists e. split; [apply in_or_app; left; exact He|reflexivity].
        -- right. exists e. split; [apply in_or_app; right; exact He|reflexivity].
        -- left. apply arg_edges_dst in He as (-> & _). unfold N, num_cgp_nodes. fold NI L W. lia.
      * intros [H|(e & He & ->)]; [left; left; exact H|]. apply in_app_or in He as [He|He]; [left; right; eauto|right; eauto].
    + rewrite G1. cbn [set_fun g_edges]. rewrite H3. rewrite (edges_upto_S d prog n _ Epr). reflexivity.
    + rewrite G3. exact H4.
    + rewrite G2. cbn [set_fun g_fun]. intros j p' srcs par Hj Hpj. destruct (Nat.eq_dec j n) as [-> | Hne].
      * rewrite Z.eqb_refl. rewrite Epr in Hpj. injection Hpj as -> _ _. reflexivity.
      * destruct (Z.of_nat (NI + j) =? Z.of_nat (NI + n))%Z eqn:Ez; [lia|]. apply (H5 j p' srcs par); [lia|exact Hpj].
    + rewrite G2. cbn [set_fun g_fun]. intros m Hm. destruct (m =? Z.of_nat (NI + n))%Z eqn:Ez; [lia|]. apply H6. lia.
Qed.

Lemma decode_wired : exists g, decode_graph d genome = Ok g /\ wired g NI prog outs.
Proof.
  unfold decode_graph. rewrite (genome_length d genome nodes outs Hlay), Nat.eqb_refl. cbn [negb].
  assert (HW : 0 < W) by apply Hd. fold L W. rewrite (grid W L HW).
  destruct (wild_loop (L * W) (le_n _)) as (g & E & H1 & H2 & H3 & H4 & H5 & H6). fold N. fold g0. rewrite E. cbn [bind].
  eexists. split; [reflexivity|]. rewrite (output_sources d genome nodes outs Hlay). unfold N at 1.
  rewrite lastn_zrange by (unfold num_cgp_nodes; lia). fold N.
  assert (Ho : length outs = c_outputs d) by (destruct Hlay as (_ & _ & _ & Ho); exact Ho).
  rewrite <- Ho. pose proof (prog_length d genome nodes outs Hlay prog _ Hprog) as Hpl. fold L W in Hpl.
  assert (EN : N - length outs = NI + L * W + 0).
  { rewrite Ho. unfold N, num_cgp_nodes. fold NI L W. lia. }
  assert (EE : map (fun st : Z * Z => ((fst st, snd st, None) : edge)) (combine outs (zrange (N - length outs) (length outs))) =
    map (fun ko => (snd ko, Z.of_nat (NI + L * W + fst ko), None)) (combine (seq 0 (length outs)) outs)).
  { unfold zrange. rewrite combine_map_r, map_map, EN. cbn [fst snd].
    exact (combine_swap_shift d outs (NI + L * W) 0 (fun s t => (s, Z.of_nat t, None))). }
  unfold edge in EE. rewrite EE.
  match goal with |- wired (fold_left add_edge ?es g) _ _ _ => destruct (add_edges_any es g) as (G1 & G2 & G3 & G4 & G5) end.
  assert (EA : g_edges g ++ map (fun ko => (snd ko, Z.of_nat (NI + L * W + fst ko), None)) (combine (seq 0 (length outs)) outs) = all_edges NI prog outs).
  { unfold all_edges. rewrite H3, Hpl. unfold edges_upto. rewrite firstn_all2 by lia. reflexivity. }
  split; [apply G4, H1|]. split; [|split; [|split]].
  - intros y. rewrite G5, G1, H2, Hpl.
    assert (EN' : N = NI + L * W + length outs) by (unfold N, num_cgp_nodes; fold NI L W; lia). rewrite EN'. split.
    + intros [[H|(e & He & ->)]|(e & He & [-> | ->])].
      * left. exact H.
      * right. exists e. split; [apply in_or_app; left; exact He|reflexivity].
      * right. exists e. split; [apply in_or_app; right; exact He|reflexivity].
      * left. apply in_map_iff in He as ([k s] & <- & Hk). apply in_combine_l in Hk. apply in_seq in Hk. cbn [dst fst snd]. lia.
    + intros [H|(e & He & ->)]; [left; left; exact H|]. apply in_app_or in He as [He|He]; [left; right; eauto|right; eauto].
  - rewrite G2, G3, H4. intros j p srcs par Hj. split.
    + apply (H5 j p srcs par); [|exact Hj]. rewrite <- Hpl. apply nth_error_Some. congruence.
    + destruct Hprog as [Hlen HP]. assert (Hjn : j < length nodes) by (rewrite <- Hlen; apply nth_error_Some; congruence).
      destruct (nth_error nodes j) as [nd|] eqn:End; [|apply nth_error_None in End; lia].
      destruct (HP j nd End) as (p' & _ & E'). congruence.
  - rewrite G2, Hpl. exact H6.
  - rewrite G1. exact EA.
Qed.
End Graph.

(** ** the first call *)
Section Run.
Context {V : Type}.
Variables (g : graph V) (ni : nat) (prog : list (pnode V)) (outs : list Z).
Hypothesis Hg : wired g ni prog outs.
Variable input : list V.
Hypothesis Hin : length input = ni.
Let np := length prog.
Let no := length outs.

Lemma wired_sources j p srcs par : nth_error prog j = Some (p, srcs, par) -> sorted_inputs g (Z.of_nat (ni + j)) = srcs.
Proof.
  intros Hj. unfold sorted_inputs. rewrite (sort_args prog (Z.of_nat (ni + j)) srcs).
  - apply arg_edges_srcs.
  - rewrite in_edges_perm. destruct Hg as (_ & _ & _ & _ & ->). rewrite (all_edges_node ni prog outs j p srcs par Hj). reflexivity.
Qed.
Lemma wired_output k o : nth_error outs k = Some o -> in_edges g (Z.of_nat (ni + np + k)) = [(o, Z.of_nat (ni + np + k), None)].
Proof.
  intros Hk. apply Permutation_length_1_inv. symmetry. rewrite in_edges_perm. destruct Hg as (_ & _ & _ & _ & ->).
  unfold np. rewrite (all_edges_out ni prog outs k o Hk). reflexivity.
Qed.
Lemma wired_member n : n < ni + np + no -> memZ (Z.of_nat n) (g_nodes g) = true.
Proof. intros H. apply memZ_in. destruct Hg as (_ & Hn & _). apply Hn. left. unfold np, no in H. lia. Qed.

(** exactly the numbers below j have an output *)
Definition exactly (o : Z -> option V) (j : nat) : Prop :=
  forall s, (0 <= s < Z.of_nat j)%Z <-> exists v, o s = Some v.

Lemma exactly_set o j v : exactly o j -> exactly (set_out o (Z.of_nat j) v) (S j).
Proof.
  intros H s. unfold set_out. destruct (s =? Z.of_nat j)%Z eqn:E.
  - split; [eauto|]. intros _. lia.
  - specialize (H s). split; intros K; [apply H; lia|apply H in K; lia].
Qed.

Lemma read_exactly o j srcs : exactly o j ->
  (Forall (fun s => 0 <= s < Z.of_nat j)%Z srcs -> exists args, read_all o srcs = Ok args) /\
  (~ Forall (fun s => 0 <= s < Z.of_nat j)%Z srcs -> read_all o srcs = Err KeyError).
Proof.
  intros Ho. induction srcs as [|s srcs [IH1 IH2]]; [split; [intros _; exists []; reflexivity|intros N; exfalso; apply N; constructor]|].
  cbn [read_all]. destruct (o s) as [v|] eqn:E.
  - assert (Hs : (0 <= s < Z.of_nat j)%Z) by (apply Ho; eauto). split.
    + intros F. inversion F as [|? ? _ Fr]; subst. destruct (IH1 Fr) as (args & ->). cbn. eauto.
    + intros N. rewrite IH2; [reflexivity|]. intros Fr. apply N. constructor; assumption.
  - split; [|reflexivity]. intros F. inversion F as [|? ? Hs _]; subst. apply Ho in Hs. destruct Hs as (v & Hv). congruence.
Qed.

Lemma forall_dec j (srcs : list Z) : Forall (fun s => 0 <= s < Z.of_nat j)%Z srcs \/ ~ Forall (fun s => 0 <= s < Z.of_nat j)%Z srcs.
Proof.
  destruct (Forall_dec (fun s => 0 <= s < Z.of_nat j)%Z) with (l := srcs) as [H|H]; [|left; exact H|right; exact H].
  intros s. destruct (Z_le_dec 0 s); [destruct (Z_lt_dec s (Z.of_nat j)); [left; lia|right; lia]|right; lia].
Qed.

Definition node_reads (j : nat) : Prop :=
  forall p srcs par, nth_error prog j = Some (p, srcs, par) -> Forall (fun s => 0 <= s < Z.of_nat (ni + j))%Z srcs.

Lemma node_reads_dec j : node_reads j \/ ~ node_reads j.
Proof.
  unfold node_reads. destruct (nth_error prog j) as [[[p srcs] par]|] eqn:E.
  - destruct (forall_dec (ni + j) srcs) as [H|H]; [left; intros p' s' q [= <- <- <-]; exact H|right; intros N; apply H, (N p srcs par eq_refl)].
  - left. discriminate.
Qed.

Hypothesis Htotal : forall j p srcs par, nth_error prog j = Some (p, srcs, par) -> forall args, exists v, p_call p args = Ok v.

Lemma wild_node o j : j < np -> exactly o (ni + j) ->
  (node_reads j -> exists v, run_node g o (Z.of_nat (ni + j)) = Ok (set_out o (Z.of_nat (ni + j)) v)) /\
  (~ node_reads j -> run_node g o (Z.of_nat (ni + j)) = Err KeyError).
Proof.
  intros Hj Ho. destruct (nth_error prog j) as [[[p srcs] par]|] eqn:E; [|apply nth_error_None in E; unfold np in Hj; lia].
  unfold run_node. rewrite wired_member by (unfold no; lia). cbn [negb]. rewrite (wired_sources j p srcs par E).
  destruct (read_exactly o (ni + j) srcs Ho) as [R1 R2]. split.
  - intros Hr. destruct (R1 (Hr p srcs par E)) as (args & ->). cbn [bind]. destruct Hg as (_ & _ & Hf & _).
    destruct (Hf j p srcs par E) as [-> _].
    destruct (Htotal j p srcs par E (args ++ match g_par g (Z.of_nat (ni + j)) with Some ps => ps | None => [] end)) as (v & ->).
    cbn [bind]. eauto.
  - intros Hn. rewrite R2; [reflexivity|]. intros F. apply Hn. intros p' s' q H. rewrite E in H. injection H as <- <- <-. exact F.
Qed.

Lemma wild_hidden m j o : j + m = np -> exactly o (ni + j) ->
  ((forall i, j <= i < np -> node_reads i) ->
     exists o', fold_left (fun r n => bind r (fun o => run_node g o n)) (zrange (ni + j) m) (Ok o) = Ok o' /\ exactly o' (ni + np)) /\
  ((exists i, j <= i < np /\ ~ node_reads i) ->
     fold_left (fun r n => bind r (fun o => run_node g o n)) (zrange (ni + j) m) (Ok o) = Err KeyError).
Proof.
  revert j o. induction m as [|m IH]; intros j o Hjm Ho.
  - cbn. split; [intros _; exists o; split; [reflexivity|replace np with j by lia; exact Ho]|intros (i & Hi & _); lia].
  - unfold zrange. cbn [seq map fold_left]. fold (zrange (S (ni + j)) m). cbn [bind].
    destruct (wild_node o j ltac:(lia) Ho) as [R1 R2]. destruct (node_reads_dec j) as [D|D].
    + destruct (R1 D) as (v & ->). pose proof (exactly_set o (ni + j) v Ho) as Ho'.
      replace (S (ni + j)) with (ni + S j) in * by lia. destruct (IH (S j) _ ltac:(lia) Ho') as [I1 I2]. split.
      * intros H. apply I1. intros i Hi. apply H. lia.
      * intros (i & Hi & N). apply I2. exists i. split; [|exact N]. destruct (Nat.eq_dec i j) as [->|]; [contradiction|lia].
    + rewrite (R2 D), fold_err. split; [|reflexivity]. intros H. exfalso. apply D, H. lia.
Qed.

Definition out_reads (k : nat) : Prop := forall s, nth_error outs k = Some s -> (0 <= s < Z.of_nat (ni + np + k))%Z.
Lemma out_reads_dec k : out_reads k \/ ~ out_reads k.
Proof.
  unfold out_reads. destruct (nth_error outs k) as [s|] eqn:E; [|left; discriminate].
  destruct (Z_le_dec 0 s); [destruct (Z_lt_dec s (Z.of_nat (ni + np + k)))|].
  - left. intros s' [= <-]. lia.
  - right. intros N. specialize (N s eq_refl). lia.
  - right. intros N. specialize (N s eq_refl). lia.
Qed.
Lemma wild_outputs m k o acc : k + m = no -> exactly o (ni + np + k) ->
  ((forall i, k <= i < no -> out_reads i) ->
     exists o' vs, fold_left (fun r n => bind r (fun acc => run_output g acc n)) (zrange (ni + np + k) m) (Ok (o, acc)) = Ok (o', vs) /\
       length vs = length acc + m) /\
  ((exists i, k <= i < no /\ ~ out_reads i) ->
     fold_left (fun r n => bind r (fun acc => run_output g acc n)) (zrange (ni + np + k) m) (Ok (o, acc)) = Err KeyError).
Proof.
  revert k o acc. induction m as [|m IH]; intros k o acc Hkm Ho.
  - cbn. split; [intros _; exists o, acc; split; [reflexivity|lia]|intros (i & Hi & _); lia].
  - destruct (nth_error outs k) as [s|] eqn:E; [|apply nth_error_None in E; unfold no in Hkm; lia].
    unfold zrange. cbn [seq map fold_left]. fold (zrange (S (ni + np + k)) m). cbn [bind].
    unfold run_output at 2 4. rewrite wired_member by lia. cbn [negb]. rewrite (wired_output k s E). cbn [src fst snd].
    destruct (out_reads_dec k) as [D|D].
    + destruct (proj1 (Ho s) (D s E)) as (v & Ev). rewrite Ev.
      pose proof (exactly_set o (ni + np + k) v Ho) as Ho'. replace (S (ni + np + k)) with (ni + np + S k) in * by lia.
      destruct (IH (S k) _ (acc ++ [v]) ltac:(lia) Ho') as [I1 I2]. split.
      * intros H. destruct I1 as (o' & vs & E' & Lv); [intros i Hi; apply H; lia|]. exists o', vs. split; [exact E'|].
        rewrite app_length in Lv. cbn in Lv. lia.
      * intros (i & Hi & N). apply I2. exists i. split; [|exact N]. destruct (Nat.eq_dec i k) as [->|]; [contradiction|lia].
    + assert (En : o s = None).
      { destruct (o s) as [v|] eqn:Ev; [|reflexivity]. exfalso. apply D. intros s' H. rewrite E in H. injection H as <-. apply Ho. eauto. }
      rewrite En, fold_err. split; [|reflexivity]. intros H. exfalso. apply D, H. lia.
Qed.

Lemma exactly_inputs : exactly (fold_left (fun o iv => set_out o (fst iv) (snd iv)) (combine (zrange 0 ni) input) (fun _ => None)) ni.
Proof.
  rewrite <- Hin.
  assert (G : forall l a o, exactly o a ->
    exactly (fold_left (fun o iv => set_out o (fst iv) (snd iv)) (combine (zrange a (length l)) l) o) (a + length l)).
  { induction l as [|x l IH]; intros a o H; unfold zrange; cbn [length seq map combine fold_left fst snd].
    - rewrite Nat.add_0_r. exact H.
    - fold (zrange (S a) (length l)). rewrite Nat.add_succ_r. apply (IH (S a)). apply exactly_set, H. }
  apply (G input 0). intros s. cbn. split; [lia|intros (v & Hv); discriminate].
Qed.

(** the numbers of nodes *)
Lemma known_length : (forall e, In e (g_edges g) -> (0 <= src e < Z.of_nat (ni + np + no))%Z) ->
  length (g_nodes g) = ni + np + no.
Proof.
  intros H. destruct Hg as (N & Hn & _). assert (P : Permutation (g_nodes g) (zrange 0 (ni + np + no))).
  { apply NoDup_Permutation; [exact N|apply zrange_nodup|]. intros y. rewrite Hn, zrange_in. fold np no.
    split; [intros [K|(e & He & ->)]; [lia|specialize (H e He); lia]|intros K; left; lia]. }
  rewrite (Permutation_length P). unfold zrange. rewrite map_length, seq_length. reflexivity.
Qed.
Lemma node_count : ni + np + no <= length (g_nodes g).
Proof.
  destruct Hg as (N & Hn & _). assert (I : incl (zrange 0 (ni + np + no)) (g_nodes g)).
  { intros y Hy. apply zrange_in in Hy. apply Hn. left. fold np no. lia. }
  pose proof (NoDup_incl_length (zrange_nodup 0 (ni + np + no)) I) as H. unfold zrange in H. rewrite map_length, seq_length in H. exact H.
Qed.
Lemma unknown_count n : In n (g_nodes g) -> ~ (0 <= n < Z.of_nat (ni + np + no))%Z -> ni + np + no < length (g_nodes g).
Proof.
  intros Hn H. destruct Hg as (N & Hm & _). assert (I : incl (n :: zrange 0 (ni + np + no)) (g_nodes g)).
  { intros y [<-|Hy]; [exact Hn|]. apply zrange_in in Hy. apply Hm. left. fold np no. lia. }
  assert (D : NoDup (n :: zrange 0 (ni + np + no))) by (constructor; [rewrite zrange_in; lia|apply zrange_nodup]).
  pose proof (NoDup_incl_length D I) as K. unfold zrange in K. cbn [length] in K. rewrite map_length, seq_length in K. lia.
Qed.

Lemma zrange_split a n m : zrange a (n + m) = zrange a n ++ zrange (a + n) m.
Proof. unfold zrange. rewrite seq_app, map_app. reflexivity. Qed.

Lemma all_reads_dec (D : nat -> Prop) n : (forall j, D j \/ ~ D j) -> (forall j, j < n -> D j) \/ exists j, j < n /\ ~ D j.
Proof.
  intros HD. induction n as [|n [IH|(j & Hj & N)]]; [left; intros; lia| |right; exists j; split; [lia|exact N]].
  destruct (HD n) as [H|H]; [left|right; exists n; split; [lia|exact H]].
  intros j Hj. destruct (Nat.eq_dec j n) as [->|]; [exact H|apply IH; lia].
Qed.

Lemma edge_source e : In e (g_edges g) ->
  (exists j p srcs par, nth_error prog j = Some (p, srcs, par) /\ In (src e) srcs) \/ exists k, nth_error outs k = Some (src e).
Proof.
  destruct Hg as (_ & _ & _ & _ & ->). unfold all_edges. intros He. apply in_app_or in He as [He|He].
  - left. apply in_concat in He as (es & Hes & He). apply in_map_iff in Hes as ([j [[p srcs] par]] & <- & Hj).
    cbn [fst snd] in He. apply arg_edges_dst in He as (_ & Hs & _). apply in_combine_r in Hj. apply In_nth_error in Hj as (i & Hi). eauto 6.
  - right. apply in_map_iff in He as ([k o] & <- & Hk). apply in_combine_r in Hk. apply In_nth_error in Hk as (i & Hi). exists i. exact Hi.
Qed.
Lemma output_is_edge k s : nth_error outs k = Some s -> exists e, In e (g_edges g) /\ src e = s.
Proof.
  intros Hk. pose proof (wired_output k s Hk) as E.
  assert (I : In (s, Z.of_nat (ni + np + k), None) (in_edges g (Z.of_nat (ni + np + k)))) by (rewrite E; left; reflexivity).
  apply (Permutation_in _ (in_edges_perm g _)) in I. apply filter_In in I as [I _]. exists (s, Z.of_nat (ni + np + k), None). auto.
Qed.

Lemma first_call :
  (readable ni prog outs -> exists o' vs, call g ni no (fun _ => None) input = Ok (o', vs) /\ length vs = no) /\
  (~ readable ni prog outs -> 0 < no -> call g ni no (fun _ => None) input = Err KeyError).
Proof.
  unfold call. rewrite Hin, Nat.eqb_refl. cbn [negb].
  set (o1 := fold_left _ _ (fun _ => None)). assert (H1 : exactly o1 ni) by apply exactly_inputs.
  assert (H1' : exactly o1 (ni + 0)) by (rewrite Nat.add_0_r; exact H1).
  destruct (wild_hidden np 0 o1 eq_refl H1') as [A1 A2]. rewrite Nat.add_0_r in A1, A2. split.
  - intros [R1 R2].
    assert (K : length (g_nodes g) = ni + np + no).
    { apply known_length. intros e He. destruct (edge_source e He) as [(j & p & srcs & par & Hj & Hs)|(k & Hk)].
      - specialize (R1 j p srcs par Hj). rewrite Forall_forall in R1. specialize (R1 _ Hs).
        assert (j < np) by (apply nth_error_Some; congruence). lia.
      - specialize (R2 k _ Hk). fold np in R2. assert (k < no) by (apply nth_error_Some; congruence). lia. }
    rewrite K. replace (ni + np + no - ni - no) with np by lia.
    destruct A1 as (o2 & E2 & H2); [intros i Hi; exact (R1 i)|]. rewrite E2. cbn [bind].
    assert (H2' : exactly o2 (ni + np + 0)) by (rewrite Nat.add_0_r; exact H2).
    destruct (wild_outputs no 0 o2 [] eq_refl H2') as [B1 _]. rewrite Nat.add_0_r in B1.
    destruct B1 as (o3 & vs & E3 & Lv); [intros i Hi; exact (R2 i)|]. exists o3, vs. split; [exact E3|exact Lv].
  - intros NR Hno. pose proof node_count as NC. set (h := length (g_nodes g) - ni - no).
    assert (Eh : h = np + (h - np)) by (unfold h; lia).
    rewrite Eh, zrange_split, fold_left_app.
    destruct (all_reads_dec node_reads np node_reads_dec) as [D|(j & Hj & N)].
    + destruct A1 as (o2 & E2 & H2); [intros i Hi; apply D; lia|]. rewrite E2.
      destruct (Nat.eq_dec h np) as [Eq|Ne].
      * rewrite Eq, Nat.sub_diag, Nat.add_0_r. cbn [zrange seq map fold_left bind].
        assert (H2' : exactly o2 (ni + np + 0)) by (rewrite Nat.add_0_r; exact H2).
        destruct (wild_outputs no 0 o2 [] eq_refl H2') as [_ B2]. rewrite Nat.add_0_r in B2. apply B2.
        destruct (all_reads_dec out_reads no out_reads_dec) as [D'|(k & Hk & N)]; [|exists k; split; [lia|exact N]].
        exfalso. apply NR. split.
        { intros i p srcs par Hi. apply (D i (proj1 (nth_error_Some prog i) ltac:(congruence)) p srcs par Hi). }
        { intros k s Hk. apply (D' k (proj1 (nth_error_Some outs k) ltac:(congruence)) s Hk). }
      * assert (Hh : exists m, h - np = S m) by (exists (h - np - 1); unfold h in *; lia). destruct Hh as (m & ->).
        unfold zrange. cbn [seq map fold_left]. cbn [bind].
        assert (EK : run_node g o2 (Z.of_nat (ni + np)) = Err KeyError).
        { destruct (nth_error outs 0) as [s|] eqn:Es; [|apply nth_error_None in Es; unfold no in Hno; lia].
          unfold run_node. rewrite wired_member by lia. cbn [negb].
          assert (Ei : sorted_inputs g (Z.of_nat (ni + np)) = [s]).
          { unfold sorted_inputs. pose proof (wired_output 0 s Es) as X. rewrite Nat.add_0_r in X. rewrite X. reflexivity. }
          rewrite Ei. cbn [read_all]. destruct (o2 s); cbn [bind]; [|reflexivity].
          destruct Hg as (_ & _ & _ & Hnone & _). rewrite Hnone by (unfold np; lia). reflexivity. }
        rewrite EK, fold_err. reflexivity.
    + assert (E2 : fold_left (fun r n => bind r (fun o => run_node g o n)) (zrange ni np) (Ok o1) = Err KeyError).
      { apply A2. exists j. split; [lia|exact N]. }
      rewrite E2, fold_err. reflexivity.
Qed.

End Run.

(** ** an exception of a primitive *)
Section Raises.
Context {V : Type}.
Variables (g : graph V) (ni : nat) (prog : list (pnode V)) (outs : list Z).
Hypothesis Hg : circuit g ni prog outs.
Hypothesis Hff : feed_forward ni prog outs.
Variable input : list V.
Hypothesis Hin : length input = ni.

Lemma hidden_prefix m j o : j + m <= length prog -> computed ni prog input o j ->
  (forall i, i < j + m -> exists v, value ni prog input (Z.of_nat (ni + i)) v) ->
  exists o', fold_left (fun r n => bind r (fun o => run_node g o n)) (zrange (ni + j) m) (Ok o) = Ok o' /\ computed ni prog input o' (j + m).
Proof.
  revert j o. induction m as [|m IH]; intros j o Hjm Hc Hv.
  - exists o. rewrite Nat.add_0_r. split; [reflexivity|exact Hc].
  - destruct (nth_error prog j) as [[[p srcs] par]|] eqn:Hj; [|apply nth_error_None in Hj; lia].
    destruct (run_node_ok ni prog outs g Hg Hff input Hin o j p srcs par Hc Hj) as (args & F & E).
    unfold zrange. cbn [seq map fold_left]. fold (zrange (S (ni + j)) m). cbn [bind]. rewrite E.
    destruct (Hv j ltac:(lia)) as (v & Hvj).
    inversion Hvj as [k w Hk Hw Es Ev|j' p' srcs' par' args' w Hj' Hargs' Hc' Es Ev]; subst; [lia|].
    assert (j' = j) by lia. subst j'. rewrite Hj in Hj'. injection Hj' as <- <- <-.
    assert (args = args') as <- by (apply (values_det (length input) prog outs g Hg Hff input eq_refl srcs); assumption).
    rewrite Hc'. cbn [bind]. replace (S (length input + j)) with (length input + S j) by lia. replace (j + S m) with (S j + m) in * by lia.
    destruct (IH (S j) (set_out o (Z.of_nat (length input + j)) v)) as (o' & E' & C'); [lia|apply (computed_set (length input) prog input eq_refl o j v Hc Hvj)|intros i Hi; apply Hv; lia|].
    exists o'. split; [exact E'|exact C'].
Qed.

Lemma primitive_raises o j p srcs par args e : (forall i, i < j -> exists v, value ni prog input (Z.of_nat (ni + i)) v) ->
  nth_error prog j = Some (p, srcs, par) -> Forall2 (value ni prog input) srcs args -> p_call p (args ++ par) = Err e ->
  call g ni (length outs) o input = Err e.
Proof.
  intros Hv Hj Ha He. unfold call. rewrite Hin, Nat.eqb_refl. cbn [negb].
  assert (El : length (g_nodes g) - ni - length outs = length prog).
  { destruct Hg as (Hn & _). rewrite (Permutation_length Hn), map_length, seq_length. lia. }
  assert (Hjl : j < length prog) by (apply nth_error_Some; congruence).
  rewrite El. set (o1 := fold_left _ _ o). assert (Hc : computed ni prog input o1 0) by (apply set_inputs_computed, Hin).
  destruct (hidden_prefix j 0 o1 ltac:(lia) Hc) as (o2 & E2 & C2); [intros i Hi; apply Hv; lia|].
  rewrite Nat.add_0_r in E2. cbn [Nat.add] in C2.
  replace (length prog) with (j + S (length prog - S j)) by lia. rewrite zrange_split, fold_left_app, E2.
  unfold zrange at 1. cbn [seq map fold_left bind].
  destruct (run_node_ok ni prog outs g Hg Hff input Hin o2 j p srcs par C2 Hj) as (args' & F & E).
  assert (args' = args) as -> by (apply (values_det ni prog outs g Hg Hff input Hin srcs); assumption).
  rewrite E, He. cbn [bind]. rewrite fold_err. reflexivity.
Qed.
End Raises.

(** ** genomes to calls *)
Lemma decode_unpruned {V} (d : decoder V) genome : decode d false genome = decode_graph d genome.
Proof. unfold decode. destruct (decode_graph d genome); reflexivity. Qed.

Lemma wild_run V (d : decoder V) genome nodes outs prog : proper d -> layout d genome nodes outs ->
  Forall (fun nd => 0 <= fst nd < Z.of_nat (length (c_prims d)))%Z nodes -> program d (fun _ => []) nodes prog -> never_raise (c_prims d) ->
  exists g, decode d false genome = Ok g /\
    (forall o input, length input <> c_inputs d -> call g (c_inputs d) (c_outputs d) o input = Err AssertionError) /\
    forall input, length input = c_inputs d ->
      (readable (c_inputs d) prog outs ->
         exists o' vs, call g (c_inputs d) (c_outputs d) (fun _ => None) input = Ok (o', vs) /\ length vs = c_outputs d) /\
      (~ readable (c_inputs d) prog outs -> call g (c_inputs d) (c_outputs d) (fun _ => None) input = Err KeyError).
Proof.
  intros Hd Hl Hf Hp Ht. destruct (decode_wired d Hd genome nodes outs prog Hl Hf Hp) as (g & E & Hw).
  exists g. rewrite decode_unpruned. split; [exact E|]. split.
  - intros o input H. unfold call. apply Nat.eqb_neq in H. rewrite H. reflexivity.
  - intros input Hi. assert (Ho : length outs = c_outputs d) by (destruct Hl as (_ & _ & _ & Ho); exact Ho). rewrite <- Ho.
    assert (HT : forall j p srcs par, nth_error prog j = Some (p, srcs, par) -> forall args, exists v, p_call p args = Ok v).
    { intros j p srcs par Hj. destruct Hp as [Hlen HP].
      destruct (nth_error nodes j) as [nd|] eqn:End.
      - destruct (HP j nd End) as (p' & Ep & Epr). rewrite Hj in Epr. injection Epr as -> _ _. apply Ht. eapply nth_error_In, Ep.
      - apply nth_error_None in End. assert (j < length prog) by (apply nth_error_Some; congruence). lia. }
    destruct (first_call g (c_inputs d) prog outs Hw input Hi HT) as [H1 H2]. split; [exact H1|].
    intros N. apply H2; [exact N|]. rewrite Ho. apply Hd.
Qed.

Lemma raising_run V (d : decoder V) genome nodes outs prog input : proper d -> layout d genome nodes outs -> feasible d nodes outs ->
  program d (fun _ => []) nodes prog -> length input = c_inputs d ->
  exists g, decode d false genome = Ok g /\
  forall o j p srcs par args e, (forall i, i < j -> exists v, value (c_inputs d) prog input (Z.of_nat (c_inputs d + i)) v) ->
    nth_error prog j = Some (p, srcs, par) -> Forall2 (value (c_inputs d) prog input) srcs args -> p_call p (args ++ par) = Err e ->
    call g (c_inputs d) (c_outputs d) o input = Err e.
Proof.
  intros Hd Hl Hf Hp Hi. destruct (decode_ok d Hd false genome nodes outs prog Hl Hf Hp) as (g & E & Hc & Hff).
  exists g. split; [exact E|]. intros o j p srcs par args e. assert (Ho : length outs = c_outputs d) by (destruct Hl as (_ & _ & _ & Ho); exact Ho).
  rewrite <- Ho. exact (primitive_raises g (c_inputs d) prog outs Hc Hff input Hi o j p srcs par args e).
Qed.

(** Two nodes side by side; the first reads the second. *)
Definition wild_prims : list (prim Z) := [ex_sum; ex_opp].
Definition wild_nodes : list (Z * list Z) := [(0, [0; 3]); (1, [1; 7]); (0, [2; 3]); (1, [2; 2])]%Z.
Definition wild_genome : list Z := [0; 0; 3; 1; 1; 7; 0; 2; 3; 1; 2; 2; 4]%Z.
