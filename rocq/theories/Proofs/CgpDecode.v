(** Bounds, layout and decoding of CGP genomes. *)
From Coq Require Import Lia Permutation Sorted ZifyBool.
From Verif Require Import Model.Base Model.PyList Model.Cgp Spec.Cgp Proofs.RankOrdinal.

Lemma flat_map_concat {A B} (f : A -> list B) l : flat_map f l = concat (map f l).
Proof. induction l; simpl; congruence. Qed.

Lemma grid_from W L a : 0 < W ->
  list_prod (seq a L) (seq 0 W) = map (fun j => (j / W, j mod W)) (seq (a * W) (L * W)).
Proof.
  intros HW. revert a. induction L as [|L IH]; intros a; [reflexivity|].
  cbn [seq list_prod]. rewrite IH. replace (S L * W) with (W + L * W) by lia. rewrite seq_app, map_app.
  replace (a * W + W) with (S a * W) by lia. f_equal.
  replace (a * W) with (a * W + 0) at 1 by lia.
  assert (forall n s, s + n <= W -> map (fun y => (a, y)) (seq s n) = map (fun j => (j / W, j mod W)) (seq (a * W + s) n)) as H.
  { induction n as [|n IHn]; intros s Hs; [reflexivity|]. cbn [seq map]. f_equal.
    - f_equal; [apply Nat.div_unique with s; lia|apply Nat.mod_unique with a; lia].
    - replace (S (a * W + s)) with (a * W + S s) by lia. apply IHn. lia. }
  apply H. lia.
Qed.

Lemma grid W L : 0 < W -> list_prod (seq 0 L) (seq 0 W) = map (fun j => (j / W, j mod W)) (seq 0 (L * W)).
Proof. intros H. apply (grid_from W L 0 H). Qed.

Lemma combine_app_eq {A B} (a1 : list A) (b1 : list B) a2 b2 :
  length a1 = length b1 -> combine (a1 ++ a2) (b1 ++ b2) = combine a1 b1 ++ combine a2 b2.
Proof.
  revert b1. induction a1 as [|x a1 IH]; intros [|y b1] H; try discriminate; [reflexivity|].
  cbn. f_equal. apply IH. injection H as H. exact H.
Qed.

Lemma combine_flat_map {A B C} (f : A -> list B) (g : A -> list C) l :
  (forall x, length (f x) = length (g x)) ->
  combine (flat_map f l) (flat_map g l) = flat_map (fun x => combine (f x) (g x)) l.
Proof.
  intros H. induction l as [|x l IH]; [reflexivity|]. cbn [flat_map]. rewrite combine_app_eq by apply H. rewrite IH. reflexivity.
Qed.

Lemma combine_repeat {A B} (a : A) (b : B) n : combine (repeat a n) (repeat b n) = repeat (a, b) n.
Proof. induction n; simpl; congruence. Qed.

Lemma flat_map_prod {A B C} (f : A -> B -> list C) la lb :
  flat_map (fun a => flat_map (f a) lb) la = flat_map (fun ab => f (fst ab) (snd ab)) (list_prod la lb).
Proof.
  induction la as [|a la IH]; [reflexivity|]. cbn [flat_map list_prod]. rewrite flat_map_app, IH. f_equal.
  clear. induction lb; simpl; congruence.
Qed.

Lemma flat_map_const_length {A B} (f : A -> list B) n l : (forall x, length (f x) = n) -> length (flat_map f l) = length l * n.
Proof. intros H. induction l; cbn [flat_map length]; [reflexivity|]. rewrite app_length, H, IHl. lia. Qed.

Lemma Forall2_len {A B} (R : A -> B -> Prop) l m : Forall2 R l m -> length l = length m.
Proof. induction 1; cbn; congruence. Qed.

Lemma memZ_in x l : memZ x l = true <-> In x l.
Proof.
  unfold memZ. rewrite existsb_exists. split; [intros (y & Hy & E); apply Z.eqb_eq in E; subst; exact Hy|].
  intros H. exists x. split; [exact H|apply Z.eqb_refl].
Qed.

Lemma zrange_in a n x : In x (zrange a n) <-> (Z.of_nat a <= x < Z.of_nat (a + n))%Z.
Proof.
  unfold zrange. rewrite in_map_iff. split.
  - intros (k & <- & Hk). apply in_seq in Hk. lia.
  - intros H. exists (Z.to_nat x). split; [lia|]. apply in_seq. lia.
Qed.

Section Decode.
Context {V : Type}.
Variable d : decoder V.
Hypothesis Hd : proper d.
Let L := c_layers d.
Let W := c_width d.
Let A := c_arity d.
Let NI := c_inputs d.

Definition block (l : nat) : list (Z * Z) :=
  (0, Z.of_nat (length (c_prims d)) - 1)%Z :: repeat (min_source d l, max_source d l) A.

Lemma bounds_blocks : bounds d =
  flat_map (fun j => block (j / W)) (seq 0 (L * W)) ++ repeat (0, Z.of_nat (NI + L * W) - 1)%Z (c_outputs d).
Proof.
  destruct Hd as (_ & _ & _ & _ & HW & _).
  unfold bounds, min_bounds, max_bounds. rewrite !flat_map_prod. rewrite combine_app_eq.
  - rewrite combine_flat_map by (intros; cbn [length]; rewrite !repeat_length; reflexivity).
    rewrite combine_repeat. f_equal.
    + rewrite grid by exact HW. rewrite flat_map_concat, map_map, <- flat_map_concat.
      rewrite !flat_map_concat. f_equal. apply map_ext. intros j. cbn [fst snd combine]. rewrite combine_repeat. reflexivity.
    + f_equal. f_equal. unfold num_cgp_nodes, NI, L, W. lia.
  - rewrite !(flat_map_const_length _ (S A)) by (intros; cbn [length]; rewrite repeat_length; reflexivity). reflexivity.
Qed.

Lemma bounds_length : length (bounds d) = num_genes d.
Proof.
  rewrite bounds_blocks, app_length, repeat_length. unfold num_genes.
  rewrite (flat_map_const_length _ (A + 1)) by (intros; unfold block; cbn [length]; rewrite repeat_length; lia).
  rewrite seq_length. reflexivity.
Qed.

Lemma Forall2_app_split {B C} (R : B -> C -> Prop) l m1 m2 :
  Forall2 R l (m1 ++ m2) -> exists l1 l2, l = l1 ++ l2 /\ Forall2 R l1 m1 /\ Forall2 R l2 m2.
Proof. intros H. apply Forall2_app_inv_r in H as (l1 & l2 & H1 & H2 & E). eauto. Qed.

Lemma Forall2_repeat {B C} (R : B -> C -> Prop) l b n :
  Forall2 R l (repeat b n) <-> length l = n /\ Forall (fun x => R x b) l.
Proof.
  revert l. induction n as [|n IH]; intros l; cbn [repeat].
  - split; [intros H; inversion H; split; [reflexivity|constructor]|intros [H _]; destruct l; [constructor|discriminate]].
  - split.
    + intros H. inversion H; subst. apply IH in H4 as [E F]. split; [cbn; congruence|constructor; assumption].
    + intros [E F]. destruct l as [|x l]; [discriminate|]. inversion F; subst. constructor; [assumption|]. apply IH.
      split; [injection E as E; exact E|assumption].
Qed.

Let R := (fun (g : Z) (b : Z * Z) => fst b <= g <= snd b)%Z.

Definition node_ok (l : nat) (nd : Z * list Z) : Prop :=
  (0 <= fst nd < Z.of_nat (length (c_prims d)))%Z /\ length (snd nd) = A /\ Forall (may_read d l) (snd nd).

Lemma source_range l s : R s (min_source d l, max_source d l) <-> may_read d l s.
Proof.
  unfold R, min_source, max_source, may_read. cbn [fst snd]. fold NI W. destruct (Nat.eq_dec l 0) as [-> | Hl].
  - cbn [Nat.eqb orb]. split; intros H; [split; [lia|lia]|lia].
  - destruct ((l =? 0) || (Z.of_nat l <? c_back d)%Z) eqn:E.
    + split; [intros H; split; [nia|lia]|intros [H _]; nia].
    + assert (c_back d <= Z.of_nat l)%Z by lia.
      split; [intros H1; split; [|lia]|intros [H1 H2]; specialize (H2 ltac:(lia) H); nia].
      split; [|nia]. assert (0 <= (Z.of_nat l - c_back d) * Z.of_nat W)%Z by nia. lia.
Qed.

Lemma block_ok l b : Forall2 R b (block l) <-> exists nd, b = fst nd :: snd nd /\ node_ok l nd.
Proof.
  unfold block, node_ok. split.
  - intros H. inversion H as [|x y b' ? Hx Hb]; subst. apply Forall2_repeat in Hb as [E F].
    exists (x, b'). cbn [fst snd]. split; [reflexivity|]. split; [unfold R in Hx; cbn in Hx; lia|]. split; [exact E|].
    eapply Forall_impl; [|exact F]. intros s. apply source_range.
  - intros ([x b'] & -> & H1 & H2 & H3). cbn [fst snd] in *. constructor; [unfold R; cbn; lia|]. apply Forall2_repeat.
    split; [exact H2|]. eapply Forall_impl; [|exact H3]. intros s. apply source_range.
Qed.

Lemma blocks_ok js g rest : Forall2 R g (flat_map (fun j => block (j / W)) js ++ rest) <->
  exists nodes outs, g = concat (map (fun nd => fst nd :: snd nd) nodes) ++ outs /\
    Forall2 (fun nd j => node_ok (j / W) nd) nodes js /\ Forall2 R outs rest.
Proof.
  revert g. induction js as [|j js IH]; intros g; cbn [flat_map].
  - cbn [app]. split.
    + intros H. exists [], g. split; [reflexivity|]. split; [constructor|exact H].
    + intros (nodes & outs & -> & H1 & H2). inversion H1; subst. exact H2.
  - rewrite <- app_assoc. split.
    + intros H. apply Forall2_app_split in H as (l1 & l2 & -> & H1 & H2). apply block_ok in H1 as (nd & -> & Hn).
      apply IH in H2 as (nodes & outs & -> & H3 & H4). exists (nd :: nodes), outs. cbn [map concat]. rewrite <- app_assoc.
      split; [reflexivity|]. split; [constructor; assumption|assumption].
    + intros (nodes & outs & -> & H1 & H2). inversion H1 as [|nd ? nodes' ? Hn Hr]; subst. cbn [map concat]. rewrite <- app_assoc.
      apply Forall2_app; [apply block_ok; eauto|]. apply IH. eauto.
Qed.

Lemma Forall2_seq {B} (Q : B -> nat -> Prop) l a n :
  Forall2 Q l (seq a n) <-> length l = n /\ forall j x, nth_error l j = Some x -> Q x (a + j).
Proof.
  revert a l. induction n as [|n IH]; intros a l; cbn [seq].
  - split; [intros H; inversion H; split; [reflexivity|intros j x E; destruct j; discriminate]|].
    intros [H _]. destruct l; [constructor|discriminate].
  - split.
    + intros H. inversion H as [|x ? l' ? Hx Hl]; subst. apply IH in Hl as [E F]. split; [cbn; congruence|].
      intros [|j] y Hy; cbn in Hy.
      * injection Hy as <-. rewrite Nat.add_0_r. exact Hx.
      * rewrite <- Nat.add_succ_comm. apply F, Hy.
    + intros [E F]. destruct l as [|x l]; [discriminate|]. constructor.
      * specialize (F 0 x eq_refl). rewrite Nat.add_0_r in F. exact F.
      * apply IH. split; [injection E as E; exact E|]. intros j y Hy. rewrite Nat.add_succ_comm. apply (F (S j) y Hy).
Qed.

Lemma grid_index : forall layer pos, pos < W -> (layer * W + pos) / W = layer.
Proof. intros layer pos H. symmetry. apply Nat.div_unique with pos; lia. Qed.

(** the genomes within the bounds are the feasible ones *)
Lemma within_iff genome : within genome (bounds d) <->
  exists nodes outs, layout d genome nodes outs /\ feasible d nodes outs.
Proof.
  assert (HW : 0 < W) by apply Hd.
  unfold within. rewrite bounds_blocks. fold R. rewrite blocks_ok. split.
  - intros (nodes & outs & E & H1 & H2). exists nodes, outs. apply Forall2_repeat in H2 as [H2 H3].
    apply Forall2_seq in H1 as [H1 H4]. split.
    + split; [exact E|]. split; [exact H1|]. split; [|exact H2]. apply Forall_forall. intros nd Hin.
      apply In_nth_error in Hin as (j & Hj). exact (proj1 (proj2 (H4 j nd Hj))).
    + split.
      * intros layer pos nd Hl Hp Hn. destruct (H4 _ _ Hn) as (G1 & _ & G3). split; [exact G1|].
        cbn [Nat.add] in G3. fold W in G3. rewrite grid_index in G3 by exact Hp. exact G3.
      * eapply Forall_impl; [|exact H3]. intros s Hs. unfold R in Hs. cbn in Hs. fold NI L W. lia.
  - intros (nodes & outs & (E & H1 & H2 & H3) & F1 & F2). exists nodes, outs. split; [exact E|]. split.
    + apply Forall2_seq. split; [exact H1|]. intros j nd Hj. cbn [Nat.add].
      assert (Hjl : j < L * W) by (unfold L, W; rewrite <- H1; apply nth_error_Some; congruence).
      assert (Ej : j = j / W * W + j mod W) by (rewrite Nat.mul_comm; apply Nat.div_mod; lia).
      destruct (F1 (j / W) (j mod W) nd) as [G1 G2].
      * apply Nat.div_lt_upper_bound; [lia|]. unfold L in Hjl. lia.
      * apply Nat.mod_upper_bound. lia.
      * fold W. rewrite <- Ej. exact Hj.
      * split; [exact G1|]. split; [|exact G2]. rewrite Forall_forall in H2. apply H2. eapply nth_error_In, Hj.
    + apply Forall2_repeat. split; [exact H3|]. eapply Forall_impl; [|exact F2]. intros s Hs. unfold R. cbn [fst snd]. unfold NI, L, W in *. cbv beta in Hs. lia.
Qed.

(** ** check_constraints *)
Lemma check_genes_iff genome bs : length genome = length bs ->
  check_genes genome bs = Ok tt <-> exists zs, genome = map GInt zs /\ within zs bs.
Proof.
  revert bs. induction genome as [|g genome IH]; intros [|[lo hi] bs] E; try discriminate.
  - cbn. split; [intros _; exists []; split; [reflexivity|constructor]|auto].
  - injection E as E. cbn [check_genes]. destruct g as [z|].
    + destruct ((z <? lo)%Z || (hi <? z)%Z) eqn:C.
      * split; [discriminate|]. intros ([|z' zs] & Eq & Hw); [discriminate|]. injection Eq as <- Eq.
        inversion Hw as [|? ? ? ? Hz]; subst. cbn in Hz. lia.
      * rewrite (IH bs E). split.
        -- intros (zs & -> & Hw). exists (z :: zs). split; [reflexivity|]. constructor; [cbn; lia|exact Hw].
        -- intros ([|z' zs] & Eq & Hw); [discriminate|]. injection Eq as <- Eq. inversion Hw; subst. eauto.
    + split; [discriminate|]. intros ([|z' zs] & Eq & _); discriminate.
Qed.

Lemma check_iff genome g' : check_constraints d genome = Ok g' <->
  g' = genome /\ exists zs, genome = map GInt zs /\ within zs (bounds d).
Proof.
  unfold check_constraints. destruct (length genome =? length (bounds d)) eqn:E; cbn [negb].
  - apply Nat.eqb_eq in E. pose proof (check_genes_iff genome (bounds d) E) as H.
    destruct (check_genes genome (bounds d)) as [[]|e]; cbn [bind].
    + split; [intros [= <-]; split; [reflexivity|]; apply H; reflexivity|intros [-> _]; reflexivity].
    + split; [discriminate|]. intros [_ Hz]. apply H in Hz. discriminate.
  - apply Nat.eqb_neq in E. split; [discriminate|]. intros (_ & zs & -> & Hw). exfalso. apply E. rewrite map_length.
    eapply Forall2_len, Hw.
Qed.

Lemma check_error genome e : check_constraints d genome = Err e -> e = ValueError.
Proof.
  unfold check_constraints. destruct (negb _); [intros [= <-]; reflexivity|].
  assert (H : forall g bs e', check_genes g bs = Err e' -> e' = ValueError).
  { induction g as [|[z|] g IH]; intros [|[lo hi] bs] e'; cbn; try discriminate; try (intros [= <-]; reflexivity).
    destruct (_ || _); [intros [= <-]; reflexivity|apply IH]. }
  destruct (check_genes genome (bounds d)) eqn:E; cbn [bind]; [discriminate|]. intros [= <-]. exact (H _ _ _ E).
Qed.

(** ** reading the genes of a node *)
Lemma nth_concat_block {B} (bs : list (list B)) n rest j b i : Forall (fun x => length x = n) bs ->
  nth_error bs j = Some b -> i < n -> nth_error (concat bs ++ rest) (j * n + i) = nth_error b i.
Proof.
  revert j. induction bs as [|x bs IH]; intros j HF Hj Hi; [destruct j; discriminate|]. inversion HF; subst.
  cbn [concat]. rewrite <- app_assoc. destruct j as [|j].
  - injection Hj as ->. cbn. rewrite nth_error_app1 by lia. reflexivity.
  - rewrite nth_error_app2 by lia. replace (S j * length x + i - length x) with (j * length x + i) by lia.
    apply IH; assumption.
Qed.

Variables (genome : list Z) (nodes : list (Z * list Z)) (outs : list Z).
Hypothesis Hlay : layout d genome nodes outs.
Hypothesis Hfea : feasible d nodes outs.

Let flat := map (fun nd : Z * list Z => fst nd :: snd nd) nodes.
Lemma flat_blocks : Forall (fun x => length x = A + 1) flat.
Proof.
  destruct Hlay as (_ & _ & H & _). unfold flat. apply Forall_map. eapply Forall_impl; [|exact H].
  intros nd E. cbn [length]. rewrite E. unfold A. lia.
Qed.
Lemma flat_nth j nd : nth_error nodes j = Some nd -> nth_error flat j = Some (fst nd :: snd nd).
Proof. intros H. unfold flat. rewrite nth_error_map, H. reflexivity. Qed.

Lemma gene_fun j nd : nth_error nodes j = Some nd -> nth_error genome (j * (A + 1)) = Some (fst nd).
Proof.
  intros H. pose proof flat_blocks as FB. pose proof (proj1 Hlay) as EG. fold flat in EG. rewrite EG. replace (j * (A + 1)) with (j * (A + 1) + 0) by lia.
  rewrite (nth_concat_block flat (A + 1) outs j _ 0 FB (flat_nth _ _ H)) by lia. reflexivity.
Qed.
Lemma gene_src j nd i : nth_error nodes j = Some nd -> i < A -> nth_error genome (j * (A + 1) + 1 + i) = nth_error (snd nd) i.
Proof.
  intros H Hi. pose proof flat_blocks as FB. pose proof (proj1 Hlay) as EG. fold flat in EG. rewrite EG. replace (j * (A + 1) + 1 + i) with (j * (A + 1) + S i) by lia.
  rewrite (nth_concat_block flat (A + 1) outs j _ (S i) FB (flat_nth _ _ H)) by lia. reflexivity.
Qed.
Lemma flat_length : length (concat flat) = L * W * (A + 1).
Proof.
  destruct Hlay as (_ & H & _ & _). fold L W in H. rewrite <- H.
  assert (G : forall bs : list (list Z), Forall (fun x => length x = A + 1) bs -> length (concat bs) = length bs * (A + 1)).
  { induction bs as [|b bs IH]; intros F; [reflexivity|]. inversion F; subst. cbn [concat length]. rewrite app_length, IH by assumption. lia. }
  rewrite (G flat flat_blocks). unfold flat. rewrite map_length. reflexivity.
Qed.
Lemma genome_length : length genome = num_genes d.
Proof.
  pose proof flat_length as H. destruct Hlay as (E & _ & _ & Ho). fold flat in E. rewrite E, app_length, H, Ho. reflexivity.
Qed.
Lemma output_sources : get_output_sources d genome = outs.
Proof.
  unfold get_output_sources. pose proof flat_length as H. destruct Hlay as (E & _). fold flat in E. rewrite E. unfold L, W, A in H.
  rewrite <- H. rewrite skipn_app, Nat.sub_diag. cbn [skipn]. rewrite skipn_all. reflexivity.
Qed.

Lemma node_bounds j nd : nth_error nodes j = Some nd ->
  j < L * W /\ node_ok (j / W) nd.
Proof.
  intros Hj. assert (HW : 0 < W) by apply Hd. destruct Hlay as (_ & Hl & Hs & _). destruct Hfea as [F1 _].
  assert (Hjl : j < L * W) by (fold L W in Hl; rewrite <- Hl; apply nth_error_Some; congruence). split; [exact Hjl|].
  assert (Ej : j = j / W * W + j mod W) by (rewrite Nat.mul_comm; apply Nat.div_mod; lia).
  destruct (F1 (j / W) (j mod W) nd) as [G1 G2].
  - apply Nat.div_lt_upper_bound; [lia|]. unfold L in Hjl. lia.
  - apply Nat.mod_upper_bound. lia.
  - fold W. rewrite <- Ej. exact Hj.
  - split; [exact G1|]. split; [|exact G2]. rewrite Forall_forall in Hs. apply Hs. eapply nth_error_In, Hj.
Qed.

Lemma source_below j nd : nth_error nodes j = Some nd -> Forall (fun s => 0 <= s < Z.of_nat (NI + j))%Z (snd nd).
Proof.
  intros Hj. destruct (node_bounds j nd Hj) as (_ & _ & _ & H). eapply Forall_impl; [|exact H].
  intros s [Hs _]. fold NI W in Hs. assert (HW : 0 < W) by apply Hd.
  assert (j / W * W <= j) by (rewrite Nat.mul_comm; apply Nat.mul_div_le; lia). lia.
Qed.

Lemma prim_at j nd : nth_error nodes j = Some nd -> exists p, nth_error (c_prims d) (Z.to_nat (fst nd)) = Some p.
Proof.
  intros Hj. destruct (node_bounds j nd Hj) as (_ & H & _). destruct (nth_error (c_prims d) (Z.to_nat (fst nd))) eqn:E; [eauto|].
  apply nth_error_None in E. lia.
Qed.

Lemma get_primitive_ok layer pos nd p : nth_error nodes (layer * W + pos) = Some nd ->
  nth_error (c_prims d) (Z.to_nat (fst nd)) = Some p -> get_primitive d genome layer pos = Ok p.
Proof.
  intros Hj Hp. unfold get_primitive. fold W A. rewrite (gene_fun _ _ Hj). destruct (node_bounds _ _ Hj) as (_ & H & _).
  destruct (fst nd <? Z.of_nat (length (c_prims d)))%Z eqn:E; [|lia]. unfold py_index.
  destruct (fst nd <? 0)%Z eqn:E0; [lia|]. rewrite E0, Hp. reflexivity.
Qed.

Lemma get_sources_ok layer pos nd : nth_error nodes (layer * W + pos) = Some nd ->
  get_input_sources d genome layer pos = Ok (snd nd).
Proof.
  intros Hj. unfold get_input_sources. fold W A.
  assert (Hlen : length (snd nd) = A) by (destruct (node_bounds _ _ Hj) as (_ & _ & H & _); exact H).
  assert (G : forall n s, s + n = A ->
    fold_right (fun i r => bind r (fun l => match nth_error genome ((layer * W + pos) * (A + 1) + 1 + i) with
       Some x => Ok (x :: l) | None => Err IndexError end)) (Ok []) (seq s n) = Ok (skipn s (snd nd))).
  { induction n as [|n IH]; intros s Hs.
    - cbn. rewrite skipn_all2 by lia. reflexivity.
    - cbn [seq fold_right]. rewrite IH by lia. cbn [bind]. rewrite (gene_src _ _ s Hj) by lia.
      destruct (nth_error (snd nd) s) as [x|] eqn:E; [|apply nth_error_None in E; lia].
      f_equal. clear -E. revert s E. induction (snd nd) as [|y l IH]; intros [|s] E; try discriminate.
      + injection E as ->. reflexivity.
      + cbn [skipn]. apply IH, E. }
  apply (G A 0). reflexivity.
Qed.


Lemma add_edges_ok (g : graph V) es : Forall (fun e => In (src e) (g_nodes g) /\ In (dst e) (g_nodes g)) es ->
  fold_left add_edge es g = mk_graph (g_nodes g) (g_edges g ++ es) (g_fun g) (g_par g).
Proof.
  revert g. induction es as [|e es IH]; intros g H; cbn [fold_left].
  - rewrite app_nil_r. destruct g; reflexivity.
  - inversion H as [|? ? [H1 H2] H3]; subst.
    assert (E : add_edge g e = mk_graph (g_nodes g) (g_edges g ++ [e]) (g_fun g) (g_par g)).
    { unfold add_edge, add_node. apply memZ_in in H1. rewrite H1. apply memZ_in in H2. rewrite H2. reflexivity. }
    rewrite E, IH by exact H3. cbn [g_nodes g_edges g_fun g_par]. rewrite <- app_assoc. reflexivity.
Qed.


Variable prog : list (pnode V).
Variable params : nat -> list V.
Hypothesis Hprog : program d params nodes prog.
Let N := num_cgp_nodes d.
Let g0 := mk_graph (V:=V) (zrange 0 N) [] (fun _ => None) (fun _ => None).

Definition edges_upto n := concat (map (fun jn => arg_edges (Z.of_nat (NI + fst jn)) (snd (fst (snd jn))))
   (combine (seq 0 n) (firstn n prog))).

Lemma prog_length : length prog = L * W.
Proof. destruct Hprog as [-> _]. destruct Hlay as (_ & H & _). exact H. Qed.

Lemma combine_seq_snoc {B} (l : list B) a x : combine (seq a (length (l ++ [x]))) (l ++ [x]) =
  combine (seq a (length l)) l ++ [(a + length l, x)].
Proof.
  rewrite app_length. cbn [length]. rewrite seq_app. cbn [seq]. rewrite combine_app_eq by apply seq_length. reflexivity.
Qed.

Lemma firstn_snoc {B} (l : list B) n x : nth_error l n = Some x -> firstn (S n) l = firstn n l ++ [x].
Proof.
  revert n. induction l as [|y l IH]; intros [|n] E; try discriminate.
  - injection E as ->. reflexivity.
  - cbn [firstn app]. f_equal. apply IH, E.
Qed.

Lemma edges_upto_S n nd : nth_error prog n = Some nd ->
  edges_upto (S n) = edges_upto n ++ arg_edges (Z.of_nat (NI + n)) (snd (fst nd)).
Proof.
  intros E. unfold edges_upto. assert (Hn : n < length prog) by (apply nth_error_Some; congruence).
  rewrite (firstn_snoc prog n nd E).
  assert (E1 : S n = length (firstn n prog ++ [nd])) by (rewrite app_length, firstn_length; cbn; lia).
  rewrite E1, combine_seq_snoc, map_app, concat_app. rewrite firstn_length, Nat.min_l by lia.
  cbn [map concat fst snd Nat.add]. rewrite app_nil_r. reflexivity.
Qed.

(** the loop of decode *)
Lemma decode_loop n : n <= L * W ->
  exists g, fold_left (fun r ln => bind r (fun g => add_cgp_node d genome g (fst ln) (snd ln)))
    (map (fun j => (j / W, j mod W)) (seq 0 n)) (Ok g0) = Ok g /\
    g_nodes g = zrange 0 N /\ g_edges g = edges_upto n /\ g_par g = (fun _ => None) /\
    forall j p srcs par, j < n -> nth_error prog j = Some (p, srcs, par) -> g_fun g (Z.of_nat (NI + j)) = Some p.
Proof.
  induction n as [|n IH]; intros Hn.
  - exists g0. split; [reflexivity|]. split; [reflexivity|]. split; [reflexivity|]. split; [reflexivity|]. intros. lia.
  - destruct IH as (g & E & H1 & H2 & H3 & H4); [lia|]. rewrite seq_S, map_app, fold_left_app, E. cbn [Nat.add map fold_left bind].
    assert (HW : 0 < W) by apply Hd.
    assert (En : n = n / W * W + n mod W) by (rewrite Nat.mul_comm; apply Nat.div_mod; lia).
    destruct (nth_error nodes n) as [nd|] eqn:End.
    2:{ apply nth_error_None in End. destruct Hlay as (_ & Hl & _). fold L W in Hl. lia. }
    pose proof Hprog as [_ HP]. destruct (HP n nd End) as (p & Ep & Epr).
    unfold add_cgp_node. cbn [fst snd].
    rewrite (get_primitive_ok (n / W) (n mod W) nd p) by (rewrite <- ?En; assumption). cbn [bind].
    rewrite (get_sources_ok (n / W) (n mod W) nd) by (rewrite <- ?En; assumption). cbn [bind].
    fold (used p (snd nd)). fold NI W. replace (NI + n / W * W + n mod W) with (NI + n) by lia.
    fold (arg_edges (Z.of_nat (NI + n)) (used p (snd nd))).
    rewrite add_edges_ok.
    + eexists. split; [reflexivity|]. cbn [g_nodes g_edges g_fun g_par set_fun]. split; [exact H1|].
      split; [rewrite H2; rewrite (edges_upto_S n _ Epr); reflexivity|]. split; [exact H3|].
      intros j p' srcs par Hj Hpj. destruct (Nat.eq_dec j n) as [-> | Hne].
      * rewrite Z.eqb_refl. rewrite Epr in Hpj. injection Hpj as -> _ _. reflexivity.
      * destruct (Z.of_nat (NI + j) =? Z.of_nat (NI + n))%Z eqn:Ez; [lia|]. apply (H4 j p' srcs par); [lia|exact Hpj].
    + cbn [set_fun g_nodes]. rewrite H1. apply Forall_forall. intros e He. unfold arg_edges in He.
      apply in_map_iff in He as ([k s] & <- & Hks). cbn [src dst fst snd].
      assert (Hs : In s (snd nd)).
      { apply in_combine_r in Hks. unfold used in Hks. destruct (p_arity p); [|exact Hks].
        rewrite <- (firstn_skipn n0 (snd nd)). apply in_or_app. left. exact Hks. }
      pose proof (source_below n nd End) as Hb. rewrite Forall_forall in Hb. specialize (Hb s Hs).
      unfold N, num_cgp_nodes. fold NI L W. split; apply zrange_in; lia.
Qed.

Lemma lastn_zrange n : n <= N -> lastn n (zrange 0 N) = zrange (N - n) n.
Proof.
  intros H. unfold lastn, zrange. rewrite map_length, seq_length, skipn_map. f_equal.
  replace N with ((N - n) + n) at 2 by lia. rewrite seq_app, skipn_app, seq_length.
  rewrite skipn_all2 by (rewrite seq_length; lia). rewrite Nat.sub_diag. reflexivity.
Qed.

Lemma combine_map_r {B C D} (f : C -> D) (a : list B) b : combine a (map f b) = map (fun x => (fst x, f (snd x))) (combine a b).
Proof. revert b. induction a as [|x a IH]; intros [|y b]; cbn; [reflexivity..|]. f_equal. apply IH. Qed.

Lemma combine_swap_shift {B} (l : list B) a n (mk : B -> nat -> edge) :
  map (fun st => mk (fst st) (snd st)) (combine l (seq (a + n) (length l))) =
  map (fun ko => mk (snd ko) (a + fst ko)) (combine (seq n (length l)) l).
Proof.
  revert n. induction l as [|x l IH]; intros n; [reflexivity|]. cbn [length seq combine map fst snd]. f_equal.
  rewrite <- IH. f_equal. f_equal. f_equal. lia.
Qed.

(** decoding a feasible genome *)
Lemma decode_graph_ok : exists g, decode_graph d genome = Ok g /\ g_nodes g = zrange 0 N /\ g_par g = (fun _ => None) /\
  (forall j p srcs par, nth_error prog j = Some (p, srcs, par) -> g_fun g (Z.of_nat (NI + j)) = Some p) /\
  g_edges g = concat (map (fun jn => arg_edges (Z.of_nat (NI + fst jn)) (snd (fst (snd jn)))) (combine (seq 0 (length prog)) prog)) ++
     map (fun ko => (snd ko, Z.of_nat (NI + length prog + fst ko), None)) (combine (seq 0 (length outs)) outs).
Proof.
  unfold decode_graph. rewrite genome_length, Nat.eqb_refl. cbn [negb].
  assert (HW : 0 < W) by apply Hd. fold L W. rewrite (grid W L HW).
  destruct (decode_loop (L * W) (le_n _)) as (g & E & H1 & H2 & H3 & H4). fold N g0. rewrite E. cbn [bind].
  eexists. split; [reflexivity|]. rewrite output_sources, lastn_zrange by (unfold N, num_cgp_nodes; lia).
  assert (Ho : length outs = c_outputs d) by (destruct Hlay as (_ & _ & _ & Ho); exact Ho).
  rewrite <- Ho. pose proof prog_length as Hpl.
  assert (EN : N - length outs = NI + L * W + 0).
  { rewrite Ho. unfold N, num_cgp_nodes. fold NI L W. lia. }
  assert (EE : map (fun st : Z * Z => ((fst st, snd st, None) : edge)) (combine outs (zrange (N - length outs) (length outs))) =
    map (fun ko => (snd ko, Z.of_nat (NI + L * W + fst ko), None)) (combine (seq 0 (length outs)) outs)).
  { unfold zrange. rewrite combine_map_r, map_map, EN. cbn [fst snd].
    exact (combine_swap_shift outs (NI + L * W) 0 (fun s t => (s, Z.of_nat t, None))). }
  unfold edge in EE. rewrite EE.
  rewrite add_edges_ok.
  - cbn [g_nodes g_edges g_fun g_par]. split; [exact H1|]. split; [exact H3|]. split.
    + intros j p srcs par Hj. apply (H4 j p srcs par); [|exact Hj]. rewrite <- Hpl. apply nth_error_Some. congruence.
    + rewrite H2, Hpl. f_equal. unfold edges_upto. rewrite firstn_all2 by lia. reflexivity.
  - rewrite H1. apply Forall_forall. intros e He. apply in_map_iff in He as ([k s] & <- & Hks). cbn [src dst fst snd].
    pose proof (in_combine_l _ _ _ _ Hks) as Hk. apply in_seq in Hk. apply in_combine_r in Hks.
    destruct Hfea as [_ Hf]. rewrite Forall_forall in Hf. specialize (Hf s Hks). fold NI L W in Hf.
    unfold N, num_cgp_nodes. fold NI L W. split; apply zrange_in; lia.
Qed.

Lemma prog_feed_forward : feed_forward NI prog outs.
Proof.
  split.
  - intros j p srcs par Hj. destruct Hprog as [Hlen HP].
    assert (Hjn : j < length nodes) by (rewrite <- Hlen; apply nth_error_Some; congruence).
    destruct (nth_error nodes j) as [nd|] eqn:End; [|apply nth_error_None in End; lia].
    destruct (HP j nd End) as (p' & _ & E). rewrite Hj in E. injection E as -> -> ->.
    pose proof (source_below j nd End) as H. rewrite Forall_forall in *. intros s Hs. apply H. unfold used in Hs.
    destruct (p_arity p'); [|exact Hs]. rewrite <- (firstn_skipn n (snd nd)). apply in_or_app. left. exact Hs.
  - destruct Hfea as [_ H]. rewrite prog_length. exact H.
Qed.

(** parameters *)
Lemma set_params_ok (f : nat -> list V) g n :
  let g' := fold_left (fun g j => set_par g (Z.of_nat (NI + j)) (f j)) (seq 0 n) g in
  g_nodes g' = g_nodes g /\ g_edges g' = g_edges g /\ g_fun g' = g_fun g /\
  forall j, g_par g' (Z.of_nat (NI + j)) = if j <? n then Some (f j) else g_par g (Z.of_nat (NI + j)).
Proof.
  induction n as [|n IH]; cbv zeta.
  - cbn. auto.
  - rewrite seq_S, fold_left_app. cbn [fold_left Nat.add]. destruct IH as (H1 & H2 & H3 & H4).
    cbn [set_par g_nodes g_edges g_fun g_par]. split; [exact H1|]. split; [exact H2|]. split; [exact H3|].
    intros j. rewrite H4. destruct (Z.of_nat (NI + j) =? Z.of_nat (NI + n))%Z eqn:E.
    + assert (j = n) by lia. subst. destruct (n <? S n) eqn:E2; [reflexivity|lia].
    + destruct (j <? n) eqn:E1, (j <? S n) eqn:E2; try reflexivity; lia.
Qed.

End Decode.
