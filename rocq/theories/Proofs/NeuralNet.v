From Verif Require Import Model.Base Model.NeuralNet Spec.NeuralNet.
From Coq Require Import Lia FinFun.

Lemma used_real shape : used_layers shape = real_layers shape.
Proof. unfold used_layers, real_layers. apply filter_ext. intros [|a]; reflexivity. Qed.
Lemma real_positive shape : Forall (fun x => 0 < x) (real_layers shape).
Proof. apply Forall_forall. intros x H. apply filter_In in H. destruct H as [_ H]. apply Nat.ltb_lt, H. Qed.

Lemma layer_dims_cons a b r : layer_dims (a :: b :: r) = (S a, b) :: layer_dims (b :: r).
Proof. reflexivity. Qed.
Lemma fold_add l : forall a, fold_left Nat.add l a = a + fold_left Nat.add l 0.
Proof. induction l as [|x l IH]; intros a; cbn; [lia|]. rewrite IH, (IH x). lia. Qed.
Lemma nn_length_cons d ds : nn_length (d :: ds) = fst d * snd d + nn_length ds.
Proof. unfold nn_length. cbn [map fold_left]. rewrite fold_add. lia. Qed.
Lemma length_needed sizes : nn_length (layer_dims sizes) = weights_needed sizes.
Proof.
  induction sizes as [|a [|b r] IH]; try reflexivity.
  rewrite layer_dims_cons, nn_length_cons, IH. cbn [fst snd weights_needed]. lia.
Qed.

Section S.
Context {V : Type}.
Implicit Types (genome : list V).

Lemma reshape_spec rows cols : forall l : list V, length l = rows * cols ->
  is_matrix rows cols (reshape rows cols l) /\ concat (reshape rows cols l) = l.
Proof.
  induction rows as [|r IH]; intros l H; cbn [reshape concat].
  - split; [split; [reflexivity|constructor]|]. destruct l; [reflexivity|discriminate].
  - destruct (IH (skipn cols l)) as [[I1 I2] I3]; [rewrite skipn_length; cbn in H; lia|].
    split; [split; [cbn; congruence|constructor; [rewrite firstn_length; cbn in H; lia|exact I2]]|].
    rewrite I3. apply firstn_skipn.
Qed.

Lemma weight_matrices_spec sizes : forall start genome, length genome = start + weights_needed sizes ->
  fits sizes (weight_matrices (layer_dims sizes) start genome) /\
  all_weights (weight_matrices (layer_dims sizes) start genome) = skipn start genome.
Proof.
  induction sizes as [|a [|b r] IH]; intros start genome H.
  1, 2: cbn; split; [exact I|]; symmetry; apply skipn_all2; cbn in H; lia.
  rewrite layer_dims_cons. cbn [weight_matrices]. cbn [weights_needed] in H.
  set (e := start + S a * b). specialize (IH e genome). destruct IH as [I1 I2].
  { unfold e. cbn [weights_needed] in H. change (match r with [] => 0 | b0 :: _ => (b + 1) * b0 + weights_needed r end)
      with (weights_needed (b :: r)) in H. lia. }
  replace (e - start) with (S a * b) by (unfold e; lia).
  destruct (reshape_spec (S a) b (firstn (S a * b) (skipn start genome))) as [M C].
  { rewrite firstn_length, skipn_length. lia. }
  split.
  - change (is_matrix (a + 1) b (reshape (S a) b (firstn (S a * b) (skipn start genome))) /\
            fits (b :: r) (weight_matrices (layer_dims (b :: r)) e genome)).
    split; [|exact I1]. replace (a + 1) with (S a) by lia. exact M.
  - unfold all_weights in *. cbn [map concat]. rewrite C, I2.
    rewrite <- (firstn_skipn (S a * b) (skipn start genome)) at 2. f_equal. unfold e. clear.
    revert start. induction genome as [|x g IH]; intros s; [rewrite !skipn_nil; reflexivity|].
    destruct s as [|s]; [reflexivity|]. cbn [skipn plus]. apply IH.
Qed.

Lemma decode_spec shape genome : 2 <= length shape ->
  let sizes := real_layers shape in
  exists dims, nn_dimensions shape = Ok dims /\
    (length genome = weights_needed sizes ->
       exists net, nn_decode dims genome = Ok net /\ fits sizes net /\ all_weights net = genome) /\
    (length genome <> weights_needed sizes -> nn_decode dims genome = Err ValueError).
Proof.
  intros H sizes. unfold nn_dimensions. destruct (Nat.leb_spec (length shape) 1); [lia|].
  eexists. split; [reflexivity|]. rewrite used_real. fold sizes. unfold nn_decode. rewrite length_needed. split.
  - intros E. rewrite E, Nat.eqb_refl. eexists. split; [reflexivity|]. apply weight_matrices_spec. exact E.
  - intros N. apply Nat.eqb_neq in N. rewrite N. reflexivity.
Qed.
Lemma init_short shape : length shape < 2 -> nn_dimensions shape = Err AssertionError.
Proof. intros H. unfold nn_dimensions. destruct (Nat.leb_spec (length shape) 1); [reflexivity|lia]. Qed.

(** a network is determined by its sizes and its weights *)
Lemma app_split (a a' b b' : list V) : length a = length a' -> a ++ b = a' ++ b' -> a = a' /\ b = b'.
Proof.
  revert a'. induction a as [|x a IH]; intros [|x' a'] L E; try discriminate; [auto|].
  cbn in *. injection E as -> E. destruct (IH a') as [-> ->]; auto.
Qed.
Lemma matrix_determined rows cols : forall (m m' : list (list V)) t t', is_matrix rows cols m -> is_matrix rows cols m' ->
  concat m ++ t = concat m' ++ t' -> m = m' /\ t = t'.
Proof.
  induction rows as [|r IH]; intros m m' t t' [L F] [L' F'] E; destruct m as [|x m], m' as [|x' m']; try discriminate.
  - auto.
  - inversion F as [|? ? F1 F2]; inversion F' as [|? ? F1' F2']; subst. cbn [concat] in E. rewrite <- !app_assoc in E.
    apply app_split in E; [|congruence]. destruct E as [-> E].
    destruct (IH m m' t t') as [-> ->]; auto; split; auto.
Qed.
Lemma net_determined sizes : forall (net net' : list (list (list V))), fits sizes net -> fits sizes net' ->
  all_weights net = all_weights net' -> net = net'.
Proof.
  induction sizes as [|a [|b r] IH]; intros net net' F F' E.
  1, 2: destruct net, net'; try destruct F; try destruct F'; reflexivity.
  destruct net as [|m ms], net' as [|m' ms']; try contradiction.
  destruct F as [M F], F' as [M' F']. unfold all_weights in *. cbn [map concat] in E.
  destruct (matrix_determined _ _ _ _ _ _ M M' E) as [-> E']. f_equal. apply IH; auto.
Qed.

(** ** sizes reported by the network *)
Lemma fits_length sizes : forall (net : list (list (list V))), sizes <> [] -> fits sizes net -> length sizes = S (length net).
Proof.
  induction sizes as [|a [|b r] IH]; intros net H F; [congruence|destruct net; [reflexivity|contradiction]|].
  destruct net as [|m ms]; [contradiction|]. destruct F as [_ F]. cbn [length]. f_equal. apply IH; [discriminate|exact F].
Qed.
Lemma last_matrix sizes : forall a b (m : list (list V)) ms, fits (a :: b :: sizes) (m :: ms) ->
  exists a', is_matrix (a' + 1) (last sizes b) (last ms m).
Proof.
  induction sizes as [|c r IH]; intros a b m ms [M F].
  - destruct ms; [|contradiction]. exists a. exact M.
  - destruct ms as [|m' ms]; [contradiction|]. destruct (IH b c m' ms F) as [a' H]. exists a'.
    replace (last (c :: r) b) with (last r c). replace (last (m' :: ms) m) with (last ms m'). exact H.
    + clear. revert m'. induction ms as [|x ms IH]; intros m'; [reflexivity|]. cbn. destruct ms; [reflexivity|]. apply IH.
    + clear. revert c. induction r as [|x r IH]; intros c; [reflexivity|]. cbn. destruct r; [reflexivity|]. apply IH.
Qed.
Lemma columns_matrix rows cols (m : list (list V)) : is_matrix (rows + 1) cols m -> columns m = cols.
Proof. intros [L F]. destruct m; [cbn in L; lia|]. inversion F; subst. reflexivity. Qed.
Lemma net_sizes a b r (net : list (list (list V))) : fits (a :: b :: r) net ->
  num_inputs net = Ok (Z.of_nat a) /\ num_outputs net = Ok (last r b) /\ num_hidden_layers net = Z.of_nat (length r).
Proof.
  intros F. pose proof (fits_length (a :: b :: r) net ltac:(discriminate) F) as L. destruct net as [|m ms]; [contradiction|].
  destruct (last_matrix _ _ _ _ _ F) as [a' M']. destruct F as [M _]. destruct M as [M1 _].
  unfold num_inputs, num_outputs, num_hidden_layers. split; [f_equal; lia|]. split.
  - f_equal. apply (columns_matrix a'). exact M'.
  - cbn [length] in *. lia.
Qed.

(** ** the graph *)
Lemma row_edges_ok s ts (row : list V) : length row = length ts ->
  row_edges s ts row = Ok (map (fun tw => (s, fst tw, snd tw)) (combine ts row)).
Proof. intros H. unfold row_edges. destruct (Nat.ltb_spec (length ts) (length row)); [lia|reflexivity]. Qed.
Lemma layer_edges_ok cols ts : length ts = cols -> forall (m : list (list V)) ss, length m <= length ss -> Forall (fun r => length r = cols) m ->
  exists es, layer_edges ss ts m = Ok es /\ map snd es = concat m /\
  forall s t w, In (s, t, w) es <->
    exists r c row, nth_error m r = Some row /\ nth_error row c = Some w /\ nth_error ss r = Some s /\ nth_error ts c = Some t.
Proof.
  intros Lt. induction m as [|row m IH]; intros ss L F.
  - exists []. split; [destruct ss; reflexivity|]. split; [reflexivity|]. intros s t w. split; [intros []|].
    intros (r & c & row & H & _). destruct r; discriminate.
  - destruct ss as [|s0 ss]; [cbn in L; lia|]. inversion F as [|? ? F1 F2]; subst.
    destruct (IH ss) as (es & E & S & I); [cbn in L; lia|auto|]. cbn [layer_edges]. rewrite row_edges_ok by auto. cbn [bind].
    rewrite E. cbn [bind]. eexists. split; [reflexivity|]. split.
    + rewrite map_app, S. cbn [concat]. f_equal. rewrite map_map. cbn [snd]. clear - F1. revert row F1.
      induction ts as [|t ts IH]; intros [|w row] H; try discriminate; [reflexivity|]. cbn. f_equal. apply IH. cbn in H. lia.
    + intros s t w. rewrite in_app_iff, I. split.
      * intros [H|(r & c & row' & A & B & C & D)]; [|exists (Datatypes.S r), c, row'; auto].
        apply in_map_iff in H. destruct H as ([t' w'] & H & K). cbn in H. injection H as <- <- <-.
        apply In_nth_error in K. destruct K as [c K]. exists 0, c, row. split; [reflexivity|].
        clear - K F1. revert row c F1 K. induction ts as [|t0 ts IH]; intros [|w0 row] c H K; destruct c as [|c]; try discriminate.
        -- cbn in *. injection K as -> ->. auto.
        -- cbn in *. apply IH; [lia|exact K].
      * intros (r & c & row' & A & B & C & D). destruct r as [|r]; cbn in A, C.
        -- left. injection A as ->. injection C as ->. apply in_map_iff. exists (t, w). split; [reflexivity|].
           apply nth_error_In with c. clear - B D. revert row' c B D. induction ts as [|t0 ts IH]; intros row c B D; destruct c as [|c]; destruct row; try discriminate; cbn in *.
           ++ congruence.
           ++ apply IH; auto.
        -- right. exists r, c, row'. auto.
Qed.

Lemma source_node k l a r : r < a + 1 -> nth_error (map (unit_node k l) (seq 0 a) ++ [Bias]) r = Some (row_node k l a r).
Proof.
  intros H. unfold row_node. destruct (Nat.eqb_spec r a) as [->|N].
  - rewrite nth_error_app2; rewrite map_length, seq_length; [|lia]. rewrite Nat.sub_diag. reflexivity.
  - rewrite nth_error_app1 by (rewrite map_length, seq_length; lia). rewrite nth_error_map.
    rewrite (nth_error_nth' (seq 0 a) 0) by (rewrite seq_length; lia). rewrite seq_nth by lia. reflexivity.
Qed.
Lemma target_node k l b c t : nth_error (map (unit_node k l) (seq 0 b)) c = Some t <-> c < b /\ t = unit_node k l c.
Proof.
  rewrite nth_error_map. destruct (Nat.lt_ge_cases c b) as [H|H].
  - rewrite (nth_error_nth' (seq 0 b) 0) by (rewrite seq_length; lia). rewrite seq_nth by lia. cbn. split; [intros E; split; congruence|intros [_ ->]; auto].
  - rewrite (proj2 (nth_error_None _ _)) by (rewrite seq_length; lia). cbn. split; [discriminate|lia].
Qed.

Lemma graph_from_ok k : forall sizes a b (net : list (list (list V))) l, fits (a :: b :: sizes) net ->
  k = l + S (length sizes) ->
  exists ns es, graph_from l (map (unit_node k l) (seq 0 a) ++ [Bias]) net = Ok (ns, es) /\
    map snd es = all_weights net /\
    ns = concat (map (fun p => map (unit_node k (fst p)) (seq 0 (snd p))) (combine (seq (S l) (S (length sizes))) (b :: sizes))) /\
    forall s t w, In (s, t, w) es <->
      exists i m r c row a', nth_error net i = Some m /\ nth_error m r = Some row /\ nth_error row c = Some w /\
        nth_error (a :: b :: sizes) i = Some a' /\ s = row_node k (l + i) a' r /\ t = unit_node k (S (l + i)) c.
Proof.
  induction sizes as [|d sizes IH]; intros a b net l F Hk; destruct net as [|m net]; try contradiction; destruct F as [M F].
  - destruct net; [|contradiction]. cbn [graph_from]. rewrite (columns_matrix _ _ _ M). destruct M as [M1 M2].
    assert (T : map Out (seq 0 b) = map (unit_node k (S l)) (seq 0 b)).
    { apply map_ext. intros i. unfold unit_node. change (S l =? 0) with false. cbv iota. cbn [length] in Hk. replace (S l =? k) with true; [reflexivity|]. symmetry. apply Nat.eqb_eq. lia. }
    rewrite T. destruct (layer_edges_ok b (map (unit_node k (S l)) (seq 0 b)) ltac:(rewrite map_length, seq_length; reflexivity) m
       (map (unit_node k l) (seq 0 a) ++ [Bias])) as (es & E & S & I); [rewrite app_length, map_length, seq_length; cbn; lia|auto|].
    rewrite E. cbn [bind]. eexists _, _. split; [reflexivity|]. split; [unfold all_weights; cbn; rewrite app_nil_r; exact S|]. split.
    + cbn. rewrite app_nil_r. reflexivity.
    + intros s t w. rewrite I. split.
      * intros (r & c & row & A & B & C & D). exists 0, m, r, c, row, a. split; [reflexivity|]. split; [auto|]. split; [auto|]. split; [reflexivity|].
        assert (r < a + 1) by (rewrite <- M1; apply nth_error_Some; congruence). rewrite source_node in C by auto.
        apply target_node in D. replace (l + 0) with l by lia. split; [congruence|apply D].
      * intros (i & m' & r & c & row & a' & A & B & C & D & -> & ->). destruct i; [|destruct i; discriminate].
        cbn in A, D. injection A as <-. injection D as <-. replace (l + 0) with l by lia.
        exists r, c, row. split; [auto|]. split; [auto|].
        assert (r < a + 1) by (rewrite <- M1; apply nth_error_Some; congruence).
        split; [apply source_node; auto|]. apply target_node. split; [|reflexivity].
        rewrite Forall_forall in M2. rewrite <- (M2 row) by (eapply nth_error_In; eauto). apply nth_error_Some. congruence.
  - destruct net as [|m' net]; [destruct F|]. set (rest := m' :: net) in *.
    change (graph_from l (map (unit_node k l) (seq 0 a) ++ [Bias]) (m :: rest)) with
      (if negb (length m =? length (map (unit_node k l) (seq 0 a) ++ [Bias])) then Err AssertionError
       else bind (layer_edges (map (unit_node k l) (seq 0 a) ++ [Bias]) (map (Hid l) (seq 0 (columns m))) m) (fun es =>
        bind (graph_from (S l) (map (Hid l) (seq 0 (columns m)) ++ [Bias]) rest) (fun '(ns, es') => Ok (map (Hid l) (seq 0 (columns m)) ++ ns, es ++ es')))).
    rewrite (columns_matrix _ _ _ M). destruct M as [M1 M2].
    rewrite app_length, map_length, seq_length. cbn [length]. rewrite M1, Nat.eqb_refl. cbn [negb].
    assert (T : map (Hid l) (seq 0 b) = map (unit_node k (S l)) (seq 0 b)).
    { apply map_ext. intros i. unfold unit_node. change (S l =? 0) with false. cbv iota. cbn [length] in Hk. replace (S l =? k) with false by (symmetry; apply Nat.eqb_neq; lia).
      f_equal. lia. }
    rewrite T. destruct (layer_edges_ok b (map (unit_node k (S l)) (seq 0 b)) ltac:(rewrite map_length, seq_length; reflexivity) m
       (map (unit_node k l) (seq 0 a) ++ [Bias])) as (es & E & S & I); [rewrite app_length, map_length, seq_length; cbn; lia|auto|].
    destruct (IH b d rest (Datatypes.S l) F ltac:(cbn [length] in Hk; lia)) as (ns' & es' & E' & S' & N' & I').
    rewrite E. cbn [bind]. rewrite E'. cbn [bind]. eexists _, _. split; [reflexivity|]. split; [|split].
    + rewrite map_app, S, S'. reflexivity.
    + rewrite N'. reflexivity.
    + intros s t w. rewrite in_app_iff, I, I'. split.
      * intros [(r & c & row & A & B & C & D)|(i & m'' & r & c & row & a' & A & B & C & D & X & Y)].
        -- exists 0, m, r, c, row, a. split; [reflexivity|]. split; [auto|]. split; [auto|]. split; [reflexivity|].
           assert (r < a + 1) by (rewrite <- M1; apply nth_error_Some; congruence). rewrite source_node in C by auto.
           apply target_node in D. replace (l + 0) with l by lia. split; [congruence|apply D].
        -- exists (Datatypes.S i), m'', r, c, row, a'. cbn [nth_error]. replace (l + Datatypes.S i) with (Datatypes.S l + i) by lia. auto 10.
      * intros (i & m'' & r & c & row & a' & A & B & C & D & X & Y). destruct i as [|i]; cbn [nth_error] in A, D.
        -- left. injection A as <-. injection D as <-. replace (l + 0) with l in * by lia.
           exists r, c, row. split; [auto|]. split; [auto|].
           assert (r < a + 1) by (rewrite <- M1; apply nth_error_Some; congruence).
           subst s t. split; [apply source_node; auto|]. apply target_node. split; [|reflexivity].
           rewrite Forall_forall in M2. rewrite <- (M2 row) by (eapply nth_error_In; eauto). apply nth_error_Some. congruence.
        -- right. exists i, m'', r, c, row, a'. replace (l + Datatypes.S i) with (Datatypes.S l + i) in * by lia. auto 10.
Qed.

Lemma unit_inj k l l' i i' : l <= k -> l' <= k -> unit_node k l i = unit_node k l' i' -> l = l' /\ i = i'.
Proof.
  unfold unit_node. intros Hl Hl' E.
  destruct (Nat.eqb_spec l 0), (Nat.eqb_spec l' 0), (Nat.eqb_spec l k), (Nat.eqb_spec l' k); try discriminate; injection E; intros; split; try lia; auto.
Qed.
Lemma NoDup_app_intro {A} (l m : list A) : NoDup l -> NoDup m -> (forall x, In x l -> ~ In x m) -> NoDup (l ++ m).
Proof.
  induction 1 as [|x l N D IH]; intros Dm H; [exact Dm|]. cbn. constructor.
  - rewrite in_app_iff. intros [K|K]; [auto|]. apply (H x); [left; auto|auto].
  - apply IH; auto. intros y K. apply H. right. exact K.
Qed.
Lemma NoDup_units k : forall sizes l, l + length sizes <= S k ->
  NoDup (concat (map (fun p => map (unit_node k (fst p)) (seq 0 (snd p))) (combine (seq l (length sizes)) sizes))) /\
  forall n, In n (concat (map (fun p => map (unit_node k (fst p)) (seq 0 (snd p))) (combine (seq l (length sizes)) sizes))) <->
    exists i a j, nth_error sizes i = Some a /\ j < a /\ n = unit_node k (l + i) j.
Proof.
  induction sizes as [|a sizes IH]; intros l H; cbn [length seq combine map concat].
  - split; [constructor|]. intros n. split; [intros []|]. intros (i & a & j & E & _). destruct i; discriminate.
  - cbn [length] in H. destruct (IH (S l)) as [D I]; [lia|]. cbn [fst snd]. split.
    + apply NoDup_app_intro; [|exact D|].
      * apply FinFun.Injective_map_NoDup; [|apply seq_NoDup]. intros x y E. apply unit_inj in E; [tauto|lia|lia].
      * intros n K. apply in_map_iff in K. destruct K as (j & <- & K). rewrite I. intros (i & b & j' & E & _ & U).
        assert (i < length sizes) by (apply nth_error_Some; congruence). apply unit_inj in U; lia.
    + intros n. rewrite in_app_iff, I, in_map_iff. split.
      * intros [(j & <- & K)|(i & b & j & E & L & ->)].
        -- apply in_seq in K. exists 0, a, j. split; [reflexivity|]. split; [lia|]. f_equal. lia.
        -- exists (S i), b, j. split; [exact E|]. split; [exact L|]. f_equal. lia.
      * intros (i & b & j & E & L & ->). destruct i as [|i].
        -- left. injection E as <-. exists j. split; [f_equal; lia|]. apply in_seq. lia.
        -- right. exists i, b, j. split; [exact E|]. split; [exact L|]. f_equal. lia.
Qed.

Lemma graph_spec a b r (net : list (list (list V))) : fits (a :: b :: r) net ->
  let sizes := a :: b :: r in let k := S (length r) in
  exists ns es, nn_graph net = Ok (ns, es) /\
    NoDup ns /\ (forall n, In n ns <-> network_nodes k sizes n) /\
    map snd es = all_weights net /\
    forall s t w, In (s, t, w) es <->
      exists l m i j row u, nth_error net l = Some m /\ nth_error m i = Some row /\ nth_error row j = Some w /\
        nth_error sizes l = Some u /\ s = row_node k l u i /\ t = unit_node k (S l) j.
Proof.
  intros F sizes k. destruct (net_sizes _ _ _ _ F) as (E & _). unfold nn_graph. rewrite E. cbn [bind]. rewrite Nat2Z.id.
  destruct (graph_from_ok k r a b net 0 F eq_refl) as (ns & es & E1 & S1 & N1 & I1).
  assert (T : map In_ (seq 0 a) = map (unit_node k 0) (seq 0 a)) by (apply map_ext; intros; reflexivity).
  rewrite T. rewrite E1. cbn [bind]. eexists _, _. split; [reflexivity|].
  destruct (NoDup_units k sizes 0) as [D I]; [cbn; lia|].
  assert (EN : map (unit_node k 0) (seq 0 a) ++ ns = concat (map (fun p => map (unit_node k (fst p)) (seq 0 (snd p))) (combine (seq 0 (length sizes)) sizes))).
  { rewrite N1. reflexivity. }
  rewrite EN. split; [|split; [|split; [exact S1|exact I1]]].
  - constructor; [|exact D]. rewrite I. intros (i & u & j & _ & _ & K). unfold unit_node in K.
    destruct (0 + i =? 0); [discriminate|]. destruct (0 + i =? k); discriminate.
  - intros n. cbn [In]. rewrite I. unfold network_nodes. cbn [plus]. split; (intros [H|H]; [left; congruence|right; exact H]).
Qed.

(** ** matrices that do not fit *)
Lemma layer_edges_tall cols ts : length ts = cols -> forall (m : list (list V)) ss, length ss < length m -> Forall (fun r => length r = cols) m ->
  layer_edges ss ts m = Err IndexError.
Proof.
  intros Lt. induction m as [|row m IH]; intros ss L F; [cbn in L; lia|]. destruct ss as [|s0 ss]; [reflexivity|]. inversion F as [|? ? F1 F2]; subst.
  cbn [layer_edges]. rewrite row_edges_ok by auto. cbn [bind]. rewrite IH; [reflexivity|cbn in L; lia|exact F2].
Qed.
Lemma graph_from_cons l prev m m' (net : list (list (list V))) : graph_from l prev (m :: m' :: net) =
  (if negb (length m =? length prev) then Err AssertionError
   else bind (layer_edges prev (map (Hid l) (seq 0 (columns m))) m) (fun es =>
        bind (graph_from (S l) (map (Hid l) (seq 0 (columns m)) ++ [Bias]) (m' :: net)) (fun '(ns, es') => Ok (map (Hid l) (seq 0 (columns m)) ++ ns, es ++ es')))).
Proof. reflexivity. Qed.
Lemma graph_from_prefix (rest : list (list (list V))) : rest <> [] -> forall r a b ms l prev, fits (a :: b :: r) ms -> length prev = a + 1 ->
  exists nodes es prev' l', length prev' = last r b + 1 /\ map snd es = all_weights ms /\
    graph_from l prev (ms ++ rest) = bind (graph_from l' prev' rest) (fun '(ns, es') => Ok (nodes ++ ns, es ++ es')).
Proof.
  intros Hr. induction r as [|d r IH]; intros a b ms l prev F Lp; destruct ms as [|m ms]; try contradiction; destruct F as [M F].
  - destruct ms; [|contradiction]. cbn [app]. destruct rest as [|m' rest]; [contradiction|]. rewrite graph_from_cons, (columns_matrix _ _ _ M). destruct M as [M1 M2].
    rewrite Lp, M1, Nat.eqb_refl. cbn [negb].
    destruct (layer_edges_ok b (map (Hid l) (seq 0 b)) ltac:(rewrite map_length, seq_length; reflexivity) m prev) as (es & E & Sn & _); [lia|exact M2|].
    rewrite E. cbn [bind]. exists (map (Hid l) (seq 0 b)), es, (map (Hid l) (seq 0 b) ++ [Bias]), (S l).
    split; [rewrite app_length, map_length, seq_length; reflexivity|]. split; [unfold all_weights; cbn; rewrite app_nil_r; exact Sn|reflexivity].
  - destruct ms as [|m' ms]; [destruct F|]. cbn [app]. rewrite graph_from_cons, (columns_matrix _ _ _ M). destruct M as [M1 M2].
    rewrite Lp, M1, Nat.eqb_refl. cbn [negb].
    destruct (layer_edges_ok b (map (Hid l) (seq 0 b)) ltac:(rewrite map_length, seq_length; reflexivity) m prev) as (es & E & Sn & _); [lia|exact M2|].
    rewrite E. cbn [bind].
    destruct (IH b d (m' :: ms) (S l) (map (Hid l) (seq 0 b) ++ [Bias]) F ltac:(rewrite app_length, map_length, seq_length; reflexivity)) as (nodes & es' & prev' & l' & L' & S' & E').
    exists (map (Hid l) (seq 0 b) ++ nodes), (es ++ es'), prev', l'. split; [rewrite L'; f_equal; clear; destruct r as [|x r]; [reflexivity|]; change (last (d :: x :: r) b) with (last (x :: r) b); revert x; induction r as [|y r IH]; intros x; [reflexivity|exact (IH y)]|]. split.
    + rewrite map_app, Sn, S'. reflexivity.
    + change (m' :: ms ++ rest) with ((m' :: ms) ++ rest). rewrite E'. destruct (graph_from l' prev' rest) as [[ns es'']|e]; cbn [bind]; [|reflexivity]. rewrite <- !app_assoc. reflexivity.
Qed.
Lemma graph_unfit a b r ms rows cols (m : list (list V)) : fits (a :: b :: r) ms -> is_matrix rows cols m ->
  (rows <= last r b + 1 -> exists ns es, nn_graph (ms ++ [m]) = Ok (ns, es) /\ map snd es = all_weights (ms ++ [m])) /\
  (last r b + 1 < rows -> nn_graph (ms ++ [m]) = Err IndexError) /\
  (rows <> last r b + 1 -> forall m' rest, nn_graph (ms ++ m :: m' :: rest) = Err AssertionError).
Proof.
  intros F M.
  assert (Hin : forall rest, num_inputs (ms ++ rest) = Ok (Z.of_nat a)).
  { intros rest. destruct ms as [|m0 ms0]; [contradiction|]. destruct F as [(M1 & _) _]. cbn [app]. unfold num_inputs. f_equal. lia. }
  assert (Lp : length (map In_ (seq 0 a) ++ [Bias]) = a + 1) by (rewrite app_length, map_length, seq_length; reflexivity).
  assert (Col : Forall (fun row => length row = columns m) m).
  { destruct m as [|row0 m0]; [constructor|]. destruct M as (_ & M2). pose proof (Forall_inv M2) as E0. cbn in E0. unfold columns. rewrite E0. exact M2. }
  destruct M as (M1 & M2). unfold nn_graph. rewrite !Hin. cbn [bind]. rewrite Nat2Z.id.
  destruct (graph_from_prefix [m] ltac:(discriminate) r a b ms 0 (map In_ (seq 0 a) ++ [Bias]) F Lp) as (nodes & es & prev' & l' & L' & S' & E').
  split; [|split].
  - intros H. rewrite E'. cbn [graph_from].
    destruct (layer_edges_ok (columns m) (map Out (seq 0 (columns m))) ltac:(rewrite map_length, seq_length; reflexivity) m prev' ltac:(lia) Col) as (es' & E & Sn & _).
    rewrite E. cbn [bind]. eexists _, _. split; [reflexivity|]. rewrite map_app, S', Sn. unfold all_weights. rewrite map_app, concat_app. cbn. rewrite app_nil_r. reflexivity.
  - intros H. rewrite E'. cbn [graph_from].
    rewrite (layer_edges_tall (columns m) (map Out (seq 0 (columns m)))); [reflexivity|rewrite map_length, seq_length; reflexivity|lia|exact Col].
  - intros H m' rest. rewrite Hin. cbn [bind]. rewrite Nat2Z.id.
    destruct (graph_from_prefix (m :: m' :: rest) ltac:(discriminate) r a b ms 0 (map In_ (seq 0 a) ++ [Bias]) F Lp) as (nodes2 & es2 & prev2 & l2 & L2 & _ & E2).
    rewrite E2, graph_from_cons. destruct (Nat.eqb_spec (length m) (length prev2)) as [K | K]; [lia|reflexivity].
Qed.
End S.
