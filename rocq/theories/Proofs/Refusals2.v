(** Exactly which arguments are refused, and how: selection from nobody, networks, plots, problems. *)
From Coq Require Import Lia QArith.
From Verif Require Import Model.Base Model.PyList Model.Scalar Model.Proportional Model.NeuralNet Model.Plot2D Model.PlotProbe
  Model.Problems Model.RealProblems Model.Migration Model.Selection Model.CsvProbe Spec.Refusals2.
Local Open Scope nat_scope.
Local Open Scope list_scope.

(** ** proportional selection from nobody *)
Lemma nobody A off exponent (u start : Q) shuffle n :
  proportional_turn (@nil A) [] off exponent u = Err (match off with OffPopMin => ValueError | OffVal _ => IndexError end) /\
  sus_init [] None off exponent start = Err ValueError /\
  ((0 < n)%Z -> sus_init [] (Some n) OffPopMin exponent start = Err ValueError) /\
  forall q, (0 < n)%Z -> exists s, sus_init [] (Some n) (OffVal q) exponent start = Ok s /\
    forall d, sus_pull (@nil A) shuffle d s = Err IndexError.
Proof.
  split; [destruct off; reflexivity|]. split; [reflexivity|]. split.
  - intros H. unfold sus_init. destruct (Z.leb_spec n 0); [lia|]. reflexivity.
  - intros q H. unfold sus_init. destruct (Z.leb_spec n 0); [lia|]. eexists. split; [reflexivity|].
    intros d. unfold sus_pull. cbn [sus_sel sus_points sus_pop sus_values sus_sum].
    match goal with |- match nth_error ?p ?i with _ => _ end = _ => destruct (nth_error p i) as [point|]; [|reflexivity] end.
    match goal with |- context [sus_advance ?r ?i ?s ?p] => destruct (sus_advance r i s p) as [[idx sum]|e] eqn:E end.
    + cbn [bind]. unfold py_prev. destruct idx; cbn; [reflexivity|]. destruct idx; reflexivity.
    + cbn [bind]. revert E. repeat match goal with |- context [if ?b then _ else _] => destruct b end; cbn; destruct (Qltb _ _); congruence.
Qed.

(** ** networks *)
Section Net.
Context {V : Type}.
Implicit Types (m : list (list V)) (net : list (list (list V))).

Lemma layer_fails sources targets m : 
  (exists es, layer_edges sources targets m = Ok es) /\ length m <= length sources /\ Forall (fun row => length row <= length targets) m \/
  layer_edges sources targets m = Err IndexError /\ (length sources < length m \/ Exists (fun row => length targets < length row) m).
Proof.
  revert sources. induction m as [|row m IH]; intros sources.
  - left. split; [exists []; destruct sources; reflexivity|]. split; [cbn; lia|constructor].
  - destruct sources as [|s ss]; [right; split; [reflexivity|cbn; lia]|].
    change (layer_edges (s :: ss) targets (row :: m)) with
      (bind (row_edges s targets row) (fun e => bind (layer_edges ss targets m) (fun es => Ok (e ++ es)))). unfold row_edges.
    destruct (Nat.ltb_spec (length targets) (length row)) as [H | H]; cbn [bind].
    + right. split; [reflexivity|]. right. constructor. exact H.
    + destruct (IH ss) as [((es & ->) & L & F) | [-> L]]; cbn [bind].
      * left. split; [eauto|]. split; [cbn; lia|]. constructor; assumption.
      * right. split; [reflexivity|]. destruct L as [L | L]; [left; cbn; lia|right; apply Exists_cons_tl, L].
Qed.

Lemma ragged_iff m : Exists (fun row => width m < length row) m <-> ragged m.
Proof.
  destruct m as [|r m]; cbn [width]; split.
  - intros H. inversion H.
  - intros (? & ? & ? & H & _). discriminate.
  - intros H. inversion H as [? ? Hx|? ? Hx]; subst; [lia|]. apply Exists_exists in Hx as (row & Hin & Hl).
    exists r, m, row. auto.
  - intros (f & rest & row & [= -> ->] & Hin & Hl). apply Exists_cons_tl, Exists_exists. eauto.
Qed.

Lemma layer_exact sources (mk : nat -> node) m :
  (exists es, layer_edges sources (map mk (seq 0 (columns m))) m = Ok es) /\ length m <= length sources /\ ~ ragged m \/
  layer_edges sources (map mk (seq 0 (columns m))) m = Err IndexError /\ (length sources < length m \/ ragged m).
Proof.
  destruct (layer_fails sources (map mk (seq 0 (columns m))) m) as [(H & L & F) | [H L]].
  - left. split; [exact H|]. split; [exact L|]. rewrite map_length, seq_length in F. rewrite <- ragged_iff. rewrite <- Forall_Exists_neg.
    eapply Forall_impl; [|exact F]. intros r. unfold columns, width. lia.
  - right. split; [exact H|]. rewrite map_length, seq_length in L. rewrite <- ragged_iff. exact L.
Qed.

Lemma graph_fails net : net <> [] -> forall l previous e, graph_from l previous net = Err e <-> graph_trouble (length previous) net e.
Proof.
  induction net as [|m rest IH]; [contradiction|]. intros _ l previous e. destruct rest as [|m2 rest].
  - cbn [graph_from]. destruct (layer_exact previous Out m) as [((es & ->) & L & F) | [-> L]]; cbn [bind].
    + split; [discriminate|]. intros H. inversion H as [? ? [T|T]| | |]; subst; try contradiction. lia.
    + split; [intros [= <-]; constructor; exact L|]. intros H. inversion H; subst; try contradiction. reflexivity.
  - remember (m2 :: rest) as tl eqn:Etl. assert (N : tl <> []) by (subst; discriminate).
    assert (E : graph_from l previous (m :: tl) = if negb (length m =? length previous) then Err AssertionError
      else bind (layer_edges previous (map (Hid l) (seq 0 (columns m))) m) (fun es =>
        bind (graph_from (S l) (map (Hid l) (seq 0 (columns m)) ++ [Bias]) tl) (fun '(ns, es') => Ok (map (Hid l) (seq 0 (columns m)) ++ ns, es ++ es')))).
    { subst tl. reflexivity. }
    rewrite E. clear E. destruct (length m =? length previous) eqn:Em; cbn [negb].
    + apply Nat.eqb_eq in Em. destruct (layer_exact previous (Hid l) m) as [((es & ->) & L & F) | [-> L]]; cbn [bind].
      * assert (W : length (map (Hid l) (seq 0 (columns m)) ++ [Bias]) = S (width m)).
        { rewrite app_length, map_length, seq_length. cbn. unfold width, columns. lia. }
        specialize (IH N (S l) (map (Hid l) (seq 0 (columns m)) ++ [Bias]) e). rewrite W in IH.
        destruct (graph_from (S l) _ tl) as [[ns es']|e']; cbn [bind].
        -- split; [discriminate|]. intros H. inversion H; subst; try congruence. assert (Ok (ns, es') = Err e) by (apply IH; assumption). discriminate.
        -- split.
           ++ intros [= <-]. apply trouble_later; [exact N|exact Em|exact F|]. apply IH. reflexivity.
           ++ intros H. inversion H; subst; try congruence. assert (Q : Err e' = Err e :> result (list node * list (node * node * V))) by (apply IH; assumption). congruence.
      * split.
        -- intros [= <-]. apply trouble_ragged; [exact N|exact Em|]. destruct L; [lia|assumption].
        -- intros H. inversion H; subst; try congruence. destruct L; [lia|contradiction].
    + apply Nat.eqb_neq in Em. split.
      * intros [= <-]. apply trouble_rows; assumption.
      * intros H. inversion H; subst; congruence.
Qed.

Lemma nn_graph_fails net e : nn_graph net = Err e <->
  net = [] /\ e = IndexError \/ exists m rest, net = m :: rest /\ graph_trouble (S (length m - 1)) net e.
Proof.
  unfold nn_graph. destruct net as [|m rest]; cbn [num_inputs bind].
  - split; [intros [= <-]; auto|]. intros [[_ ->] | (? & ? & ? & _)]; [reflexivity|discriminate].
  - pose proof (graph_fails (m :: rest) ltac:(discriminate) 0 (map In_ (seq 0 (Z.to_nat (Z.of_nat (length m) - 1))) ++ [Bias]) e) as H.
    rewrite app_length, map_length, seq_length in H. cbn [length] in H.
    replace (Z.to_nat (Z.of_nat (length m) - 1) + 1) with (S (length m - 1)) in H by lia.
    destruct (graph_from 0 _ (m :: rest)) as [[ns es]|e']; cbn [bind].
    + split; [discriminate|]. intros [[? _] | (m' & r' & [= <- <-] & T)]; [discriminate|]. apply H in T. discriminate.
    + split.
      * intros [= <-]. right. exists m, rest. split; [reflexivity|]. apply H. reflexivity.
      * intros [[? _] | (m' & r' & [= <- <-] & T)]; [discriminate|]. apply H in T. congruence.
Qed.
End Net.

(** ** plots *)
Lemma no_period P (xlim ylim : option (num * num)) (xl yl : num * num) ms gen xv (pop : P) st
    step ps pps cs cst ss sst hs shown histogram maps :
  metrics_call xlim ylim 0 ms gen xv pop st = (Err ZeroDivisionError, st) /\
  pareto_call xl yl 0 step ps pps = (match step with Err e => Err e | Ok _ => Err ZeroDivisionError end, pps) /\
  cartesian_call xl yl 0 gen cs cst = (Err ZeroDivisionError, cst) /\
  sum_call xl yl 0 gen ss sst = (Err ZeroDivisionError, sst) /\
  hist_call 0 gen (hs : list P) shown = (Err ZeroDivisionError, shown) /\
  heatmap_call histogram 0 gen hs maps = (Err ZeroDivisionError, maps).
Proof. repeat split. unfold pareto_call. destruct step; reflexivity. Qed.

Lemma lost_lines P (xlim ylim : option (num * num)) modulo (ms : list (P -> result num)) gen v pop st :
  (modulo <> 0)%Z -> (gen mod modulo = 0)%Z -> length (ax_lines (ms_ax st)) < length ms -> (forall m, In m ms -> exists y, m pop = Ok y) ->
  fst (metrics_call xlim ylim modulo ms gen (Ok v) pop st) = Err IndexError.
Proof.
  intros Hm Hg Hl Hok. unfold metrics_call. destruct (Z.eqb_spec modulo 0); [contradiction|]. rewrite Hg. cbn [Z.eqb].
  assert (G : forall l i s, length (ax_lines (ms_ax s)) = length (ax_lines (ms_ax st)) -> length (ax_lines (ms_ax st)) < i + length l ->
    i <= length (ax_lines (ms_ax st)) ->
    (forall m, In m l -> exists y, m pop = Ok y) -> exists s', write_metrics l i pop s = (Err IndexError, s')).
  { induction l as [|m l IH]; intros i s Es Hi Hle Hin; cbn [length] in Hi; [lia|]. cbn [write_metrics].
    destruct (Hin m (or_introl eq_refl)) as (y & ->). destruct (nth_error (ax_lines (ms_ax s)) i) as [x|] eqn:En.
    - assert (i < length (ax_lines (ms_ax s))) by (apply nth_error_Some; congruence).
      apply IH; [|lia|lia|intros m' Hm'; apply Hin; right; exact Hm'].
      cbn [ms_ax ax_lines]. rewrite <- Es. clear. generalize (ms_x s, nth i (ms_y s) [] ++ [to_float y]). generalize (ax_lines (ms_ax s)). intros l. revert i.
      induction l as [|z l IH]; intros [|i] p; cbn; try reflexivity. f_equal. apply IH.
    - eauto. }
  match goal with |- context [write_metrics ms 0 pop ?s0] => destruct (G ms 0 s0) as (s' & ->) end;
    [reflexivity|cbn; lia|lia|exact Hok|reflexivity].
Qed.

Lemma plot_no_step (fn : list Q -> result num) K x0 x1 y0 y1 g pad (kwargs : list K) bounds : (g == 0)%Q -> pad <> PadOther ->
  plot_2d_problem fn bounds (Some [x0; x1]) (Some [y0; y1]) KSurface (Some g) pad kwargs = (Err ZeroDivisionError, []).
Proof.
  intros Hg Hp. unfold plot_2d_problem, plot_2d_function, plot_grid, qarange. apply Qeq_bool_iff in Hg. rewrite Hg.
  destruct pad; [reflexivity|reflexivity|contradiction].
Qed.
Lemma plot_short_bounds (fn : list Q -> result num) K b xlim ylim k pad (kwargs : list K) : length b < 2 ->
  plot_2d_problem fn (Some b) xlim ylim k None pad kwargs = (Err IndexError, []).
Proof.
  intros H. unfold plot_2d_problem. destruct b as [|b0 [|]]; cbn in H; try lia; destruct xlim, ylim; reflexivity.
Qed.

(** ** problems *)
Lemma chunk_count n (l : list num) fuel : 0 < n -> length l <= fuel -> length (mean_by_chunk n fuel l) = (length l + n - 1) / n.
Proof.
  intros Hn. revert l. induction fuel as [|f IH]; intros l Hf.
  - destruct l; [|cbn in Hf; lia]. cbn. symmetry. apply Nat.div_small. lia.
  - destruct l as [|x l]; [cbn [mean_by_chunk length]; symmetry; apply Nat.div_small; lia|].
    change (mean_by_chunk n (S f) (x :: l)) with (np_mean (firstn n (x :: l)) :: mean_by_chunk n f (skipn n (x :: l))).
    cbn [length]. rewrite IH by (rewrite skipn_length; cbn [length] in *; lia). rewrite skipn_length. cbn [length].
    destruct (Nat.le_gt_cases n (S (length l))) as [C | C].
    + replace (S (length l) + n - 1) with ((S (length l) - n + n - 1) + 1 * n) by lia. rewrite Nat.div_add by lia. lia.
    + replace (S (length l) - n) with 0 by lia. rewrite Nat.add_0_l. rewrite (Nat.div_small (n - 1)) by lia.
      replace (S (length l) + n - 1) with (length l + 1 * n) by lia. rewrite Nat.div_add, Nat.div_small by lia. reflexivity.
Qed.
Lemma average_fails P (evm : list P -> result (list num)) n phenomes e : 0 < n ->
  average_multiple evm n phenomes = Err e <->
  evm (flat_map (fun p => repeat p n) phenomes) = Err e \/
  exists fs, evm (flat_map (fun p => repeat p n) phenomes) = Ok fs /\ e = AssertionError /\
    ~ (n * length phenomes < length fs + n <= n * S (length phenomes)).
Proof.
  intros Hn. unfold average_multiple. destruct (evm _) as [fs|e']; cbn [bind].
  - rewrite chunk_count by lia. pose proof (Nat.div_mod (length fs + n - 1) n ltac:(lia)) as D.
    pose proof (Nat.mod_upper_bound (length fs + n - 1) n ltac:(lia)) as M. set (q := (length fs + n - 1) / n) in *.
    destruct (Nat.eqb_spec q (length phenomes)) as [E | E].
    + split; [discriminate|]. intros [? | (fs' & [= <-] & _ & H)]; [discriminate|]. exfalso. apply H. rewrite <- E. nia.
    + split; [|intros [? | (fs' & _ & -> & _)]; [discriminate|reflexivity]]. intros [= <-]. right. exists fs. split; [reflexivity|]. split; [reflexivity|].
      intros [H1 H2]. apply E. assert (q < S (length phenomes)) by nia. assert (length phenomes < S q) by nia. lia.
  - split; [intros [= <-]; auto|]. intros [[= <-] | (? & ? & _)]; [reflexivity|discriminate].
Qed.

Lemma coop_nothing G sel combine_score (x : cind G) current subpops :
  coop_op sel combine_score 0 x current subpops = Err ValueError.
Proof. reflexivity. Qed.

Lemma ones_fail target phenome e :
  (max_ones target phenome = Err e <->
    phenome = BOther /\ e = ValueError \/ exists l t, phenome = BArr l /\ target = Some t /\ length l <> length t /\ e = NameError) /\
  (leading_ones target phenome = Err e <->
    phenome = BOther /\ e = ValueError \/ (exists l t, phenome = BArr l /\ target = Some t /\ length l <> length t /\ e = NameError) \/
    phenome = BArr [] /\ (target = None \/ target = Some []) /\ e = StopIteration).
Proof.
  unfold max_ones, leading_ones, matches. destruct phenome as [l|]; cbn [bind].
  - destruct target as [t|].
    + destruct (Nat.eqb_spec (length l) (length t)) as [E | E]; cbn [bind].
      * split.
        -- split; [discriminate|]. intros [[? _] | (l' & t' & E1 & E2 & H & _)]; [discriminate|exfalso; apply H; congruence].
        -- destruct l as [|x l], t as [|y t]; try discriminate; cbn [zip_eq].
           ++ split; [intros [= <-]; auto 10|]. intros [[? _] | [(l' & t' & E1 & E2 & H & _) | (_ & _ & ->)]]; [discriminate|exfalso; apply H; congruence|reflexivity].
           ++ split; [discriminate|]. intros [[? _] | [(l' & t' & E1 & E2 & H & _) | (? & _)]]; [discriminate|exfalso; apply H; congruence|discriminate].
      * split.
        -- split; [intros [= <-]; right; eauto 10|]. intros [[? _] | (l' & t' & _ & _ & _ & ->)]; [discriminate|reflexivity].
        -- split; [intros [= <-]; right; left; eauto 10|]. intros [[? _] | [(l' & t' & _ & _ & _ & ->) | (E1 & [? | E2] & _)]]; [discriminate|reflexivity|discriminate|exfalso; apply E; congruence].
    + split.
      * split; [discriminate|]. intros [[? _] | (? & ? & _ & ? & _)]; discriminate.
      * destruct l as [|x l]; cbn [map].
        -- split; [intros [= <-]; auto 10|]. intros [[? _] | [(? & ? & _ & ? & _) | (_ & _ & ->)]]; [discriminate|discriminate|reflexivity].
        -- split; [discriminate|]. intros [[? _] | [(? & ? & _ & ? & _) | (? & _)]]; discriminate.
  - split.
    + split; [intros [= <-]; auto 10|]. intros [[_ ->] | (? & ? & ? & _)]; [reflexivity|discriminate].
    + split; [intros [= <-]; auto 10|]. intros [[_ ->] | [(? & ? & ? & _) | (? & _)]]; [reflexivity|discriminate|discriminate].
Qed.

Lemma shekel_fails k c phenome e : shekel_evaluate k c phenome = Err e <->
  length phenome <> 2 /\ e = AssertionError \/ length phenome = 2 /\ length c < 25 /\ e = IndexError.
Proof.
  unfold shekel_evaluate. destruct phenome as [|a [|b [|d r]]].
  - split; [intros [= <-]; left; split; [discriminate|reflexivity]|]. intros [[_ ->] | [? _]]; [reflexivity|discriminate].
  - split; [intros [= <-]; left; split; [discriminate|reflexivity]|]. intros [[_ ->] | [? _]]; [reflexivity|discriminate].
  - destruct (Nat.leb_spec 25 (length c)) as [H | H].
    + split; [discriminate|]. intros [[N _] | (_ & ? & _)]; [contradiction|lia].
    + split; [intros [= <-]; auto|]. intros [[N _] | (_ & _ & ->)]; [contradiction|reflexivity].
  - split; [intros [= <-]; left; split; [discriminate|reflexivity]|]. intros [[_ ->] | [? _]]; [reflexivity|discriminate].
Qed.

Lemma matrix_fails m e : matrix_problem m = Err e <->
  m = [] /\ e = IndexError \/
  exists first rest, m = first :: rest /\
    (length m <> length first /\ e = AssertionError \/ length m = length first /\ ~ rectangle (length m) (length m) m /\ e = ValueError).
Proof.
  unfold matrix_problem. destruct m as [|r rest]; [split; [intros [= <-]; auto|intros [[_ ->] | (? & ? & ? & _)]; [reflexivity|discriminate]]|].
  destruct (Nat.eqb_spec (length (r :: rest)) (length r)) as [E | E].
  - destruct (forallb _ (r :: rest)) eqn:F.
    + split; [discriminate|]. intros [[? _] | (f & l & [= <- <-] & [[N _] | (_ & N & _)])]; [discriminate|contradiction|]. exfalso. apply N.
      split; [reflexivity|]. rewrite E. apply Forall_forall. intros x Hx. rewrite forallb_forall in F. apply Nat.eqb_eq, F, Hx.
    + split; [|intros [[? _] | (f & l & [= <- <-] & [[N _] | (_ & _ & ->)])]; [discriminate|contradiction|reflexivity]].
      intros [= <-]. right. exists r, rest. split; [reflexivity|]. right. split; [exact E|]. split; [|reflexivity].
      intros [_ H]. rewrite E in H. assert (forallb (fun row : list Q => length row =? length r) (r :: rest) = true); [|congruence].
      apply forallb_forall. intros x Hx. apply Nat.eqb_eq. rewrite Forall_forall in H. apply H, Hx.
  - split; [intros [= <-]; right; exists r, rest; auto|]. intros [[? _] | (f & l & [= <- <-] & [[_ ->] | (? & _)])]; [discriminate|reflexivity|contradiction].
Qed.
