(** Proofs about the plotting probes. *)
From Coq Require Import Lia Lqa.
From Verif Require Import Model.Base Model.PyList Model.Scalar Model.Selection Model.Problems Model.CsvProbe Model.PlotProbe
  Spec.Order Spec.CsvProbe Spec.PlotProbe Proofs.Order Proofs.PyList Proofs.ScalarSel Proofs.Problems Proofs.Algorithm Proofs.CsvProbe.

(** ** boxes *)
Lemma no_nan_existsb l : no_nan l -> existsb isnan l = false.
Proof.
  intros H. destruct (existsb isnan l) eqn:E; [|reflexivity]. apply existsb_exists in E. destruct E as (a & I & N).
  exfalso. apply (H a I). apply isnan_val, N.
Qed.
Lemma min_ext (v w : ext) : ~ ext_lt v w -> forall u, ~ ext_lt u v -> ~ ext_lt u w.
Proof. destruct v, w; cbn; intros A u B; destruct u; cbn in *; try tauto; intros C; try (apply A; exact Logic.I); try (apply B; exact Logic.I); lra. Qed.
Lemma lowest_lim a l m : no_nan (a :: l) -> lowest l m -> lowest (a :: l) (min2 a m).
Proof.
  intros N H. unfold lowest in *. rewrite (no_nan_existsb _ N).
  rewrite no_nan_existsb in H by (intros x Hx; apply N; right; exact Hx). destruct H as (x & v & I & V & M & L).
  destruct (num_val a) as [w|] eqn:W; [|exfalso; apply (N a); [left; reflexivity|exact W]].
  unfold min2, num_ltb. rewrite M, W. destruct (ext_ltb v w) eqn:E.
  - apply ext_ltb_lt in E. exists x, v. split; [right; exact I|]. split; [exact V|]. split; [exact M|]. intros y u [<- | Hy] Hu; [|apply (L y u Hy Hu)].
    rewrite W in Hu. injection Hu as <-. destruct v, w; cbn in *; try tauto. lra.
  - apply ext_ltb_nlt in E. exists a, w. split; [left; reflexivity|]. split; [exact W|]. split; [exact W|]. intros y u [<- | Hy] Hu.
    + rewrite W in Hu. injection Hu as <-. destruct w; cbn; try tauto. lra.
    + apply (min_ext v w E), (L y u Hy Hu).
Qed.
Lemma max_ext (v w : ext) : ~ ext_lt w v -> forall u, ~ ext_lt v u -> ~ ext_lt w u.
Proof. destruct v, w; cbn; intros A u B; destruct u; cbn in *; try tauto; intros C; try (apply A; exact Logic.I); try (apply B; exact Logic.I); lra. Qed.
Lemma highest_lim a l m : no_nan (a :: l) -> highest l m -> highest (a :: l) (max2 a m).
Proof.
  intros N H. unfold highest in *. rewrite (no_nan_existsb _ N).
  rewrite no_nan_existsb in H by (intros x Hx; apply N; right; exact Hx). destruct H as (x & v & I & V & M & L).
  destruct (num_val a) as [w|] eqn:W; [|exfalso; apply (N a); [left; reflexivity|exact W]].
  unfold max2, num_ltb. rewrite M, W. destruct (ext_ltb w v) eqn:E.
  - apply ext_ltb_lt in E. exists x, v. split; [right; exact I|]. split; [exact V|]. split; [exact M|]. intros y u [<- | Hy] Hu; [|apply (L y u Hy Hu)].
    rewrite W in Hu. injection Hu as <-. destruct v, w; cbn in *; try tauto. lra.
  - apply ext_ltb_nlt in E. exists a, w. split; [left; reflexivity|]. split; [exact W|]. split; [exact W|]. intros y u [<- | Hy] Hu.
    + rewrite W in Hu. injection Hu as <-. destruct w; cbn; try tauto. lra.
    + apply (max_ext v w E), (L y u Hy Hu).
Qed.
Lemma no_nan_app l m : no_nan (l ++ m) <-> no_nan l /\ no_nan m.
Proof. unfold no_nan. split; [intros H; split; intros a Ha; apply H, in_or_app; auto|intros (A & B) a Ha; apply in_app_or in Ha; destruct Ha; auto]. Qed.

Lemma rescale_ok xlim ylim x ys ax : x <> [] -> concat ys <> [] -> same_lengths ys = true ->
  forallb (fun line => paired (length (fst line)) (length (snd line))) (ax_lines ax) = true ->
  exists b, rescale xlim ylim x ys ax = Ok (mk_axes (ax_lines ax) (Some b)) /\
    (no_nan (x ++ concat ys ++ lim_numbers xlim ++ lim_numbers ylim) -> smallest_box xlim ylim x (concat ys) b).
Proof.
  intros Hx Hy S L. unfold rescale. destruct x as [|x0 x']; [contradiction|]. set (xs := x0 :: x') in *.
  rewrite S, L.
  pose proof (num_min_spec xs Hx) as A. pose proof (num_max_spec xs Hx) as B.
  pose proof (num_min_spec _ Hy) as C. pose proof (num_max_spec _ Hy) as D.
  destruct xlim as [[xa xb]|], ylim as [[ya yb]|]; cbn [fst snd]; eexists; (split; [reflexivity|]); intros N; cbn [smallest_box fst snd];
    rewrite !no_nan_app in N; destruct N as (N1 & N2 & N3 & N4); cbn [lim_numbers] in N3, N4;
    repeat split; try assumption; try (apply lowest_lim; [|assumption]); try (apply highest_lim; [|assumption]);
    intros z [<- | Hz]; try (apply N1, Hz); try (apply N2, Hz); try (apply N3; cbn; auto; fail); try (apply N4; cbn; auto; fail).
Qed.
Lemma rescale_paired xlim ylim x ys ax ax' : rescale xlim ylim x ys ax = Ok ax' ->
  ax_lines ax' = ax_lines ax /\ forall line, In line (ax_lines ax) -> paired (length (fst line)) (length (snd line)) = true.
Proof.
  unfold rescale. destruct x as [|x0 x']; [discriminate|]. destruct xlim as [[xa xb]|], ylim as [[ya yb]|]; destruct (same_lengths ys); try discriminate;
  destruct (forallb _ (ax_lines ax)) eqn:F; try discriminate; intros [= <-]; (split; [reflexivity|]); apply forallb_forall, F.
Qed.

(** ** the metrics *)
Section Metrics.
Context {P : Type}.
Variables (xlim ylim : option (num * num)) (modulo : Z) (ms : list (P -> result num)).

Lemma nth_of_error {A} (l : list A) n d x : nth_error l n = Some x -> nth n l d = x.
Proof. apply nth_error_nth. Qed.

(** [f j]: the number the metric [j] appends *)
Lemma write_ok : forall (l : list (P -> result num)) i pop st, i + length l <= length (ms_y st) -> i + length l <= length (ax_lines (ms_ax st)) ->
  (forall m, In m l -> exists v, m pop = Ok v) ->
  exists st', write_metrics l i pop st = (Ok tt, st') /\ ms_x st' = ms_x st /\ ax_box (ms_ax st') = ax_box (ms_ax st) /\
    length (ms_y st') = length (ms_y st) /\ length (ax_lines (ms_ax st')) = length (ax_lines (ms_ax st)) /\
    (forall j, j < i \/ i + length l <= j -> nth_error (ms_y st') j = nth_error (ms_y st) j /\
       nth_error (ax_lines (ms_ax st')) j = nth_error (ax_lines (ms_ax st)) j) /\
    (forall k m, nth_error l k = Some m -> exists v, m pop = Ok v /\
       nth_error (ms_y st') (i + k) = Some (nth (i + k) (ms_y st) [] ++ [to_float v]) /\
       nth_error (ax_lines (ms_ax st')) (i + k) = Some (ms_x st, nth (i + k) (ms_y st) [] ++ [to_float v])).
Proof.
  induction l as [|m l IH]; intros i pop st Hy Hl Hm.
  - exists st. cbn. repeat split; try reflexivity. intros [|k] m [=].
  - cbn [write_metrics length] in *. destruct (Hm m (or_introl eq_refl)) as (v & Ev). rewrite Ev.
    destruct (nth_error (ax_lines (ms_ax st)) i) as [line|] eqn:El; [|apply nth_error_None in El; lia].
    set (y := nth i (ms_y st) [] ++ [to_float v]).
    set (st1 := mk_ms (ms_x st) (set_nth i y (ms_y st)) (mk_axes (set_nth i (ms_x st, y) (ax_lines (ms_ax st))) (ax_box (ms_ax st)))).
    assert (Ly : length (ms_y st1) = length (ms_y st)) by apply set_nth_length.
    assert (Ll : length (ax_lines (ms_ax st1)) = length (ax_lines (ms_ax st))) by apply set_nth_length.
    destruct (IH (S i) pop st1) as (st' & E & X & B & L1 & L2 & O & K); [rewrite Ly; lia|rewrite Ll; lia|intros m' Hm'; apply Hm; right; exact Hm'|].
    assert (Ny : forall j, nth_error (ms_y st1) j = if j =? i then Some y else nth_error (ms_y st) j) by (intros j; apply nth_error_set_nth; lia).
    assert (Nl : forall j, nth_error (ax_lines (ms_ax st1)) j = if j =? i then Some (ms_x st, y) else nth_error (ax_lines (ms_ax st)) j) by (intros j; apply nth_error_set_nth; lia).
    exists st'. split; [exact E|]. split; [exact X|]. split; [exact B|]. split; [rewrite L1; exact Ly|]. split; [rewrite L2; exact Ll|]. split.
    + intros j Hj. destruct (O j ltac:(lia)) as (O1 & O2). rewrite O1, O2, Ny, Nl. replace (j =? i) with false by (symmetry; apply Nat.eqb_neq; lia). auto.
    + intros [|k] m' Hk.
      * injection Hk as <-. rewrite Nat.add_0_r. destruct (O i ltac:(lia)) as (O1 & O2). exists v. split; [exact Ev|]. rewrite O1, O2, Ny, Nl, Nat.eqb_refl. auto.
      * destruct (K k m' Hk) as (w & Ew & K1 & K2). exists w. split; [exact Ew|]. replace (i + S k) with (S i + k) by lia. rewrite K1, K2.
        assert (Z : nth (S i + k) (ms_y st1) [] = nth (S i + k) (ms_y st) []).
        { assert (kl : k < length l) by (cbn in Hk; apply nth_error_Some; congruence). pose proof (Ny (S i + k)) as Q. replace (S i + k =? i) with false in Q by (symmetry; apply Nat.eqb_neq; lia).
          destruct (nth_error (ms_y st) (S i + k)) as [z|] eqn:Ez; [|apply nth_error_None in Ez; lia].
          rewrite (nth_of_error _ _ _ _ Q), (nth_of_error _ _ _ _ Ez). reflexivity. }
        rewrite Z. auto.
Qed.

Lemma series_length (f : Z * result num * P -> result num) cs s : is_series f cs s -> length s = length cs.
Proof. intros H. induction H; cbn; congruence. Qed.
Lemma series_app (f : Z * result num * P -> result num) cs s c v : is_series f cs s -> f c = Ok v -> is_series f (cs ++ [c]) (s ++ [to_float v]).
Proof.
  intros H E. apply Forall2_app; [exact H|]. constructor; [|constructor]. exists v. split; [exact E|]. unfold same_num. symmetry. apply to_float_val.
Qed.

Lemma shown_init ax : shown xlim ylim ms (ax_lines ax ++ repeat ([], []) (length ms)) [] (metrics_reset (length ms) ax).
Proof.
  unfold shown, metrics_reset. cbn [ms_x ms_y ms_ax ax_lines ax_box]. repeat split; try reflexivity; try contradiction; try (constructor).
  - apply repeat_length.
  - intros j m Hj. exists []. split; [|constructor]. assert (L : j < length ms) by (apply nth_error_Some; congruence).
    destruct (nth_error (repeat [] (length ms)) j) as [y|] eqn:E; [|apply nth_error_None in E; rewrite repeat_length in E; lia].
    apply nth_error_In, repeat_spec in E. subst. reflexivity.
Qed.

Hypothesis some : ms <> [].
Hypothesis modulo_ok : modulo <> 0%Z.
Variable old : list (list num * list num).
Hypothesis enough : length ms <= length old.
Hypothesis old_paired : forall line, In line old -> length (fst line) = length (snd line).

Lemma measured_step cs st c : shown xlim ylim ms old cs st -> (fst (fst c) mod modulo = 0)%Z -> nothing_raises ms c ->
  exists st', metrics_call xlim ylim modulo ms (fst (fst c)) (snd (fst c)) (snd c) st = (Ok (snd c), st') /\ shown xlim ylim ms old (cs ++ [c]) st'.
Proof.
  intros (SX & LY & SY & LL & HI & _ & _ & _) Hg ((v & Ev) & Hm). unfold metrics_call.
  destruct (modulo =? 0)%Z eqn:Z0; [apply Z.eqb_eq in Z0; contradiction|]. rewrite Hg, Z.eqb_refl, Ev.
  set (st0 := mk_ms (ms_x st ++ [to_float v]) (ms_y st) (ms_ax st)).
  destruct (write_ok ms 0 (snd c) st0) as (st1 & E & X & B & L1 & L2 & O & K); [cbn; lia|cbn; lia|exact Hm|]. rewrite E.
  cbn [ms_x ms_y ms_ax st0] in *.
  assert (SX' : is_series (fun c => snd (fst c)) (cs ++ [c]) (ms_x st1)) by (rewrite X; apply (series_app (fun c => snd (fst c))); [exact SX|exact Ev]).
  assert (SY' : forall j m, nth_error ms j = Some m -> exists y, nth_error (ms_y st1) j = Some y /\ is_series (fun c => m (snd c)) (cs ++ [c]) y).
  { intros j m Hj. destruct (K j m Hj) as (w & Ew & K1 & _). destruct (SY j m Hj) as (y & Ey & Sy). exists (y ++ [to_float w]). cbn in K1.
    rewrite K1, (nth_of_error _ _ _ _ Ey). split; [reflexivity|]. apply (series_app (fun c => m (snd c))); [exact Sy|exact Ew]. }
  assert (LN : forall y, In y (ms_y st1) -> length y = S (length cs)).
  { intros y Hy. apply In_nth_error in Hy. destruct Hy as (j & Ej). assert (jl : j < length ms) by (rewrite <- LY, <- L1; apply nth_error_Some; congruence).
    destruct (nth_error ms j) as [m|] eqn:Em; [|apply nth_error_None in Em; lia]. destruct (SY' j m Em) as (y' & Ey' & Sy'). rewrite Ej in Ey'. injection Ey' as <-.
    rewrite (series_length _ _ _ Sy'), app_length. cbn. lia. }
  assert (LX : length (ms_x st1) = S (length cs)) by (rewrite (series_length _ _ _ SX'), app_length; cbn; lia).
  assert (HL : forall j y, nth_error (ms_y st1) j = Some y -> nth_error (ax_lines (ms_ax st1)) j = Some (ms_x st1, y)).
  { intros j y Ej. assert (jl : j < length ms) by (rewrite <- LY, <- L1; apply nth_error_Some; congruence).
    destruct (nth_error ms j) as [m|] eqn:Em; [|apply nth_error_None in Em; lia]. destruct (K j m Em) as (w & Ew & K1 & K2). cbn in K1, K2. rewrite K2, X.
    rewrite K1 in Ej. injection Ej as <-. reflexivity. }
  assert (HO : forall j, length ms <= j -> nth_error (ax_lines (ms_ax st1)) j = nth_error old j).
  { intros j Hj. rewrite (proj2 (O j ltac:(right; cbn; lia))). apply HI, Hj. }
  assert (YN : ms_y st1 <> []) by (intros E0; rewrite E0 in L1; cbn in L1; destruct ms; [contradiction|cbn in LY; lia]).
  destruct (rescale_ok xlim ylim (ms_x st1) (ms_y st1) (ms_ax st1)) as (b & Eb & Hb).
  - intros E0. rewrite E0 in LX. discriminate.
  - destruct (ms_y st1) as [|y r] eqn:EY; [contradiction|]. cbn [concat]. specialize (LN y (or_introl eq_refl)). destruct y; [discriminate|discriminate].
  - unfold same_lengths. destruct (ms_y st1) as [|y r] eqn:EY; [contradiction|]. rewrite (LN y (or_introl eq_refl)). cbn [Nat.eqb negb andb].
    apply forallb_forall. intros z Hz. apply Nat.eqb_eq. apply LN. right. exact Hz.
  - apply forallb_forall. intros line Hin. apply In_nth_error in Hin. destruct Hin as (j & Ej).
    assert (D : length (fst line) = length (snd line)); [|unfold paired; rewrite D, Nat.eqb_refl; reflexivity].
    destruct (Nat.lt_ge_cases j (length ms)) as [Hj | Hj].
    + destruct (nth_error (ms_y st1) j) as [y|] eqn:Ey; [|apply nth_error_None in Ey; lia]. rewrite (HL j y Ey) in Ej. injection Ej as <-. cbn [fst snd].
      rewrite LX. symmetry. apply LN. apply nth_error_In in Ey. exact Ey.
    + rewrite (HO j Hj) in Ej. apply old_paired. apply nth_error_In in Ej. exact Ej.
  - rewrite Eb. eexists. split; [reflexivity|]. unfold shown. cbn [ms_x ms_y ms_ax ax_lines ax_box].
    split; [exact SX'|]. split; [congruence|]. split; [exact SY'|]. split; [lia|]. split; [exact HO|].
    split; [intros j Hj E0; destruct cs; discriminate|]. split; [intros j y Ej _; apply HL, Ej|]. intros _. exists b. split; [reflexivity|exact Hb].
Qed.

Lemma run_shown : forall h cs st, shown xlim ylim ms old cs st -> (forall c, In c (measured_calls modulo h) -> nothing_raises ms c) ->
  exists st', metrics_run xlim ylim modulo ms h st = (map (fun c => Ok (snd c)) h, st') /\ shown xlim ylim ms old (cs ++ measured_calls modulo h) st'.
Proof.
  induction h as [|[[gen xv] pop] h IH]; intros cs st S N.
  - exists st. cbn. rewrite app_nil_r. auto.
  - unfold measured_calls in *. cbn [filter fst] in *. destruct (gen mod modulo =? 0)%Z eqn:G.
    + apply Z.eqb_eq in G. destruct (measured_step cs st (gen, xv, pop) S G (N _ (or_introl eq_refl))) as (st1 & E1 & S1).
      destruct (IH (cs ++ [(gen, xv, pop)]) st1 S1) as (st2 & E2 & S2); [intros c Hc; apply N; right; exact Hc|].
      exists st2. cbn [metrics_run fst snd] in *. rewrite E1, E2. rewrite <- app_assoc in S2. auto.
    + destruct (IH cs st S N) as (st2 & E2 & S2). exists st2. cbn [metrics_run map snd]. unfold metrics_call at 1.
      destruct (modulo =? 0)%Z eqn:Z0; [apply Z.eqb_eq in Z0; contradiction|]. rewrite G, E2. auto.
Qed.
End Metrics.

(** a whole run of a new probe *)
Theorem run_spec {P} xlim ylim modulo (ms : list (P -> result num)) ax h : ms <> [] -> modulo <> 0%Z ->
  (forall line, In line (ax_lines ax) -> length (fst line) = length (snd line)) ->
  (forall c, In c (measured_calls modulo h) -> nothing_raises ms c) ->
  exists st0 st, metrics_init (Some ms) ax = Ok st0 /\
    metrics_run xlim ylim modulo ms h st0 = (map (fun c => Ok (snd c)) h, st) /\
    shown xlim ylim ms (ax_lines ax ++ repeat ([], []) (length ms)) (measured_calls modulo h) st.
Proof.
  intros A B C D. exists (metrics_reset (length ms) ax).
  destruct (run_shown xlim ylim modulo ms A B (ax_lines ax ++ repeat ([], []) (length ms))) with (h := h) (cs := @nil (Z * result num * P)) (st := metrics_reset (length ms) ax) as (st & E & S).
  - rewrite app_length, repeat_length. lia.
  - intros line Hl. apply in_app_or in Hl. destruct Hl as [Hl | Hl]; [apply C, Hl|]. apply repeat_spec in Hl. subst. reflexivity.
  - apply shown_init.
  - exact D.
  - exists st. split; [reflexivity|]. split; [exact E|exact S].
Qed.

(** ** failures *)
Section Failure.
Context {P : Type}.
Variables (xlim ylim : option (num * num)) (modulo : Z) (ms : list (P -> result num)).

Definition gap (j : nat) (st : mstate) : Prop :=
  exists y, nth_error (ms_y st) j = Some y /\ length y < length (ms_x st).

(** whatever the metrics do *)
Lemma write_any : forall (l : list (P -> result num)) i pop st r st', write_metrics l i pop st = (r, st') -> length (ms_y st') = length (ms_y st) /\
  ms_x st' = ms_x st /\
  (forall j, nth_error (ms_y st') j = nth_error (ms_y st) j \/
     exists v, i <= j < i + length l /\ j < length (ms_y st) /\ nth_error (ms_y st') j = Some (nth j (ms_y st) [] ++ [v])) /\
  (r = Ok tt -> forall j, i <= j < i + length l -> j < length (ms_y st) ->
     exists v, nth_error (ms_y st') j = Some (nth j (ms_y st) [] ++ [v]) /\ nth_error (ax_lines (ms_ax st')) j = Some (ms_x st, nth j (ms_y st) [] ++ [v])) /\
  (forall j, j < i -> nth_error (ms_y st') j = nth_error (ms_y st) j /\ nth_error (ax_lines (ms_ax st')) j = nth_error (ax_lines (ms_ax st)) j).
Proof.
  induction l as [|m l IH]; intros i pop st r st' E; cbn [write_metrics] in E.
  - injection E as <- <-. repeat split; auto. intros _ j Hj. cbn in Hj. lia.
  - destruct (m pop) as [v|e].
    2:{ injection E as <- <-. repeat split; auto. discriminate. }
    set (y := nth i (ms_y st) [] ++ [to_float v]) in *.
    assert (NE : forall j, j <> i -> nth_error (set_nth i y (ms_y st)) j = nth_error (ms_y st) j).
    { intros j Hj. destruct (Nat.lt_ge_cases i (length (ms_y st))) as [Hi | Hi].
      - rewrite nth_error_set_nth by exact Hi. replace (j =? i) with false by (symmetry; apply Nat.eqb_neq, Hj). reflexivity.
      - clear - Hi. clearbody y. revert i Hi j. induction (ms_y st) as [|a l IH]; intros [|i] Hi j; cbn in *; try reflexivity; try lia.
        destruct j; [reflexivity|]. cbn. apply IH. lia. }
    assert (EQ : i < length (ms_y st) -> nth_error (set_nth i y (ms_y st)) i = Some y) by (intros Hi; rewrite nth_error_set_nth by exact Hi; rewrite Nat.eqb_refl; reflexivity).
    assert (LEN : length (set_nth i y (ms_y st)) = length (ms_y st)) by apply set_nth_length.
    assert (GE : length (ms_y st) <= i -> nth_error (set_nth i y (ms_y st)) i = nth_error (ms_y st) i) by (intros Hi; rewrite (proj2 (nth_error_None _ _)) by lia; symmetry; apply nth_error_None; lia).
    destruct (nth_error (ax_lines (ms_ax st)) i) as [line|] eqn:El.
    2:{ injection E as <- <-. cbn [ms_x ms_y ms_ax]. split; [exact LEN|]. split; [reflexivity|]. split; [|split; [discriminate|]].
        - intros j. destruct (Nat.eq_dec j i) as [-> | Hj]; [|left; apply NE, Hj]. destruct (Nat.lt_ge_cases i (length (ms_y st))) as [Hi | Hi]; [right|left; apply GE, Hi].
          exists (to_float v). cbn. split; [lia|]. split; [exact Hi|apply EQ, Hi].
        - intros j Hj. split; [apply NE; lia|reflexivity]. }
    apply IH in E. cbn [ms_x ms_y ms_ax ax_lines] in E. destruct E as (L & X & A & K & B).
    assert (il : i < length (ax_lines (ms_ax st))) by (apply nth_error_Some; congruence).
    split; [rewrite L; exact LEN|]. split; [exact X|]. cbn [length].
    assert (NTH : forall j, j <> i -> nth j (set_nth i y (ms_y st)) [] = nth j (ms_y st) []).
    { intros j Hj. pose proof (NE j Hj) as Q. destruct (nth_error (ms_y st) j) as [z|] eqn:Ez.
      - rewrite (nth_error_nth _ _ _ Q), (nth_error_nth _ _ _ Ez). reflexivity.
      - apply nth_error_None in Q, Ez. rewrite !nth_overflow by assumption. reflexivity. }
    split; [|split].
    + intros j. destruct (Nat.eq_dec j i) as [-> | Hj].
      * destruct (B i ltac:(lia)) as (B1 & _). rewrite B1. destruct (Nat.lt_ge_cases i (length (ms_y st))) as [Hi | Hi]; [right|left; apply GE, Hi].
        exists (to_float v). split; [lia|]. split; [exact Hi|apply EQ, Hi].
      * destruct (A j) as [A1 | (w & A1 & A2 & A3)]; [left; rewrite A1; apply NE, Hj|right]. exists w. split; [lia|]. split; [lia|]. rewrite A3, NTH by exact Hj. reflexivity.
    + intros R j Hj Hl. destruct (Nat.eq_dec j i) as [-> | Hne].
      * destruct (B i ltac:(lia)) as (B1 & B2). exists (to_float v). rewrite B1, B2, EQ by exact Hl. split; [reflexivity|].
        rewrite nth_error_set_nth by exact il. rewrite Nat.eqb_refl. reflexivity.
      * destruct (K R j ltac:(lia) ltac:(lia)) as (w & K1 & K2). rewrite NTH in K1, K2 by exact Hne. exists w. auto.
    + intros j Hj. destruct (B j ltac:(lia)) as (B1 & B2). rewrite B1, B2. split; [apply NE; lia|].
      rewrite nth_error_set_nth by exact il. replace (j =? i) with false by (symmetry; apply Nat.eqb_neq; lia). reflexivity.
Qed.

Lemma gap_step j st c r st' : j < length ms -> length (ms_y st) = length ms -> gap j st ->
  metrics_call xlim ylim modulo ms (fst (fst c)) (snd (fst c)) (snd c) st = (r, st') ->
  length (ms_y st') = length ms /\ gap j st' /\
  length (nth j (ms_y st) []) <= length (nth j (ms_y st') []) /\
  ((fst (fst c) mod modulo = 0)%Z -> (exists p, r = Ok p) -> nth j (ms_y st) [] = [] /\ nth j (ms_y st') [] <> []).
Proof.
  intros Hj LY (y & Ey & Gy). unfold metrics_call. destruct (modulo =? 0)%Z.
  { intros [= <- <-]. split; [exact LY|]. split; [exists y; auto|]. split; [lia|]. intros _ (p & [=]). }
  assert (EN := nth_error_nth _ _ [] Ey).
  destruct (fst (fst c) mod modulo =? 0)%Z eqn:G.
  2:{ intros [= <- <-]. split; [exact LY|]. split; [exists y; auto|]. split; [lia|]. intros H. rewrite H in G. discriminate. }
  destruct (snd (fst c)) as [v|e].
  2:{ intros [= <- <-]. split; [exact LY|]. split; [exists y; auto|]. split; [lia|]. intros _ (p & [=]). }
  destruct (write_metrics ms 0 (snd c) _) as [r1 st1] eqn:W. apply write_any in W. cbn [ms_x ms_y ms_ax] in W. destruct W as (L & X & A & K & _).
  assert (G1 : gap j st1 /\ length (nth j (ms_y st) []) <= length (nth j (ms_y st1) [])).
  { destruct (A j) as [A1 | (w & _ & _ & A3)].
    - split; [exists y; rewrite A1, X, app_length; cbn; split; [exact Ey|lia]|]. rewrite Ey in A1. rewrite (nth_error_nth _ _ _ A1), EN. lia.
    - split; [exists (nth j (ms_y st) [] ++ [w]); split; [exact A3|rewrite X, !app_length, EN; cbn; lia]|]. rewrite (nth_error_nth _ _ _ A3), app_length. lia. }
  destruct G1 as (G1 & G2). destruct r1 as [[]|e].
  2:{ intros [= <- <-]. split; [congruence|]. split; [exact G1|]. split; [exact G2|]. intros _ (p & [=]). }
  destruct (rescale xlim ylim (ms_x st1) (ms_y st1) (ms_ax st1)) as [ax|e] eqn:R.
  2:{ intros [= <- <-]. split; [congruence|]. split; [exact G1|]. split; [exact G2|]. intros _ (p & [=]). }
  intros [= <- <-]. cbn [ms_x ms_y ms_ax]. split; [congruence|]. split; [exact G1|]. split; [exact G2|]. intros _ _.
  destruct (K eq_refl j ltac:(lia) ltac:(lia)) as (w & K1 & K2). rewrite EN in K1, K2.
  destruct (rescale_paired _ _ _ _ _ _ R) as (_ & PP). specialize (PP _ (nth_error_In _ _ K2)). cbn [fst snd] in PP.
  rewrite (nth_error_nth _ _ _ K1), EN. split; [|destruct y; discriminate].
  destruct y as [|y0 y']; [reflexivity|]. exfalso. unfold paired in PP. rewrite !app_length in PP. cbn in PP, Gy.
  apply orb_prop in PP. destruct PP as [PP | PP]; [apply orb_prop in PP; destruct PP as [PP | PP]|]; apply Nat.eqb_eq in PP; lia.
Qed.

Lemma gap_run j : j < length ms -> forall h st rs st', length (ms_y st) = length ms -> gap j st ->
  metrics_run xlim ylim modulo ms h st = (rs, st') ->
  gap j st' /\ at_most_one (measured_ok modulo) (combine h rs) /\ (nth j (ms_y st) [] <> [] -> forall q, In q (combine h rs) -> ~ measured_ok modulo q).
Proof.
  intros Hj. induction h as [|[[gen xv] pop] h IH]; intros st rs st' LY G E; cbn [metrics_run] in E.
  - injection E as <- <-. split; [exact G|]. split; [intros [|i] k x y [=]|intros _ q []].
  - destruct (metrics_call xlim ylim modulo ms gen xv pop st) as [r st1] eqn:C. destruct (metrics_run xlim ylim modulo ms h st1) as [rs1 st2] eqn:R.
    injection E as <- <-. destruct (gap_step j st (gen, xv, pop) r st1 Hj LY G C) as (LY1 & G1 & M & K).
    destruct (IH st1 rs1 st2 LY1 G1 R) as (G2 & A & B). split; [exact G2|]. cbn [combine].
    assert (B' : measured_ok modulo (gen, xv, pop, r) -> forall q, In q (combine h rs1) -> ~ measured_ok modulo q).
    { intros (Hm & Hr). cbn in Hm, Hr. apply B. apply K; [exact Hm|exact Hr]. }
    split.
    + intros [|i] [|k] x y Hx Hy Bx By; cbn in Hx, Hy; [reflexivity| | |f_equal; exact (A i k x y Hx Hy Bx By)].
      * injection Hx as <-. exfalso. exact (B' Bx y (nth_error_In _ _ Hy) By).
      * injection Hy as <-. exfalso. exact (B' By x (nth_error_In _ _ Hx) Bx).
    + intros N q [<- | Hq].
      * intros (Hm & Hr). cbn in Hm, Hr. apply N, (K Hm Hr).
      * apply B; [|exact Hq]. intros E0. rewrite E0 in M. cbn in M. destruct (nth j (ms_y st) []); [contradiction|cbn in M; lia].
Qed.
End Failure.

Lemma write_fails {P} (ms : list (P -> result num)) : forall i pop st,
  (exists m e, In m ms /\ m pop = Err e) ->
  exists k m e st', nth_error ms k = Some m /\ m pop = Err e /\ (forall k' m', k' < k -> nth_error ms k' = Some m' -> exists v, m' pop = Ok v) /\
    (i + length ms <= length (ax_lines (ms_ax st)) -> write_metrics ms i pop st = (Err e, st') /\
     nth_error (ms_y st') (i + k) = nth_error (ms_y st) (i + k) /\ length (ms_y st') = length (ms_y st) /\ ms_x st' = ms_x st).
Proof.
  induction ms as [|m ms IH]; intros i pop st (m0 & e0 & I & E0); [contradiction|]. cbn [write_metrics length].
  destruct (m pop) as [v|e] eqn:Em.
  2:{ exists 0, m, e, st. split; [reflexivity|]. split; [exact Em|]. split; [intros k' m' H; lia|]. auto. }
  set (y := nth i (ms_y st) [] ++ [to_float v]).
  set (st1 := mk_ms (ms_x st) (set_nth i y (ms_y st)) (mk_axes (set_nth i (ms_x st, y) (ax_lines (ms_ax st))) (ax_box (ms_ax st)))).
  destruct (IH (S i) pop st1) as (k & m' & e & st' & Hk & He & Hb & W).
  { destruct I as [<- | I]; [congruence|]. exists m0, e0. auto. }
  exists (S k), m', e, st'. split; [exact Hk|]. split; [exact He|]. split.
  { intros [|k'] m'' Hl Hn; [injection Hn as <-; exists v; exact Em|]. apply (Hb k' m''); [lia|exact Hn]. }
  intros Hl. destruct (nth_error (ax_lines (ms_ax st)) i) as [line|] eqn:El; [|apply nth_error_None in El; lia].
  destruct W as (W & A & B & C); [cbn; rewrite set_nth_length; lia|]. split; [exact W|]. replace (i + S k) with (S i + k) by lia.
  split; [rewrite A|split; [rewrite B; apply set_nth_length|exact C]]. cbn [ms_y st1]. destruct (Nat.lt_ge_cases i (length (ms_y st))) as [Hi | Hi].
  - rewrite nth_error_set_nth by exact Hi. replace (S i + k =? i) with false by (symmetry; apply Nat.eqb_neq; lia). reflexivity.
  - rewrite (proj2 (nth_error_None _ _)) by (rewrite set_nth_length; lia). symmetry. apply nth_error_None. lia.
Qed.

Lemma failure_permanent {P} xlim ylim modulo (ms : list (P -> result num)) ax h1 c h2 : modulo <> 0%Z ->
  (forall line, In line (ax_lines ax) -> length (fst line) = length (snd line)) ->
  (forall c, In c (measured_calls modulo h1) -> nothing_raises ms c) ->
  (fst (fst c) mod modulo = 0)%Z -> (exists v, snd (fst c) = Ok v) -> (exists m e, In m ms /\ m (snd c) = Err e) ->
  exists st0 rs1 st1 e st2 rs2 st3, metrics_init (Some ms) ax = Ok st0 /\
    metrics_run xlim ylim modulo ms h1 st0 = (rs1, st1) /\
    metrics_call xlim ylim modulo ms (fst (fst c)) (snd (fst c)) (snd c) st1 = (Err e, st2) /\
    metrics_run xlim ylim modulo ms h2 st2 = (rs2, st3) /\
    (exists m, In m ms /\ m (snd c) = Err e) /\
    at_most_one (measured_ok modulo) (combine h2 rs2) /\
    (measured_calls modulo h1 <> [] -> forall q, In q (combine h2 rs2) -> ~ measured_ok modulo q) /\
    (exists y, In y (ms_y st3) /\ length y < length (ms_x st3)).
Proof.
  intros Hmod Hl Hn Hg (v & Ev) Hm. assert (some : ms <> []) by (destruct Hm as (m & e & I & _); intros ->; contradiction).
  destruct (run_spec xlim ylim modulo ms ax h1 some Hmod Hl Hn) as (st0 & st1 & E0 & E1 & S).
  destruct S as (SX & LY & SY & LL & _).
  assert (enough : 0 + length ms <= length (ax_lines (ms_ax st1))) by (rewrite LL, app_length, repeat_length; lia).
  destruct (write_fails ms 0 (snd c) (mk_ms (ms_x st1 ++ [to_float v]) (ms_y st1) (ms_ax st1)) Hm) as (k & m & e & st2 & Hk & He & _ & W).
  destruct (W enough) as (W1 & W2 & W3 & W4). cbn [ms_x ms_y ms_ax Nat.add] in W2, W3, W4. clear W.
  assert (C : metrics_call xlim ylim modulo ms (fst (fst c)) (snd (fst c)) (snd c) st1 = (Err e, st2)).
  { unfold metrics_call. destruct (modulo =? 0)%Z eqn:Z0; [apply Z.eqb_eq in Z0; contradiction|]. rewrite Hg, Z.eqb_refl, Ev, W1. reflexivity. }
  destruct (SY k m Hk) as (y & Ey & Sy).
  assert (G : gap k st2). { exists y. rewrite W2, W4, app_length. split; [exact Ey|]. rewrite (series_length _ _ _ Sy), (series_length _ _ _ SX). cbn. lia. }
  assert (kl : k < length ms) by (apply nth_error_Some; congruence).
  destruct (metrics_run xlim ylim modulo ms h2 st2) as [rs2 st3] eqn:R.
  destruct (gap_run xlim ylim modulo ms k kl h2 st2 rs2 st3 ltac:(congruence) G R) as (G3 & A & B).
  exists st0, (map (fun c => Ok (snd c)) h1), st1, e, st2, rs2, st3. split; [exact E0|]. split; [exact E1|]. split; [exact C|]. split; [exact R|].
  split; [exists m; split; [apply (nth_error_In _ _ Hk)|exact He]|]. split; [exact A|]. split.
  - intros N. apply B. rewrite (nth_error_nth _ _ _ (eq_trans W2 Ey)). pose proof (series_length _ _ _ Sy) as Q. intros ->. destruct (measured_calls modulo h1); [contradiction|discriminate].
  - destruct G3 as (z & Ez & Lz). exists z. split; [apply (nth_error_In _ _ Ez)|exact Lz].
Qed.

(** ** views *)
Lemma low_dim l lim x : num_le l lim -> x <> [] -> Forall finite_num x ->
  (num_ltb (np_min x) lim = true -> finite_limit (np_min x) = true) /\
  let new := if num_ltb (np_min x) lim then np_min x else l in num_le new lim /\ (forall a, In a x -> num_le new a) /\ (new = l \/ exists a, In a x /\ same_num a new).
Proof.
  intros (ql & qm & El & Em & Hlm) Hx F. rewrite Forall_forall in F.
  assert (N : no_nan x) by (intros a Ha; destruct (F a Ha) as (q & Eq); congruence).
  pose proof (num_min_spec x Hx) as M. unfold lowest in M. rewrite (no_nan_existsb _ N) in M. destruct M as (b & v & Ib & Eb & Ev & Hv).
  destruct (F b Ib) as (qb & Eqb). rewrite Eqb in Eb. injection Eb as <-.
  assert (L : forall a, In a x -> exists q, num_val a = Some (Fin q) /\ (qb <= q)%Q).
  { intros a Ha. destruct (F a Ha) as (q & Eq). exists q. split; [exact Eq|]. specialize (Hv a _ Ha Eq). cbn in Hv. lra. }
  split; [intros _; unfold finite_limit; rewrite Ev; reflexivity|]. cbv zeta. unfold num_ltb. rewrite Ev, Em.
  destruct (ext_ltb (Fin qb) (Fin qm)) eqn:E.
  - apply ext_ltb_lt in E. cbn in E. split; [exists qb, qm; split; [exact Ev|split; [exact Em|lra]]|].
    split; [|right; exists b; split; [exact Ib|unfold same_num; congruence]]. intros a Ha. destruct (L a Ha) as (q & Eq & Hq). exists qb, q. auto.
  - apply ext_ltb_nlt in E. cbn in E. split; [exists ql, qm; auto|].
    split; [|left; reflexivity]. intros a Ha. destruct (L a Ha) as (q & Eq & Hq). exists ql, q. split; [exact El|]. split; [exact Eq|]. lra.
Qed.
Lemma high_dim l lim x : num_le lim l -> x <> [] -> Forall finite_num x ->
  (num_ltb lim (np_max x) = true -> finite_limit (np_max x) = true) /\
  let new := if num_ltb lim (np_max x) then np_max x else l in num_le lim new /\ (forall a, In a x -> num_le a new) /\ (new = l \/ exists a, In a x /\ same_num a new).
Proof.
  intros (qm & ql & Em & El & Hlm) Hx F. rewrite Forall_forall in F.
  assert (N : no_nan x) by (intros a Ha; destruct (F a Ha) as (q & Eq); congruence).
  pose proof (num_max_spec x Hx) as M. unfold highest in M. rewrite (no_nan_existsb _ N) in M. destruct M as (b & v & Ib & Eb & Ev & Hv).
  destruct (F b Ib) as (qb & Eqb). rewrite Eqb in Eb. injection Eb as <-.
  assert (L : forall a, In a x -> exists q, num_val a = Some (Fin q) /\ (q <= qb)%Q).
  { intros a Ha. destruct (F a Ha) as (q & Eq). exists q. split; [exact Eq|]. specialize (Hv a _ Ha Eq). cbn in Hv. lra. }
  split; [intros _; unfold finite_limit; rewrite Ev; reflexivity|]. cbv zeta. unfold num_ltb. rewrite Ev, Em.
  destruct (ext_ltb (Fin qm) (Fin qb)) eqn:E.
  - apply ext_ltb_lt in E. cbn in E. split; [exists qm, qb; split; [exact Em|split; [exact Ev|lra]]|].
    split; [|right; exists b; split; [exact Ib|unfold same_num; congruence]]. intros a Ha. destruct (L a Ha) as (q & Eq & Hq). exists q, qb. auto.
  - apply ext_ltb_nlt in E. cbn in E. split; [exists qm, ql; auto|].
    split; [|left; reflexivity]. intros a Ha. destruct (L a Ha) as (q & Eq & Hq). exists q, ql. split; [exact Eq|]. split; [exact El|]. lra.
Qed.
Lemma rescale_view_ok xlim ylim x y v : keeps_limits xlim ylim v -> x <> [] -> y <> [] -> Forall finite_num x -> Forall finite_num y ->
  exists v', rescale_view xlim ylim x y v = (Ok tt, v') /\ keeps_limits xlim ylim v' /\
    (forall a b, In a x -> In b y -> shows v' (a, b)) /\
    (v_left v' = v_left v \/ exists a, In a x /\ same_num a (v_left v')) /\ (v_right v' = v_right v \/ exists a, In a x /\ same_num a (v_right v')) /\
    (v_bottom v' = v_bottom v \/ exists a, In a y /\ same_num a (v_bottom v')) /\ (v_top v' = v_top v \/ exists a, In a y /\ same_num a (v_top v')).
Proof.
  intros (K1 & K2 & K3 & K4) Hx Hy Fx Fy.
  destruct (low_dim _ _ x K1 Hx Fx) as (A1 & A2 & A3 & A4). destruct (high_dim _ _ x K2 Hx Fx) as (B1 & B2 & B3 & B4).
  destruct (low_dim _ _ y K3 Hy Fy) as (C1 & C2 & C3 & C4). destruct (high_dim _ _ y K4 Hy Fy) as (D1 & D2 & D3 & D4).
  unfold rescale_view. destruct x as [|x0 x']; [contradiction|]. set (xs := x0 :: x') in *.
  exists (mk_view (if num_ltb (np_min xs) (fst xlim) then np_min xs else v_left v)
                  (if num_ltb (snd xlim) (np_max xs) then np_max xs else v_right v)
                  (if num_ltb (np_min y) (fst ylim) then np_min y else v_bottom v)
                  (if num_ltb (snd ylim) (np_max y) then np_max y else v_top v)).
  split.
  - destruct (num_ltb (np_min xs) (fst xlim)); [rewrite A1 by reflexivity|]; (destruct (num_ltb (snd xlim) (np_max xs)); [rewrite B1 by reflexivity|]);
    (destruct (num_ltb (np_min y) (fst ylim)); [rewrite C1 by reflexivity|]); (destruct (num_ltb (snd ylim) (np_max y)); [rewrite D1 by reflexivity|]); destruct v; reflexivity.
  - split; [repeat split; assumption|]. split; [intros a b Ha Hb; repeat split; cbn; auto|]. cbn. auto.
Qed.

(** a probe whose measured calls show some points *)
Section Scatter.
Context {P : Type}.
Variables (xlim ylim : num * num) (modulo : Z) (call : Z -> P -> scatter -> result P * scatter)
  (points : P -> list (num * num) -> Prop) (good : P -> Prop).
Hypothesis unmeasured : forall gen pop st, (gen mod modulo <> 0)%Z -> call gen pop st = (Ok pop, st).
Hypothesis measured : forall gen pop st, (gen mod modulo = 0)%Z -> good pop ->
  exists x y, call gen pop st = show_points xlim ylim x y pop st /\ points pop (combine x y) /\ length x = length y /\ x <> [] /\ y <> [] /\ Forall finite_num x /\ Forall finite_num y.

Lemma combine_left {A B} (x : list A) (y : list B) a : length x = length y -> In a x -> exists b, In (a, b) (combine x y).
Proof.
  revert y. induction x as [|c x IH]; intros [|d y] L H; try discriminate; [contradiction|]. cbn in *. destruct H as [-> | H]; [exists d; auto|].
  destruct (IH y ltac:(lia) H) as (b & Hb). exists b. auto.
Qed.
Lemma combine_right {A B} (x : list A) (y : list B) b : length x = length y -> In b y -> exists a, In (a, b) (combine x y).
Proof.
  revert y. induction x as [|c x IH]; intros [|d y] L H; try discriminate; [contradiction|]. cbn in *. destruct H as [-> | H]; [exists c; auto|].
  destruct (IH y ltac:(lia) H) as (a & Ha). exists a. auto.
Qed.
Definition changed (coord : num * num -> num) (pts : list (num * num)) (a b : num) : Prop := b = a \/ exists p, In p pts /\ same_num (coord p) b.
Lemma scatter_step gen pop st : keeps_limits xlim ylim (sc_view st) -> (gen mod modulo = 0)%Z -> good pop ->
  exists st', call gen pop st = (Ok pop, st') /\ keeps_limits xlim ylim (sc_view st') /\ points pop (sc_offsets st') /\
    (forall p, In p (sc_offsets st') -> shows (sc_view st') p) /\
    changed fst (sc_offsets st') (v_left (sc_view st)) (v_left (sc_view st')) /\ changed fst (sc_offsets st') (v_right (sc_view st)) (v_right (sc_view st')) /\
    changed snd (sc_offsets st') (v_bottom (sc_view st)) (v_bottom (sc_view st')) /\ changed snd (sc_offsets st') (v_top (sc_view st)) (v_top (sc_view st')).
Proof.
  intros K G H. destruct (measured gen pop st G H) as (x & y & E & Pp & LXY & Hx & Hy & Fx & Fy).
  destruct (rescale_view_ok xlim ylim x y (sc_view st) K Hx Hy Fx Fy) as (v' & Ev & Kv & Sv & T1 & T2 & T3 & T4).
  rewrite E. unfold show_points. rewrite Ev. eexists. split; [reflexivity|]. cbn [sc_view sc_offsets]. split; [exact Kv|]. split; [exact Pp|].
  split; [intros [a b] Hp; apply Sv; [exact (in_combine_l _ _ _ _ Hp)|exact (in_combine_r _ _ _ _ Hp)]|].
  unfold changed. repeat split.
  - destruct T1 as [T | (a & Ia & Sa)]; [left; exact T|right]. destruct (combine_left x y a LXY Ia) as (b & Ib). exists (a, b). auto.
  - destruct T2 as [T | (a & Ia & Sa)]; [left; exact T|right]. destruct (combine_left x y a LXY Ia) as (b & Ib). exists (a, b). auto.
  - destruct T3 as [T | (a & Ia & Sa)]; [left; exact T|right]. destruct (combine_right x y a LXY Ia) as (b & Ib). exists (b, a). auto.
  - destruct T4 as [T | (a & Ia & Sa)]; [left; exact T|right]. destruct (combine_right x y a LXY Ia) as (b & Ib). exists (b, a). auto.
Qed.
Lemma was_shown_more h1 h2 p : was_shown points modulo h1 p -> was_shown points modulo (h1 ++ h2) p.
Proof. intros (c & pts & I & R). exists c, pts. split; [apply in_or_app; left; exact I|exact R]. Qed.
Lemma limit_more lim coord h1 h2 v : limit_from lim coord (was_shown points modulo h1) v -> limit_from lim coord (was_shown points modulo (h1 ++ h2)) v.
Proof. intros [E | (p & S & N)]; [left; exact E|right; exists p; split; [apply was_shown_more, S|exact N]]. Qed.
Lemma limit_step lim coord h1 gen pop pts v v' : (gen mod modulo = 0)%Z -> points pop pts -> changed coord pts v v' ->
  limit_from lim coord (was_shown points modulo h1) v -> limit_from lim coord (was_shown points modulo (h1 ++ [(gen, pop)])) v'.
Proof.
  intros G Pp [-> | (p & I & N)] L; [apply limit_more, L|]. right. exists p. split; [|exact N]. exists (gen, pop), pts.
  split; [apply in_or_app; right; left; reflexivity|]. auto.
Qed.

Lemma scatter_run_ok : forall h2 h1 st, plot_ok points xlim ylim modulo h1 st ->
  (forall c, In c h2 -> (fst c mod modulo = 0)%Z -> good (snd c)) ->
  exists st', scatter_run call h2 st = (map (fun c => Ok (snd c)) h2, st') /\ plot_ok points xlim ylim modulo (h1 ++ h2) st'.
Proof.
  induction h2 as [|[gen pop] h2 IH]; intros h1 st H G.
  - exists st. rewrite app_nil_r. auto.
  - assert (S : exists st', call gen pop st = (Ok pop, st') /\ plot_ok points xlim ylim modulo (h1 ++ [(gen, pop)]) st').
    { destruct H as (K & S & Z & L & T1 & T2 & T3 & T4). destruct (Z.eq_dec (gen mod modulo) 0) as [E | E].
      - destruct (scatter_step gen pop st K E (G (gen, pop) (or_introl eq_refl) E)) as (st' & C & K' & P' & S' & U1 & U2 & U3 & U4). exists st'. split; [exact C|].
        split; [exact K'|]. split; [exact S'|]. split; [|split; [|repeat split; eapply limit_step; eauto]].
        + intros N. exfalso. apply (N (gen, pop)); [apply in_or_app; right; left; reflexivity|exact E].
        + intros a c b Eq Ec Nb. destruct b as [|b0 b].
          * apply app_inj_tail in Eq. destruct Eq as (_ & <-). exact P'.
          * exfalso. destruct (exists_last (l := b0 :: b)) as (b' & z & Ez); [discriminate|]. rewrite Ez in *.
            change (a ++ c :: b' ++ [z]) with (a ++ (c :: b') ++ [z]) in Eq. rewrite app_assoc in Eq. apply app_inj_tail in Eq. destruct Eq as (_ & <-).
            apply (Nb (gen, pop)); [apply in_or_app; right; left; reflexivity|exact E].
      - exists st. split; [apply unmeasured, E|]. split; [exact K|]. split; [exact S|]. split; [|split; [|repeat split; apply limit_more; assumption]].
        + intros N. apply Z. intros c Hc. apply N, in_or_app. left. exact Hc.
        + intros a c b Eq Ec Nb. destruct b as [|b0 b].
          * apply app_inj_tail in Eq. destruct Eq as (_ & <-). contradiction.
          * destruct (exists_last (l := b0 :: b)) as (b' & z & Ez); [discriminate|]. rewrite Ez in *.
            change (a ++ c :: b' ++ [z]) with (a ++ (c :: b') ++ [z]) in Eq. rewrite app_assoc in Eq. apply app_inj_tail in Eq. destruct Eq as (-> & _).
            apply (L a c b' eq_refl Ec). intros c' Hc'. apply Nb, in_or_app. left. exact Hc'. }
    destruct S as (st1 & C & S1). destruct (IH (h1 ++ [(gen, pop)]) st1 S1) as (st2 & R & S2); [intros c Hc; apply G; right; exact Hc|].
    exists st2. cbn [scatter_run map snd]. rewrite C, R. rewrite <- app_assoc in S2. auto.
Qed.

Lemma scatter_from_init h : num_le (fst xlim) (fst xlim) -> num_le (snd xlim) (snd xlim) -> num_le (fst ylim) (fst ylim) -> num_le (snd ylim) (snd ylim) ->
  (forall c, In c h -> (fst c mod modulo = 0)%Z -> good (snd c)) ->
  exists st, scatter_run call h (scatter_init xlim ylim) = (map (fun c => Ok (snd c)) h, st) /\ plot_ok points xlim ylim modulo h st.
Proof.
  intros A B C D G. apply (scatter_run_ok h []); [|exact G]. split; [repeat split; assumption|]. split; [intros p []|]. split; [reflexivity|].
  split; [intros [|a h1] c h2 [=]|]. repeat split; left; reflexivity.
Qed.
End Scatter.

Lemma finite_le a : finite_num a -> num_le a a.
Proof. intros (q & E). exists q, q. split; [exact E|]. split; [exact E|lra]. Qed.

Lemma components_ok k : forall l, (forall v, In v l -> k < length v) -> exists x, components k l = Ok x /\ Forall2 (fun v a => nth_error v k = Some a) l x.
Proof.
  induction l as [|v l IH]; intros H; [exists []; split; [reflexivity|constructor]|].
  cbn [components]. destruct (nth_error v k) as [a|] eqn:E; [|apply nth_error_None in E; specialize (H v (or_introl eq_refl)); lia].
  destruct IH as (x & Ex & Fx); [intros w Hw; apply H; right; exact Hw|]. rewrite Ex. exists (a :: x). split; [reflexivity|constructor; assumption].
Qed.
Lemma components_short k : forall l v, In v l -> length v <= k -> components k l = Err IndexError.
Proof.
  induction l as [|w l IH]; intros v Hv L; [contradiction|]. cbn [components]. destruct Hv as [-> | Hv].
  - rewrite (proj2 (nth_error_None _ _) L). reflexivity.
  - destruct (nth_error w k); [|reflexivity]. rewrite (IH v Hv L). reflexivity.
Qed.
Lemma points_of : forall (l : list (list num)) x y, Forall2 (fun v a => nth_error v 0 = Some a) l x -> Forall2 (fun v a => nth_error v 1 = Some a) l y ->
  Forall2 is_point l (combine x y).
Proof.
  induction l as [|v l IH]; intros x y A B; inversion A; subst; inversion B; subst; [constructor|]. cbn [combine]. constructor; [|apply IH; assumption].
  destruct v as [|a [|b r]]; try discriminate. cbn in *. injection H1 as ->. injection H2 as ->. exists r. reflexivity.
Qed.
Lemma Forall2_In_r {A B} (R : A -> B -> Prop) l m b : Forall2 R l m -> In b m -> exists a, In a l /\ R a b.
Proof. intros F. induction F as [|a c l m H F IH]; intros []; [subst; exists a; cbn; auto|destruct (IH H0) as (a' & I & R'); exists a'; cbn; auto]. Qed.

Lemma Forall2_len {A B} (R : A -> B -> Prop) l m : Forall2 R l m -> length l = length m.
Proof. intros F. induction F; cbn; congruence. Qed.

Theorem cartesian_spec xlim ylim modulo h : modulo <> 0%Z ->
  finite_num (fst xlim) -> finite_num (snd xlim) -> finite_num (fst ylim) -> finite_num (snd ylim) ->
  (forall c, In c h -> (fst c mod modulo = 0)%Z -> snd c <> [] /\ forall v, In v (snd c) -> 2 <= length v /\ Forall finite_num v) ->
  exists st, scatter_run (cartesian_call xlim ylim modulo) h (scatter_init xlim ylim) = (map (fun c => Ok (snd c)) h, st) /\
    plot_ok (Forall2 is_point) xlim ylim modulo h st.
Proof.
  intros M A B C D G. apply (scatter_from_init xlim ylim modulo (cartesian_call xlim ylim modulo) (Forall2 is_point)
    (fun pop => pop <> [] /\ forall v, In v pop -> 2 <= length v /\ Forall finite_num v)); try (apply finite_le; assumption); [| |exact G].
  - intros gen pop st N. unfold cartesian_call. destruct (modulo =? 0)%Z eqn:Z0; [apply Z.eqb_eq in Z0; contradiction|].
    apply Z.eqb_neq in N. rewrite N. reflexivity.
  - intros gen pop st N (Hp & Hv). unfold cartesian_call. destruct (modulo =? 0)%Z eqn:Z0; [apply Z.eqb_eq in Z0; contradiction|].
    rewrite N, Z.eqb_refl. destruct (components_ok 0 pop) as (x & Ex & Fx); [intros v Iv; specialize (Hv v Iv); lia|].
    destruct (components_ok 1 pop) as (y & Ey & Fy); [intros v Iv; specialize (Hv v Iv); lia|]. rewrite Ex, Ey.
    exists x, y. split; [reflexivity|]. split; [apply points_of; assumption|].
    split; [rewrite <- (Forall2_len _ _ _ Fx); apply (Forall2_len _ _ _ Fy)|]. split; [intros ->; inversion Fx; subst; contradiction|]. split; [intros ->; inversion Fy; subst; contradiction|].
    split; apply Forall_forall; intros a Ha.
    + destruct (Forall2_In_r _ _ _ _ Fx Ha) as (v & Iv & Ev). destruct (Hv v Iv) as (_ & F). rewrite Forall_forall in F. apply F, (nth_error_In _ _ Ev).
    + destruct (Forall2_In_r _ _ _ _ Fy Ha) as (v & Iv & Ev). destruct (Hv v Iv) as (_ & F). rewrite Forall_forall in F. apply F, (nth_error_In _ _ Ev).
Qed.

(** ** sums *)
Lemma sum_finite : forall l qs a qa, Forall2 (fun a q => num_val a = Some (Fin q)) l qs -> num_val a = Some (Fin qa) ->
  exists s, num_val (fold_left num_add l a) = Some (Fin s) /\ (s == qa + fold_right Qplus 0 qs)%Q.
Proof.
  induction l as [|b l IH]; intros qs a qa F Ea; inversion F as [|? q ? qs' Eb F']; subst; cbn [fold_left fold_right].
  - exists qa. split; [exact Ea|lra].
  - assert (E : exists y, num_val (num_add a b) = Some (Fin y) /\ (y == qa + q)%Q).
    { destruct (num_add_val a b q Eb) as [E | (x & Ex & y & Ey & Eq)].
      - rewrite Ea in E. exists (qa + q)%Q. split; [exact E|lra].
      - rewrite Ea in Ex. injection Ex as <-. exists y. auto. }
    destruct E as (y & Ey & Eq). destruct (IH qs' (num_add a b) y F' Ey) as (s & Es & Hs). exists s. split; [exact Es|]. rewrite Hs, Eq. lra.
Qed.
Lemma finite_values l : Forall finite_num l -> exists qs, Forall2 (fun a q => num_val a = Some (Fin q)) l qs.
Proof. intros F. induction F as [|a l (q & E) F (qs & IH)]; [exists []; constructor|exists (q :: qs); constructor; assumption]. Qed.

Theorem sum_spec xlim ylim modulo h : modulo <> 0%Z ->
  finite_num (fst xlim) -> finite_num (snd xlim) -> finite_num (fst ylim) -> finite_num (snd ylim) ->
  (forall c, In c h -> (fst c mod modulo = 0)%Z -> snd c <> [] /\ forall i, In i (snd c) -> Forall finite_num (fst i) /\ finite_num (snd i)) ->
  exists st, scatter_run (sum_call xlim ylim modulo) h (scatter_init xlim ylim) = (map (fun c => Ok (snd c)) h, st) /\
    plot_ok (Forall2 is_sum_point) xlim ylim modulo h st.
Proof.
  intros M A B C D G. apply (scatter_from_init xlim ylim modulo (sum_call xlim ylim modulo) (Forall2 is_sum_point)
    (fun pop => pop <> [] /\ forall i, In i pop -> Forall finite_num (fst i) /\ finite_num (snd i))); try (apply finite_le; assumption); [| |exact G].
  - intros gen pop st N. unfold sum_call. destruct (modulo =? 0)%Z eqn:Z0; [apply Z.eqb_eq in Z0; contradiction|].
    apply Z.eqb_neq in N. rewrite N. reflexivity.
  - intros gen pop st N (Hp & Hv). unfold sum_call. destruct (modulo =? 0)%Z eqn:Z0; [apply Z.eqb_eq in Z0; contradiction|].
    rewrite N, Z.eqb_refl. eexists _, _. split; [reflexivity|].
    assert (S : forall i, In i pop -> is_sum_point i (fold_left num_add (fst i) (NInt 0), snd i)).
    { intros i Hi. destruct (Hv i Hi) as (F & _). destruct (finite_values _ F) as (qs & Fq). split; [|reflexivity]. exists qs. split; [exact Fq|].
      destruct (sum_finite (fst i) qs (NInt 0) 0%Q Fq eq_refl) as (s & Es & Hs). exists s. split; [exact Es|]. rewrite Hs. lra. }
    split.
    { clear - S. induction pop as [|i pop IH]; [constructor|]. cbn [map combine]. constructor; [apply S; left; reflexivity|apply IH; intros j Hj; apply S; right; exact Hj]. }
    split; [rewrite !map_length; reflexivity|]. split; [destruct pop; [contradiction|discriminate]|]. split; [destruct pop; [contradiction|discriminate]|].
    split; apply Forall_forall; intros a Ha; apply in_map_iff in Ha; destruct Ha as (i & <- & Hi).
    + destruct (S i Hi) as ((qs & _ & s & Es & _) & _). exists s. exact Es.
    + apply (Hv i Hi).
Qed.

(** ** failures *)
Lemma cartesian_empty xlim ylim modulo gen st : modulo <> 0%Z -> (gen mod modulo = 0)%Z ->
  cartesian_call xlim ylim modulo gen [] st = (Err ValueError, mk_sc [] [] [] (sc_view st)).
Proof. intros M G. unfold cartesian_call. destruct (modulo =? 0)%Z eqn:Z0; [apply Z.eqb_eq in Z0; contradiction|]. rewrite G. reflexivity. Qed.
Lemma cartesian_short xlim ylim modulo gen pop v st : modulo <> 0%Z -> (gen mod modulo = 0)%Z -> In v pop -> length v < 2 ->
  exists st', cartesian_call xlim ylim modulo gen pop st = (Err IndexError, st') /\ sc_offsets st' = sc_offsets st /\ sc_view st' = sc_view st.
Proof.
  intros M G I L. unfold cartesian_call. destruct (modulo =? 0)%Z eqn:Z0; [apply Z.eqb_eq in Z0; contradiction|]. rewrite G, Z.eqb_refl.
  destruct (components 0 pop) as [x|e] eqn:E0.
  - rewrite (components_short 1 pop v I) by lia. eauto.
  - assert (e = IndexError) as ->.
    { clear - E0. revert e E0. induction pop as [|w pop IH]; intros e E; [discriminate|]. cbn [components] in E. destruct (nth_error w 0); [|congruence].
      destruct (components 0 pop); [discriminate|]. injection E as <-. apply IH. reflexivity. }
    eauto.
Qed.

(** ** the Pareto plot *)
Lemma pareto_spec xlim ylim modulo step pop st : modulo <> 0%Z -> (step mod modulo = 0)%Z -> pop <> [] ->
  (forall v, In v pop -> 2 <= length v) -> (forall line, In line (ax_lines (ps_ax st)) -> length (fst line) = length (snd line)) ->
  exists st', pareto_call xlim ylim modulo (Ok step) pop st = (Ok pop, st') /\ Forall2 is_point pop (ps_offsets st') /\
    ax_lines (ps_ax st') = ax_lines (ps_ax st) /\
    exists b, ax_box (ps_ax st') = Some b /\
      ((forall v, In v pop -> no_nan v) -> no_nan [fst xlim; snd xlim; fst ylim; snd ylim] ->
       smallest_box (Some xlim) (Some ylim) (map fst (ps_offsets st')) (map snd (ps_offsets st')) b).
Proof.
  intros M G Hp Hv Hl. unfold pareto_call. destruct (modulo =? 0)%Z eqn:Z0; [apply Z.eqb_eq in Z0; contradiction|]. rewrite G, Z.eqb_refl.
  destruct (components_ok 0 pop) as (x & Ex & Fx); [intros v Iv; specialize (Hv v Iv); lia|].
  destruct (components_ok 1 pop) as (y & Ey & Fy); [intros v Iv; specialize (Hv v Iv); lia|]. rewrite Ex, Ey.
  assert (LXY : length x = length y) by (clear - Fx Fy; revert x y Fx Fy; induction pop as [|v p IH]; intros x y A B; inversion A; inversion B; subst; cbn; [reflexivity|f_equal; apply IH; assumption]).
  destruct (rescale_ok (Some xlim) (Some ylim) x [y] (ps_ax st)) as (b & Eb & Hb).
  - intros ->. inversion Fx; subst; contradiction.
  - cbn. rewrite app_nil_r. intros ->. inversion Fy; subst; contradiction.
  - cbn. destruct y; [inversion Fy; subst; contradiction|reflexivity].
  - apply forallb_forall. intros line I. unfold paired. rewrite (Hl line I), Nat.eqb_refl. reflexivity.
  - rewrite Eb. eexists. split; [reflexivity|]. cbn [ps_offsets ps_ax ax_lines ax_box]. split; [apply points_of; assumption|]. split; [reflexivity|].
    exists b. split; [reflexivity|]. intros N NL. cbn [concat] in Hb. rewrite app_nil_r in Hb.
    assert (C : forall (x y : list num), length x = length y -> map fst (combine x y) = x /\ map snd (combine x y) = y).
    { clear. induction x as [|a x IH]; intros [|b y] L; try discriminate; [auto|]. destruct (IH y) as (A & B); [cbn in L; lia|]. cbn. rewrite A, B. auto. }
    destruct (C x y LXY) as (-> & ->). apply Hb. rewrite !no_nan_app. destruct xlim as [xa xb], ylim as [ya yb]. cbn [lim_numbers fst snd] in *.
    split; [|split; [|split; intros z Hz; apply NL; cbn in *; tauto]]; intros z Hz.
    + destruct (Forall2_In_r _ _ _ _ Fx Hz) as (v & Iv & Ev). apply (N v Iv), (nth_error_In _ _ Ev).
    + destruct (Forall2_In_r _ _ _ _ Fy Hz) as (v & Iv & Ev). apply (N v Iv), (nth_error_In _ _ Ev).
Qed.

(** ** the fitness curve *)
Lemma Qtrunc_floor q z : (0 <= z)%Z -> (inject_Z z <= q)%Q -> (q < inject_Z (z + 1))%Q -> Qtrunc q = z.
Proof.
  unfold Qtrunc, Qle, Qlt, inject_Z. destruct q as [n d]. cbn [Qnum Qden]. rewrite !Z.mul_1_r. intros Hz A B.
  rewrite Z.quot_div_nonneg by nia. symmetry. apply (Z.div_unique_pos n (Zpos d) z (n - z * Zpos d)); lia.
Qed.
Lemma arange_spec a b step : (1 <= step)%Z -> exists l, arange a b step = Ok l /\
  (forall i, In i l <-> exists k : nat, i = (a + Z.of_nat k * step)%Z /\ (i < b)%Z) /\
  (forall k, k < length l -> nth_error l k = Some (a + Z.of_nat k * step)%Z).
Proof.
  intros S. unfold arange. destruct (step =? 0)%Z eqn:Z0; [apply Z.eqb_eq in Z0; lia|]. eexists. split; [reflexivity|].
  assert (D := Z.div_mod (a - b) step ltac:(lia)). assert (R := Z.mod_pos_bound (a - b) step ltac:(lia)).
  split.
  - intros i. rewrite in_map_iff. split.
    + intros (k & <- & Hk). apply in_seq in Hk. exists k. split; [reflexivity|].
      assert (Z.of_nat k < - ((a - b) / step))%Z by lia. nia.
    + intros (k & -> & Hk). exists k. split; [reflexivity|]. apply in_seq. split; [lia|].
      assert (Z.of_nat k < - ((a - b) / step))%Z by nia. lia.
  - intros k Hk. rewrite map_length, seq_length in Hk. rewrite nth_error_map.
    assert (E : nth_error (seq 0 (Z.to_nat (- ((a - b) / step)))) k = Some k).
    { rewrite (nth_error_nth' _ 0) by (rewrite seq_length; exact Hk). rewrite seq_nth by exact Hk. reflexivity. }
    rewrite E. reflexivity.
Qed.
Lemma ones_front n i : (0 <= i)%Z -> (i <= n)%Z -> exists s, bitstring_with_ones n i = Ok s /\ ones_in_front (Z.to_nat n) (Z.to_nat i) s.
Proof.
  intros A B. unfold bitstring_with_ones. replace (i <=? n)%Z with true by (symmetry; apply Z.leb_le; lia). eexists. split; [reflexivity|].
  split; [rewrite app_length, !repeat_length; lia|]. intros k Hk. destruct (k <? Z.to_nat i) eqn:E.
  - apply Nat.ltb_lt in E. rewrite nth_error_app1 by (rewrite repeat_length; exact E). apply nth_error_repeat, E.
  - apply Nat.ltb_ge in E. rewrite nth_error_app2 by (rewrite repeat_length; exact E). apply nth_error_repeat. rewrite repeat_length. lia.
Qed.
Lemma curve_values_spec f n : forall xs, (forall i, In i xs -> (0 <= i <= n)%Z) ->
  exists pts, curve_values (fun s => Ok (f s)) n xs = Ok pts /\ map fst pts = xs /\
    forall i v, In (i, v) pts -> exists s, ones_in_front (Z.to_nat n) (Z.to_nat i) s /\ v = f s.
Proof.
  induction xs as [|i xs IH]; intros H; [exists []; split; [reflexivity|]; split; [reflexivity|]; intros i v []|].
  destruct (ones_front n i) as (s & Es & Hs); [apply H; left; reflexivity|apply H; left; reflexivity|].
  destruct IH as (pts & Ep & Ef & Hp); [intros j Hj; apply H; right; exact Hj|]. exists ((i, f s) :: pts). cbn [curve_values bind map fst]. rewrite Es. cbn [bind]. rewrite Ep. cbn [bind].
  split; [reflexivity|]. split; [rewrite Ef; reflexivity|]. intros j v [[= <- <-] | Hj]; [exists s; auto|apply Hp, Hj].
Qed.
Theorem curve_spec f (a b g : Q) lo hi gr : (0 <= lo)%Z -> (0 <= hi)%Z -> (1 <= gr)%Z ->
  (inject_Z lo <= a < inject_Z (lo + 1))%Q -> (inject_Z hi <= b < inject_Z (hi + 1))%Q -> (inject_Z gr <= g < inject_Z (gr + 1))%Q ->
  exists pts, sum_curve (fun s => Ok (f s)) (a, b) g = Ok pts /\
    (forall i, In i (map fst pts) <-> exists k : nat, i = (lo + Z.of_nat k * gr)%Z /\ (i <= hi)%Z) /\
    (forall k, k < length pts -> nth_error (map fst pts) k = Some (lo + Z.of_nat k * gr)%Z) /\
    forall i v, In (i, v) pts -> exists s, ones_in_front (Z.to_nat hi) (Z.to_nat i) s /\ v = f s.
Proof.
  intros A B C (Ha & Ha') (Hb & Hb') (Hg & Hg'). unfold sum_curve. cbn [fst snd].
  rewrite (Qtrunc_floor a lo), (Qtrunc_floor b hi), (Qtrunc_floor g gr) by (assumption || lia).
  destruct (arange_spec lo (hi + 1) gr C) as (l & El & Hl & Hn). rewrite El. cbn [bind].
  destruct (curve_values_spec f hi l) as (pts & Ep & Ef & Hp). { intros i Hi. apply Hl in Hi. destruct Hi as (k & -> & Hk). nia. }
  exists pts. split; [exact Ep|]. rewrite Ef. split; [|split; [|exact Hp]].
  - intros i. rewrite Hl. split; intros (k & E & L); exists k; (split; [exact E|lia]).
  - intros k Hk. apply Hn. rewrite <- Ef, map_length. exact Hk.
Qed.
Lemma curve_granularity ev lim g : (-1 < g)%Q -> (g < 1)%Q -> sum_curve ev lim g = Err ZeroDivisionError.
Proof.
  intros A B. unfold sum_curve. assert (E : Qtrunc g = 0%Z); [|rewrite E; reflexivity].
  unfold Qtrunc, Qlt in *. destruct g as [n d]. cbn [Qnum Qden] in *. apply Z.quot_small_iff; lia.
Qed.

(** ** histograms *)
Lemma heatmap_unchanged {P} (histogram : list P -> list Z) modulo : forall h st, fst (heatmap_run histogram modulo h st) = fst st.
Proof.
  induction h as [|[gen pop] h IH]; intros st; [reflexivity|]. cbn [heatmap_run]. rewrite IH. unfold heatmap_call.
  destruct (modulo =? 0)%Z; [reflexivity|]. destruct (gen mod modulo =? 0)%Z; reflexivity.
Qed.
Lemma heatmap_last {P} (histogram : list P -> list Z) modulo h1 gen pop h2 st : modulo <> 0%Z -> (gen mod modulo = 0)%Z ->
  (forall c, In c h2 -> (fst c mod modulo <> 0)%Z) -> snd (heatmap_run histogram modulo (h1 ++ (gen, pop) :: h2) st) = pop.
Proof.
  intros M G. revert st. induction h1 as [|[g p] h1 IH]; intros st N; [|cbn [app heatmap_run]; apply IH, N].
  cbn [app heatmap_run]. unfold heatmap_call at 1. destruct (modulo =? 0)%Z eqn:Z0; [apply Z.eqb_eq in Z0; contradiction|]. rewrite G, Z.eqb_refl. cbn [snd].
  generalize (fst st). intros m. clear IH || idtac. revert N. induction h2 as [|[g p] h2 IH2]; intros N; [reflexivity|]. cbn [heatmap_run]. unfold heatmap_call at 1. rewrite Z0.
  destruct (g mod modulo =? 0)%Z eqn:E; [exfalso; apply (N (g, p) (or_introl eq_refl)); apply Z.eqb_eq, E|]. cbn [snd]. apply IH2. intros c Hc. apply N. right. exact Hc.
Qed.

Lemma list_ext {A} (l m : list A) : length l = length m -> (forall j a, nth_error m j = Some a -> nth_error l j = Some a) -> l = m.
Proof.
  revert m. induction l as [|x l IH]; intros [|y m] L H; try discriminate; [reflexivity|]. f_equal.
  - specialize (H 0 y eq_refl). cbn in H. congruence.
  - apply IH; [cbn in L; lia|]. intros j a. apply (H (S j) a).
Qed.
Lemma run_alone {P} xlim ylim modulo (ms : list (P -> result num)) ax h : ms <> [] -> modulo <> 0%Z -> ax_lines ax = [] ->
  (forall c, In c (measured_calls modulo h) -> nothing_raises ms c) -> measured_calls modulo h <> [] ->
  exists st0 st, metrics_init (Some ms) ax = Ok st0 /\
    metrics_run xlim ylim modulo ms h st0 = (map (fun c => Ok (snd c)) h, st) /\
    ax_lines (ms_ax st) = map (fun y => (ms_x st, y)) (ms_y st) /\
    is_series (fun c => snd (fst c)) (measured_calls modulo h) (ms_x st) /\
    Forall2 (fun m y => is_series (fun c => m (snd c)) (measured_calls modulo h) y) ms (ms_y st).
Proof.
  intros A B C D E. destruct (run_spec xlim ylim modulo ms ax h A B) as (st0 & st & E0 & E1 & S); [rewrite C; intros line []|exact D|].
  exists st0, st. split; [exact E0|]. split; [exact E1|]. destruct S as (SX & LY & SY & LL & _ & _ & HL & _). rewrite C in LL. cbn in LL. rewrite repeat_length in LL.
  split; [|split; [exact SX|]].
  - apply list_ext; [rewrite map_length; congruence|]. intros j line Hj. rewrite nth_error_map in Hj. destruct (nth_error (ms_y st) j) as [y|] eqn:Ey; [|discriminate].
    injection Hj as <-. apply HL; [exact Ey|exact E].
  - clear - LY SY. revert LY SY. generalize (ms_y st). induction ms as [|m ms IH]; intros [|y ys] L S; try discriminate; [constructor|]. constructor.
    + destruct (S 0 m eq_refl) as (y' & [= <-] & Sy). exact Sy.
    + apply IH; [cbn in L; lia|]. intros j m' Hj. apply (S (Datatypes.S j) m' Hj).
Qed.
Lemma fitness_plot xlim ylim modulo mx ax h : modulo <> 0%Z -> ax_lines ax = [] ->
  (forall c, In c (measured_calls modulo h) -> (exists v, snd (fst c) = Ok v) /\ snd (snd c) <> []) -> measured_calls modulo h <> [] ->
  exists st0 st x y, metrics_init (Some [fitness_metric mx]) ax = Ok st0 /\
    metrics_run xlim ylim modulo [fitness_metric mx] h st0 = (map (fun c => Ok (snd c)) h, st) /\
    ax_lines (ms_ax st) = [(x, y)] /\
    is_series (fun c => snd (fst c)) (measured_calls modulo h) x /\
    Forall2 (fun c a => exists v, best_fitness_of mx (snd (snd c)) v /\ same_num v a) (measured_calls modulo h) y.
Proof.
  intros A B C D. destruct (run_alone xlim ylim modulo [fitness_metric mx] ax h) as (st0 & st & E0 & E1 & L & SX & SY); try assumption; [discriminate| |].
  - intros c Hc. destruct (C c Hc) as (Hx & Hp). split; [exact Hx|]. intros m [<- | []]. unfold fitness_metric.
    destruct (best_of_gen_total mx (fst (snd c)) (snd (snd c)) Hp) as (b & Eb). rewrite Eb. cbn. eauto.
  - inversion SY as [|? y ? ys Sy Sr E2 E3]; subst. inversion Sr; subst. rewrite <- E3 in L. exists st0, st, (ms_x st), y. split; [exact E0|]. split; [exact E1|]. split; [exact L|]. split; [exact SX|].
    clear - Sy. unfold is_series in Sy. induction Sy as [|c a cs y (v & Ev & Sv) Sy IH]; constructor; [|exact IH]. exists v. split; [|exact Sv].
    unfold fitness_metric in Ev. destruct (best_of_gen mx (fst (snd c)) (snd (snd c))) as [b|] eqn:Eb; [|discriminate]. cbn in Ev. injection Ev as <-.
    destruct (best_of_gen_spec _ _ _ _ Eb) as (I & H). exists b. auto.
Qed.
Lemma metrics_unmeasured {P} xlim ylim modulo (ms : list (P -> result num)) gen xv pop st : modulo <> 0%Z -> (gen mod modulo <> 0)%Z ->
  metrics_call xlim ylim modulo ms gen xv pop st = (Ok pop, st).
Proof.
  intros A B. unfold metrics_call. destruct (modulo =? 0)%Z eqn:Z0; [apply Z.eqb_eq in Z0; contradiction|]. apply Z.eqb_neq in B. rewrite B. reflexivity.
Qed.

(** ** when there is something to rescale to *)
Lemma same_lengths_iff ys : same_lengths ys = true <-> ys <> [] /\ exists n, n <> 0 /\ forall y, In y ys -> length y = n.
Proof.
  destruct ys as [|y r]; cbn [same_lengths]; [split; [discriminate|intros (H & _); contradiction]|].
  rewrite andb_true_iff, negb_true_iff, Nat.eqb_neq, forallb_forall. split.
  - intros (N & H). split; [discriminate|]. exists (length y). split; [exact N|]. intros z [<- | Hz]; [reflexivity|]. apply Nat.eqb_eq, H, Hz.
  - intros (_ & n & N & H). pose proof (H y (or_introl eq_refl)) as E. split; [congruence|]. intros z Hz. apply Nat.eqb_eq. rewrite E. apply H. right. exact Hz.
Qed.
Lemma rescale_ok_iff xlim ylim x ys ax :
  ((exists ax', rescale xlim ylim x ys ax = Ok ax') <->
   x <> [] /\ ys <> [] /\ (exists n, n <> 0 /\ forall y, In y ys -> length y = n) /\
   (forall line, In line (ax_lines ax) -> length (fst line) = length (snd line) \/ length (fst line) = 1 \/ length (snd line) = 1)) /\
  (forall e, rescale xlim ylim x ys ax = Err e -> e = ValueError).
Proof.
  assert (P : forallb (fun line : list num * list num => paired (length (fst line)) (length (snd line))) (ax_lines ax) = true <->
    (forall line, In line (ax_lines ax) -> length (fst line) = length (snd line) \/ length (fst line) = 1 \/ length (snd line) = 1)).
  { rewrite forallb_forall. unfold paired. split; intros H line Hl; specialize (H line Hl).
    - rewrite !orb_true_iff, !Nat.eqb_eq in H. tauto.
    - rewrite !orb_true_iff, !Nat.eqb_eq. tauto. }
  pose proof (same_lengths_iff ys) as L. unfold rescale. destruct x as [|a x].
  - split; [|intros e E; injection E as <-; reflexivity]. split; [intros (ax' & E); discriminate|intros (H & _); contradiction].
  - destruct (match xlim with Some lim => _ | None => _ end) as [l r]. destruct (same_lengths ys).
    + destruct (match ylim with Some lim => _ | None => _ end) as [b t].
      destruct (forallb _ (ax_lines ax)).
      * split; [|intros e E; discriminate]. split; [|intros _; eexists; reflexivity]. intros _. split; [discriminate|].
        destruct (proj1 L eq_refl) as (L1 & L2). split; [exact L1|]. split; [exact L2|]. apply P. reflexivity.
      * split; [|intros e E; injection E as <-; reflexivity]. split; [intros (ax' & E); discriminate|]. intros (_ & _ & _ & H). apply P in H. discriminate H.
    + split; [|intros e E; injection E as <-; reflexivity]. split; [intros (ax' & E); discriminate|]. intros (_ & H1 & H2 & _).
      assert (C : false = true) by (apply L; split; assumption). discriminate C.
Qed.
Lemma components_err i : forall pop e, components i pop = Err e -> e = IndexError.
Proof.
  induction pop as [|w pop IH]; intros e E; [discriminate|]. cbn [components] in E. destruct (nth_error w i); [|congruence].
  destruct (components i pop); [discriminate|]. injection E as <-. apply IH. reflexivity.
Qed.
Lemma components_firsts : forall pop x, components 0 pop = Ok x -> Forall2 (fun v a => nth_error v 0 = Some a) pop x.
Proof.
  induction pop as [|w pop IH]; intros x E; cbn [components] in E; [injection E as <-; constructor|].
  destruct (nth_error w 0) as [a|] eqn:Ea; [|discriminate]. destruct (components 0 pop) as [r|]; [|discriminate]. injection E as <-. constructor; [exact Ea|]. apply IH. reflexivity.
Qed.
Lemma pareto_short xlim ylim modulo step pop v st : modulo <> 0%Z -> (step mod modulo = 0)%Z -> In v pop -> length v < 2 ->
  exists st', pareto_call xlim ylim modulo (Ok step) pop st = (Err IndexError, st') /\
    ps_y st' = ps_y st /\ ps_offsets st' = ps_offsets st /\ ps_ax st' = ps_ax st /\
    ((exists w, In w pop /\ w = []) -> ps_x st' = ps_x st) /\
    ((forall w, In w pop -> w <> []) -> Forall2 (fun w a => nth_error w 0 = Some a) pop (ps_x st')).
Proof.
  intros M G I L. unfold pareto_call. destruct (modulo =? 0)%Z eqn:Z0; [apply Z.eqb_eq in Z0; contradiction|]. rewrite G, Z.eqb_refl.
  destruct (components 0 pop) as [x|e] eqn:E0.
  - rewrite (components_short 1 pop v I) by lia. eexists. split; [reflexivity|]. cbn [ps_x ps_y ps_offsets ps_ax]. split; [reflexivity|]. split; [reflexivity|]. split; [reflexivity|].
    split; [|intros _; apply components_firsts, E0]. intros (w & Hw & ->). rewrite (components_short 0 pop [] Hw) in E0; [discriminate|cbn; lia].
  - rewrite (components_err 0 pop e E0). eexists. split; [reflexivity|]. split; [reflexivity|]. split; [reflexivity|]. split; [reflexivity|]. split; [reflexivity|]. intros H. exfalso.
    clear - E0 H. revert e E0. induction pop as [|w pop IH]; intros e E; [discriminate|]. cbn [components] in E. destruct w as [|a w]; [apply (H []); [left; reflexivity|reflexivity]|]. cbn [nth_error] in E.
    destruct (components 0 pop) as [r|e'] eqn:E1; [discriminate|]. apply (IH (fun w Hw => H w (or_intror Hw)) e'). reflexivity.
Qed.
Lemma hist_last {P} modulo h1 gen (pop : list P) h2 shown : modulo <> 0%Z -> (gen mod modulo = 0)%Z ->
  (forall c, In c h2 -> (fst c mod modulo <> 0)%Z) ->
  fold_left (fun s c => snd (hist_call modulo (fst c) (snd c) s)) (h1 ++ (gen, pop) :: h2) shown = pop /\
  forall c s, fst (hist_call modulo (fst c) (snd c) s) = Ok (snd c : list P).
Proof.
  intros M G N. unfold hist_call. destruct (modulo =? 0)%Z eqn:Z0; [apply Z.eqb_eq in Z0; contradiction|]. split.
  - rewrite fold_left_app. cbn [fold_left fst snd]. rewrite G, Z.eqb_refl. cbn [snd]. clear - N. induction h2 as [|c h2 IH]; [reflexivity|]. cbn [fold_left].
    destruct (fst c mod modulo =? 0)%Z eqn:E; [exfalso; apply (N c (or_introl eq_refl)); apply Z.eqb_eq, E|]. cbn [snd]. apply IH. intros c' Hc. apply N. right. exact Hc.
  - intros c s. destruct (fst c mod modulo =? 0)%Z; reflexivity.
Qed.
