(** Exactly which arguments the real-valued functions refuse, and how. *)
From Coq Require Import Lia Reals Lra.
From Verif Require Import Model.Base Model.RealFunctions Model.NeuralNet Model.NeuralExec Spec.RealFunctions Spec.Refusals2 Spec.RealRefusals Proofs.RealFunctions Proofs.GramSchmidt.
Local Open Scope nat_scope.
Local Open Scope list_scope.

Section Pass.
Variable act : list R -> result (list R).
Variable empty : exn.
Hypothesis keeps : forall z, z <> [] -> exists y, act z = Ok y /\ length y = length z.
Hypothesis on_empty : act [] = Ok [] /\ empty = AssertionError \/ act [] = Err empty.

Lemma pass_fails net : forall x e, nn_call act net x = Err e <-> size_trouble empty (length x) net e.
Proof.
  induction net as [|w net IH]; intros x e; cbn [nn_call]; [split; [discriminate|intros H; inversion H]|].
  unfold vec_times. rewrite app_length. cbn [length]. destruct (Nat.eqb_spec (length x + 1) (length w)) as [E | E]; cbn [bind].
  - set (z := map _ (seq 0 (columns w))). assert (Lz : length z = width w) by (unfold z; rewrite map_length, seq_length; reflexivity). clearbody z.
    destruct z as [|v z].
    + assert (R : bind (act []) (fun s => if length s =? 0 then Err AssertionError else nn_call act net s) = Err empty).
      { destruct on_empty as [[-> ->] | ->]; reflexivity. }
      rewrite R. cbn in Lz. split.
      * intros [= <-]. apply size_empty; lia.
      * intros H. inversion H; subst; try congruence; lia.
    + destruct (keeps (v :: z) ltac:(discriminate)) as (y & -> & Ly). cbn [bind]. rewrite Ly. cbn [length Nat.eqb]. rewrite IH, Ly, Lz.
      cbn in Lz. split.
      * intros H. apply size_later; [lia|lia|exact H].
      * intros H. inversion H; subst; try lia. assumption.
  - split; [intros [= <-]; apply size_rows; lia|]. intros H. inversion H; subst; try lia. reflexivity.
Qed.
End Pass.

Lemma sigmoid_pass net x e : nn_call sigmoid net x = Err e <-> size_trouble AssertionError (length x) net e.
Proof. apply pass_fails; [intros z _; eexists; split; [reflexivity|apply map_length]|left; auto]. Qed.
Lemma relu_pass net x e : nn_call relu net x = Err e <-> size_trouble AssertionError (length x) net e.
Proof. apply pass_fails; [intros z _; eexists; split; [reflexivity|apply map_length]|left; auto]. Qed.
Lemma softmax_pass net x e : nn_call softmax net x = Err e <-> size_trouble ValueError (length x) net e.
Proof.
  apply pass_fails; [|right; reflexivity]. intros [|v z] H; [contradiction|]. unfold softmax. cbn [r_max bind]. eexists. split; [reflexivity|].
  rewrite !map_length. reflexivity.
Qed.

Lemma function_refusals (a b c width height alpha : R) gs ls x e :
  (ackley a b c x = Err e <-> x = [] /\ e = ZeroDivisionError) /\
  (gaussian width height x = Err e <-> (width <= 0)%R /\ e = AssertionError) /\
  (cosine_family alpha gs ls x = Err e <->
     length ls <> length gs /\ e = AssertionError \/ length ls = length gs /\ length x <> length gs /\ e = ValueError).
Proof.
  split; [|split].
  - unfold ackley. destruct x; [split; [intros [= <-]; auto|intros [_ ->]; reflexivity]|split; [discriminate|intros [? _]; discriminate]].
  - unfold gaussian. destruct (Rlt_dec 0 width) as [H | H].
    + split; [discriminate|]. intros [? _]. lra.
    + split; [intros [= <-]; split; [lra|reflexivity]|intros [_ ->]; reflexivity].
  - unfold cosine_family. destruct (Nat.eqb_spec (length ls) (length gs)) as [E | E].
    + destruct (Nat.eqb_spec (length x) (length gs)) as [E2 | E2].
      * split; [discriminate|]. intros [[? _] | (_ & ? & _)]; contradiction.
      * split; [intros [= <-]; auto|]. intros [[? _] | (_ & _ & ->)]; [contradiction|reflexivity].
    + split; [intros [= <-]; auto|]. intros [[_ ->] | (? & _)]; [reflexivity|contradiction].
Qed.

Lemma langermann_fails m c a x e : 0 < m -> langermann m c a x = Err e <->
  (~ rectangle m (length x) a) /\ e = ValueError \/ rectangle m (length x) a /\ length c < m /\ e = IndexError.
Proof.
  intros Hm. unfold langermann.
  assert (R : rectangle m (length x) a <-> ((length a =? m) && forallb (fun row => length row =? length (nth 0 a [])) a)%bool = true /\ (length x =? length (nth 0 a [])) = true).
  { rewrite Bool.andb_true_iff, !Nat.eqb_eq, forallb_forall. unfold rectangle. rewrite Forall_forall. split.
    - intros [La F]. destruct a as [|r a]; [cbn in La; lia|]. cbn [nth]. assert (Hr : length r = length x) by (apply F; left; reflexivity).
      repeat split; [exact La| |lia]. intros y Hy. apply Nat.eqb_eq. rewrite (F y Hy). lia.
    - intros [[La F] E]. split; [exact La|]. intros r Hr. specialize (F r Hr). apply Nat.eqb_eq in F. lia. }
  destruct ((length a =? m) && _)%bool; [|split; [intros [= <-]; left; split; [|reflexivity]; intros H; apply R in H; destruct H; discriminate|]].
  - destruct (length x =? length (nth 0 a [])).
    + assert (H : rectangle m (length x) a) by (apply R; auto). destruct (Nat.leb_spec m (length c)) as [L | L].
      * split; [discriminate|]. intros [[? _] | (_ & ? & _)]; [contradiction|lia].
      * split; [intros [= <-]; auto|]. intros [[? _] | (_ & _ & ->)]; [contradiction|reflexivity].
    + split; [intros [= <-]; left; split; [|reflexivity]; intros H; apply R in H; destruct H; discriminate|].
      intros [[_ ->] | (H & _)]; [reflexivity|]. apply R in H as [_ H]. discriminate.
  - intros [[_ ->] | (H & _)]; [reflexivity|]. apply R in H as [H _]. discriminate.
Qed.

Lemma binomial_fails n std e : binomial_p_from_std n std = Err e <->
  n = 0%Z /\ e = ZeroDivisionError \/ n <> 0%Z /\ (1 < 4 * std ^ 2 / IZR n)%R /\ e = ValueError.
Proof.
  unfold binomial_p_from_std. destruct (Z.eqb_spec n 0) as [E | E].
  - split; [intros [= <-]; auto|]. intros [[_ ->] | (? & _)]; [reflexivity|contradiction].
  - destruct (Rlt_dec 1 (4 * std ^ 2 / IZR n)) as [H | H].
    + split; [intros [= <-]; auto|]. intros [[? _] | (_ & _ & ->)]; [contradiction|reflexivity].
    + split; [discriminate|]. intros [[? _] | (_ & ? & _)]; contradiction.
Qed.

(** ** exactly the independent draws give a matrix *)
Local Open Scope R_scope.
Lemma span_len n S v : all_len n S -> in_span n S v -> length v = n.
Proof.
  intros HS. unfold all_len in HS. rewrite Forall_forall in HS. induction 1 as [v Hv| |c v _ IH|v w u _ _ _ _ Hl _].
  - apply HS, Hv.
  - apply repeat_length.
  - rewrite map_length. exact IH.
  - exact Hl.
Qed.
Lemma span_perp n S v w : all_len n S -> in_span n S v -> (forall u, In u S -> inner u w = 0) -> inner v w = 0.
Proof.
  intros HS H Hw. induction H as [v Hv| |c v _ IH|v1 v2 u H1 IH1 H2 IH2 Hl Hn].
  - apply Hw, Hv.
  - apply inner_zero.
  - change (map (Rmult c) v) with (v_scale c v). rewrite inner_scale, IH. ring.
  - pose proof (span_len _ _ _ HS H1) as L1. pose proof (span_len _ _ _ HS H2) as L2.
    replace u with (v_add v1 v2).
    + rewrite inner_add by congruence. rewrite IH1, IH2. ring.
    + apply nth_ext with (d := 0) (d' := 0); [rewrite v_add_length; congruence|]. intros i _. rewrite v_add_nth by congruence. symmetry. apply Hn.
Qed.
Lemma span_trans n S T v : (forall u, In u S -> in_span n T u) -> in_span n S v -> in_span n T v.
Proof.
  intros H. induction 1 as [v Hv| |c v _ IH|v1 v2 u _ IH1 _ IH2 Hl Hn]; [apply H, Hv|apply sp_zero|apply sp_scale, IH|].
  apply sp_add with v1 v2; assumption.
Qed.

Lemma gs_independent n rows : forall prev done m, all_len n prev -> ortho prev -> all_len n rows ->
  (forall u, In u done -> in_span n prev u) -> gram_schmidt prev rows = Some m ->
  forall k row, nth_error rows k = Some row -> ~ in_span n (done ++ firstn k rows) row.
Proof.
  induction rows as [|row rows IH]; intros prev done m HL HO HR HD H k row' Hk; [destruct k; discriminate|].
  inversion HR as [|? ? Hrow HR']; subst. cbn [gram_schmidt] in H. set (n := length row) in *. set (r := residual prev row) in *.
  destruct (Req_EM_T (v_norm r) 0) as [Z | NZ]; [discriminate|]. set (e := map (fun v => v / v_norm r) r) in *.
  assert (Lr : length r = n) by (apply residual_length; [exact HL|reflexivity]).
  assert (SP : in_span n prev (projection prev row)).
  { apply fold_add_span; [apply repeat_length|apply scaled_len, HL|apply sp_zero|]. rewrite Forall_forall. intros v Hv.
    apply in_map_iff in Hv. destruct Hv as (p & <- & Hp). apply (sp_scale n prev (r_dot row p) p). apply sp_in, Hp. }
  assert (Lp : length (projection prev row) = n) by (apply projection_length; [exact HL|reflexivity]).
  destruct (gram_schmidt_some n [row] prev (prev ++ [e])) as (A & B & _); [exact HL|exact HO|constructor; [reflexivity|constructor]| |].
  { cbn [gram_schmidt]. fold r. destruct (Req_EM_T (v_norm r) 0) as [Z | _]; [contradiction|]. reflexivity. }
  assert (SR : in_span n (prev ++ [e]) row).
  { apply sp_add with (map (Rmult (v_norm r)) e) (projection prev row).
    - apply sp_scale, sp_in, in_or_app. right. left. reflexivity.
    - eapply in_span_mono; [|exact SP]. intros u Hu. apply in_or_app. left. exact Hu.
    - reflexivity.
    - intros i. replace (map (Rmult (v_norm r)) e) with r.
      + unfold r, residual. fold (projection prev row). rewrite v_sub_nth by (symmetry; exact Lp). ring.
      + unfold e. rewrite map_map. rewrite <- (map_id r) at 1. apply map_ext. intros v. field. exact NZ. }
  destruct k as [|k]; cbn [nth_error firstn] in *.
  - injection Hk as <-. rewrite app_nil_r. intros HS. apply NZ. apply (span_trans n done prev row HD) in HS.
    assert (Pp : forall u, In u prev -> inner u r = 0).
    { intros u Hu. destruct (In_nth _ _ [] Hu) as (i & Hi & <-). rewrite inner_comm. apply (residual_inner n); [exact HL|exact HO|reflexivity|exact Hi]. }
    assert (E : inner r r = 0).
    { unfold r at 1, residual. fold (projection prev row). rewrite inner_sub by (symmetry; exact Lp).
      rewrite (span_perp n prev row r HL HS Pp), (span_perp n prev _ r HL SP Pp). ring. }
    unfold v_norm. rewrite r_dot_inner, E. apply sqrt_0.
  -
    replace (done ++ row :: firstn k rows) with ((done ++ [row]) ++ firstn k rows) by (rewrite <- app_assoc; reflexivity).
    apply (IH (prev ++ [e]) (done ++ [row]) m A B HR'); [|exact H|exact Hk].
    intros u Hu. apply in_app_or in Hu as [Hu | [<- | []]]; [|exact SR]. eapply in_span_mono; [|apply HD, Hu].
    intros x Hx. apply in_or_app. left. exact Hx.
Qed.

Lemma orthonormal_exact n draws : (2 <= n)%nat -> length draws = n -> Forall (fun row => length row = n) draws ->
  ((exists m, random_orthonormal_matrix draws = Ok m) <-> independent n draws) /\
  (random_orthonormal_matrix draws = Err AssertionError <-> ~ independent n draws).
Proof.
  intros Hn HL HR.
  assert (E : (exists m, random_orthonormal_matrix draws = Ok m) -> independent n draws).
  { intros (m & H). unfold random_orthonormal_matrix in H. destruct draws as [|d draws]; [discriminate|].
    destruct (gram_schmidt [] (d :: draws)) as [m'|] eqn:G; [|discriminate].
    intros k row Hk. apply (gs_independent n (d :: draws) [] [] m'); [constructor|intros i j Hi; cbn in Hi; lia|exact HR|intros u []|exact G|exact Hk]. }
  assert (I : independent n draws -> exists m, random_orthonormal_matrix draws = Ok m).
  { intros Hi. destruct (orthonormal_matrix n draws Hn HL HR Hi) as (m & Hm & _). eauto. }
  split; [split; assumption|]. split.
  - intros H Hi. destruct (I Hi) as (m & Hm). congruence.
  - intros NI. destruct (random_orthonormal_matrix draws) as [m|e] eqn:R; [exfalso; apply NI, E; eauto|].
    unfold random_orthonormal_matrix in R. destruct draws as [|d draws]; [cbn in HL; lia|].
    destruct (gram_schmidt [] (d :: draws)) as [m'|] eqn:G; [|congruence].
    exfalso. apply NI. intros k row Hk. apply (gs_independent n (d :: draws) [] [] m'); [constructor|intros i j Hi; cbn in Hi; lia|exact HR|intros u []|exact G|exact Hk].
Qed.

(** ** ZDT *)
From Verif Require Import Model.Zdt Spec.Zdt Proofs.Zdt.
Local Open Scope R_scope.
Local Open Scope list_scope.

Lemma zdt_fails : forall n f check x e, In f [zdt1; zdt2; zdt3; zdt6] ->
  f n check x = Err e <->
  x = [] /\ e = IndexError \/ check = true /\ ~ Forall (fun v => 0 <= v <= 1) x /\ e = AssertionError.
Proof.
  intros n f check x e If. rewrite <- (all_between_ok 0 1 x). destruct x as [|x0 t].
  - cbn [all_between forallb]. assert (E : f n check [] = Err IndexError).
    { cbn in If. decompose [or] If; subst; try contradiction; unfold zdt1, zdt2, zdt3, zdt6; cbn [all_between forallb negb];
        rewrite Bool.andb_false_r; reflexivity. }
    rewrite E. split; [intros [= <-]; left; split; reflexivity|]. intros [[_ ->]|[_ [N _]]]; [reflexivity|destruct (N eq_refl)].
  - assert (E : f n check (x0 :: t) = Err e <-> check && negb (all_between 0 1 (x0 :: t)) = true /\ e = AssertionError).
    { cbn in If. decompose [or] If; subst; try contradiction; unfold zdt1, zdt2, zdt3, zdt6;
        (destruct (check && negb (all_between 0 1 (x0 :: t))); split;
         [intros [= <-]; split; reflexivity|intros [_ ->]; reflexivity|discriminate|intros [N _]; discriminate]). }
    rewrite E, Bool.andb_true_iff, Bool.negb_true_iff. split.
    + intros [[A B] C]. right. split; [exact A|]. split; [congruence|exact C].
    + intros [[N _]|(A & B & C)]; [discriminate|]. split; [split; [exact A|]|exact C]. apply Bool.not_true_is_false. exact B.
Qed.

Lemma zdt4_fails : forall n check x e, zdt4 n check x = Err e <->
  x = [] /\ e = IndexError \/
  exists x0 t, x = x0 :: t /\ check = true /\ ~ (0 <= x0 <= 1 /\ Forall (fun v => -5 <= v <= 5) t) /\ e = AssertionError.
Proof.
  intros n check x e. destruct x as [|x0 t].
  - cbn. split; [intros [= <-]; left; split; reflexivity|]. intros [[_ ->]|(x0 & t & N & _)]; [reflexivity|discriminate].
  - assert (E : all_between 0 1 [x0] && all_between (-5) 5 t = true <-> 0 <= x0 <= 1 /\ Forall (fun v => -5 <= v <= 5) t).
    { rewrite Bool.andb_true_iff, !all_between_ok. split; intros [A B]; split; auto. inversion A; auto. }
    unfold zdt4. split.
    + destruct check; cbn [andb]; [|discriminate]. destruct (all_between 0 1 [x0] && all_between (-5) 5 t); cbn [negb]; [discriminate|].
      intros [= <-]. right. exists x0, t. split; [reflexivity|]. split; [reflexivity|]. split; [|reflexivity]. rewrite <- E. discriminate.
    + intros [[N _]|(y0 & u & Eq & -> & N & ->)]; [discriminate|]. injection Eq as <- <-. cbn [andb]. rewrite <- E in N.
      destruct (all_between 0 1 [x0] && all_between (-5) 5 t); [destruct (N eq_refl)|reflexivity].
Qed.

Lemma zdt5_fails : forall n check x e, zdt5 n check x = Err e <->
  check = true /\ (length x <> zdt5_length n \/ exists b, In b x /\ b <> 0%Z /\ b <> 1%Z) /\ e = AssertionError.
Proof.
  intros n check x e. unfold zdt5. destruct check; cbn [andb]; [|split; [discriminate|intros [N _]; discriminate]].
  destruct (Nat.eqb_spec (length x) (zdt5_length n)) as [L|L]; cbn [negb].
  - destruct (forallb (fun b => (b =? 0)%Z || (b =? 1)%Z) x) eqn:F; cbn [negb].
    + split; [discriminate|]. intros (_ & [N|(b & I & N0 & N1)] & _); [contradiction|]. rewrite forallb_forall in F. specialize (F b I).
      apply Bool.orb_true_iff in F as [F|F]; apply Z.eqb_eq in F; contradiction.
    + split; [|intros (_ & _ & ->); reflexivity]. intros [= <-]. split; [reflexivity|]. split; [|reflexivity]. right.
      clear L. induction x as [|b x IH]; [discriminate|]. cbn [forallb] in F. apply Bool.andb_false_iff in F as [F|F].
      * apply Bool.orb_false_iff in F as [F0 F1]. apply Z.eqb_neq in F0, F1. exists b. split; [left; reflexivity|]. split; assumption.
      * destruct (IH F) as (c & I & N). exists c. split; [right; exact I|exact N].
  - split; [intros [= <-]; auto|]. intros (_ & _ & ->). reflexivity.
Qed.
