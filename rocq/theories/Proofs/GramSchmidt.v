(** Lemmas about random_orthonormal_matrix. *)
From Coq Require Import Reals Lra Lia Psatz.
From Verif Require Import Model.Base Model.RealFunctions Spec.RealFunctions Proofs.RealFunctions.
Open Scope R_scope.

Lemma map_nth_seq {A} (l : list A) d : map (fun i => nth i l d) (seq 0 (length l)) = l.
Proof.
  induction l as [|x l IH]; [reflexivity|]. cbn [length seq map nth]. f_equal. rewrite <- seq_shift, map_map. exact IH.
Qed.
Lemma r_dot_inner a : forall b, r_dot a b = inner a b.
Proof.
  unfold r_dot, r_map2. intros b. rewrite r_sum_R_sum. revert b. induction a as [|x a IH]; intros [|y b]; cbn [combine map inner]; try reflexivity.
  rewrite R_sum_cons, IH. reflexivity.
Qed.
Lemma inner_comm a : forall b, inner a b = inner b a.
Proof. induction a as [|x a IH]; intros [|y b]; cbn [inner]; try reflexivity. rewrite IH. ring. Qed.
Lemma inner_add a : forall b w, length a = length b -> inner (v_add a b) w = inner a w + inner b w.
Proof.
  unfold v_add, r_map2. induction a as [|x a IH]; intros [|y b] w H; cbn [length] in H; try lia; cbn [combine map inner]; [lra|].
  destruct w as [|z w]; [lra|]. cbn [fst snd]. rewrite IH by lia. ring.
Qed.
Lemma inner_sub a : forall b w, length a = length b -> inner (v_sub a b) w = inner a w - inner b w.
Proof.
  unfold v_sub, r_map2. induction a as [|x a IH]; intros [|y b] w H; cbn [length] in H; try lia; cbn [combine map inner]; [lra|].
  destruct w as [|z w]; [lra|]. cbn [fst snd]. rewrite IH by lia. ring.
Qed.
Lemma inner_scale c a : forall w, inner (v_scale c a) w = c * inner a w.
Proof. unfold v_scale. induction a as [|x a IH]; intros [|z w]; cbn [map inner]; try ring. rewrite IH. ring. Qed.
Lemma inner_zero n : forall w, inner (repeat 0 n) w = 0.
Proof. induction n as [|n IH]; intros [|z w]; cbn [repeat inner]; try reflexivity. rewrite IH. ring. Qed.
Lemma inner_div c a : forall w, inner (map (fun v => v / c) a) w = / c * inner a w.
Proof. induction a as [|x a IH]; intros [|z w]; cbn [map inner]; try ring. rewrite IH. unfold Rdiv. ring. Qed.
Lemma inner_self_nonneg a : 0 <= inner a a.
Proof. induction a as [|x a IH]; cbn [inner]; [lra|]. nra. Qed.
Lemma inner_self_zero a : inner a a = 0 -> a = repeat 0 (length a).
Proof.
  induction a as [|x a IH]; cbn [inner length repeat]; [reflexivity|]. intros H. pose proof (inner_self_nonneg a).
  assert (x = 0) by nra. f_equal; [assumption|]. apply IH. nra.
Qed.
Lemma v_add_length a b : length a = length b -> length (v_add a b) = length a.
Proof. intros H. unfold v_add, r_map2. rewrite map_length, combine_length. lia. Qed.
Lemma v_sub_length a b : length a = length b -> length (v_sub a b) = length a.
Proof. intros H. unfold v_sub, r_map2. rewrite map_length, combine_length. lia. Qed.
Lemma v_add_nth a : forall b i, length a = length b -> nth i (v_add a b) 0 = nth i a 0 + nth i b 0.
Proof.
  unfold v_add, r_map2. induction a as [|x a IH]; intros [|y b] i H; cbn [length] in H; try lia; [destruct i; cbn; lra|].
  destruct i as [|i]; cbn [combine map nth fst snd]; [reflexivity|]. apply IH. lia.
Qed.
Lemma v_sub_nth a : forall b i, length a = length b -> nth i (v_sub a b) 0 = nth i a 0 - nth i b 0.
Proof.
  unfold v_sub, r_map2. induction a as [|x a IH]; intros [|y b] i H; cbn [length] in H; try lia; [destruct i; cbn; lra|].
  destruct i as [|i]; cbn [combine map nth fst snd]; [reflexivity|]. apply IH. lia.
Qed.

Lemma fold_add_length n L : forall acc, length acc = n -> Forall (fun v => length v = n) L -> length (fold_left v_add L acc) = n.
Proof.
  induction L as [|v L IH]; intros acc Ha HL; [exact Ha|]. inversion HL; subst. cbn [fold_left]. apply IH; [apply v_add_length; congruence|assumption].
Qed.
Lemma fold_add_inner n w L : forall acc, length acc = n -> Forall (fun v => length v = n) L ->
  inner (fold_left v_add L acc) w = inner acc w + R_sum (map (fun v => inner v w) L).
Proof.
  induction L as [|v L IH]; intros acc Ha HL; cbn [fold_left map]; [unfold R_sum; cbn; lra|]. inversion HL; subst. rewrite R_sum_cons.
  rewrite IH; [|apply v_add_length; congruence|assumption]. rewrite inner_add by congruence. ring.
Qed.
Lemma fold_add_span n S L : forall acc, length acc = n -> Forall (fun v => length v = n) L -> in_span n S acc ->
  Forall (in_span n S) L -> in_span n S (fold_left v_add L acc).
Proof.
  induction L as [|v L IH]; intros acc Ha HL Hs HS; [exact Hs|]. inversion HL; subst. inversion HS; subst. cbn [fold_left].
  apply IH; [apply v_add_length; congruence|assumption| |assumption].
  apply sp_add with acc v; [assumption|assumption|apply v_add_length; congruence|]. intros i. apply v_add_nth. congruence.
Qed.
Lemma in_span_mono n S T v : (forall u, In u S -> In u T) -> in_span n S v -> in_span n T v.
Proof.
  intros H. induction 1 as [v Hv| |c v _ IH|v w u _ IH1 _ IH2 Hl Hn]; [apply sp_in, H, Hv|apply sp_zero|apply sp_scale, IH|].
  apply sp_add with v w; assumption.
Qed.
Lemma R_sum_delta c k m : (k < m)%nat -> R_sum (map (fun i => c i * (if (i =? k)%nat then 1 else 0)) (seq 0 m)) = c k.
Proof.
  assert (G : forall m s, R_sum (map (fun i => c i * (if (i =? k)%nat then 1 else 0)) (seq s m)) = if ((s <=? k) && (k <? s + m))%nat then c k else 0).
  { clear m. induction m as [|m IH]; intros s; cbn [seq map]; rewrite ?R_sum_cons, ?IH.
    - replace (k <? s + 0)%nat with (k <? s)%nat by (f_equal; lia). destruct (Nat.leb_spec s k), (Nat.ltb_spec k s); try lia; reflexivity.
    - destruct (Nat.eqb_spec s k), (Nat.leb_spec s k), (Nat.leb_spec (S s) k), (Nat.ltb_spec k (S s + m)), (Nat.ltb_spec k (s + S m)); try lia; cbn [andb]; subst; ring. }
  intros H. rewrite G. destruct (Nat.leb_spec 0 k), (Nat.ltb_spec k (0 + m)); try lia. reflexivity.
Qed.

Definition ortho (m : list (list R)) : Prop :=
  forall i k, (i < length m)%nat -> (k < length m)%nat -> inner (nth i m []) (nth k m []) = if (i =? k)%nat then 1 else 0.
Definition all_len (n : nat) (m : list (list R)) : Prop := Forall (fun v => length v = n) m.
Definition projection (prev : list (list R)) (row : list R) : list R :=
  fold_left v_add (map (fun p => v_scale (r_dot row p) p) prev) (repeat 0 (length row)).
Lemma scaled_len n prev row : all_len n prev -> all_len n (map (fun p => v_scale (r_dot row p) p) prev).
Proof.
  intros H. unfold all_len in *. rewrite Forall_forall in *. intros v Hv. apply in_map_iff in Hv. destruct Hv as (p & <- & Hp).
  unfold v_scale. rewrite map_length. apply H, Hp.
Qed.
Lemma projection_length n prev row : all_len n prev -> length row = n -> length (projection prev row) = n.
Proof. intros H1 H2. apply fold_add_length; [rewrite repeat_length; exact H2|apply scaled_len, H1]. Qed.
Lemma residual_inner n prev row k : all_len n prev -> ortho prev -> length row = n -> (k < length prev)%nat ->
  inner (residual prev row) (nth k prev []) = 0.
Proof.
  intros HL HO Hr Hk. unfold residual. fold (projection prev row). rewrite inner_sub by (rewrite (projection_length n) by assumption; exact Hr).
  unfold projection. rewrite (fold_add_inner n); [|rewrite repeat_length; exact Hr|apply scaled_len, HL]. rewrite inner_zero, map_map.
  assert (E : R_sum (map (fun p => inner (v_scale (r_dot row p) p) (nth k prev [])) prev) = inner row (nth k prev [])).
  { transitivity (R_sum (map (fun p => inner (v_scale (r_dot row p) p) (nth k prev [])) (map (fun i => nth i prev []) (seq 0 (length prev))))).
    { rewrite map_nth_seq. reflexivity. }
    rewrite map_map.
    rewrite <- (R_sum_delta (fun i => inner row (nth i prev [])) k (length prev) Hk). apply R_sum_ext. intros i Hi. apply in_seq in Hi.
    rewrite inner_scale, r_dot_inner, (HO i k) by lia. reflexivity. }
  rewrite E. ring.
Qed.
Lemma residual_length n prev row : all_len n prev -> length row = n -> length (residual prev row) = n.
Proof.
  intros H1 H2. unfold residual. fold (projection prev row). rewrite v_sub_length; [exact H2|]. rewrite (projection_length n) by assumption. exact H2.
Qed.

Lemma gram_schmidt_spec n rows : forall prev done, all_len n prev -> ortho prev -> all_len n rows ->
  Forall (in_span n done) prev -> (forall k row, nth_error rows k = Some row -> ~ in_span n (done ++ firstn k rows) row) ->
  exists m, gram_schmidt prev rows = Some m /\ all_len n m /\ ortho m /\ length m = (length prev + length rows)%nat.
Proof.
  induction rows as [|row rows IH]; intros prev done HL HO HR HS HI; [exists prev; repeat split; auto; cbn; lia|].
  inversion HR as [|? ? Hrow HR']; subst. cbn [gram_schmidt]. set (n := length row) in *. set (r := residual prev row).
  assert (Lr : length r = n) by (apply residual_length; [exact HL|reflexivity]).
  assert (SP : in_span n done (projection prev row)).
  { apply fold_add_span; [apply repeat_length|apply scaled_len, HL|apply sp_zero|]. rewrite Forall_forall in *. intros v Hv.
    apply in_map_iff in Hv. destruct Hv as (p & <- & Hp). apply (sp_scale n done (r_dot row p) p). apply HS, Hp. }
  assert (Lp : length (projection prev row) = n) by (apply projection_length; [exact HL|reflexivity]).
  assert (NZ : v_norm r <> 0).
  { intros Z. unfold v_norm in Z. rewrite r_dot_inner in Z. apply sqrt_eq_0 in Z; [|apply inner_self_nonneg]. apply inner_self_zero in Z. rewrite Lr in Z.
    apply (HI 0%nat row eq_refl). cbn [firstn]. rewrite app_nil_r.
    apply sp_add with (projection prev row) (repeat 0 n); [exact SP|apply sp_zero|reflexivity|]. intros i.
    assert (Hi : nth i r 0 = nth i (repeat 0 n) 0) by (rewrite Z; reflexivity). unfold r, residual in Hi. fold (projection prev row) in Hi.
    rewrite v_sub_nth in Hi by (symmetry; exact Lp). lra. }
  destruct (Req_EM_T (v_norm r) 0) as [Z | _]; [contradiction|]. set (e := map (fun v => v / v_norm r) r).
  assert (Nsq : v_norm r * v_norm r = inner r r) by (unfold v_norm; rewrite r_dot_inner; apply sqrt_sqrt, inner_self_nonneg).
  assert (Le : length e = n) by (unfold e; rewrite map_length; exact Lr).
  assert (E1 : inner e e = 1). { unfold e at 1. rewrite inner_div, inner_comm. unfold e. rewrite inner_div, <- Nsq. field. exact NZ. }
  assert (E0 : forall k, (k < length prev)%nat -> inner e (nth k prev []) = 0).
  { intros k Hk. unfold e. rewrite inner_div. unfold r. rewrite (residual_inner n) by (try assumption; reflexivity). ring. }
  destruct (IH (prev ++ [e]) (done ++ [row])) as (m & Hm & A & B & C).
  - apply Forall_app. split; [exact HL|]. constructor; [exact Le|constructor].
  - intros i k Hi Hk. rewrite app_length in Hi, Hk. cbn [length] in Hi, Hk.
    destruct (Nat.lt_ge_cases i (length prev)) as [Li | Li], (Nat.lt_ge_cases k (length prev)) as [Lk | Lk].
    + rewrite !app_nth1 by assumption. apply HO; assumption.
    + assert (k = length prev) by lia. subst k. rewrite (app_nth1 _ _ _ Li), nth_middle, inner_comm, (E0 i Li). destruct (Nat.eqb_spec i (length prev)); [lia|reflexivity].
    + assert (i = length prev) by lia. subst i. rewrite (app_nth1 _ _ _ Lk), nth_middle, (E0 k Lk). destruct (Nat.eqb_spec (length prev) k); [lia|reflexivity].
    + assert (i = length prev) by lia. assert (k = length prev) by lia. subst i k. rewrite nth_middle, Nat.eqb_refl. exact E1.
  - exact HR'.
  - apply Forall_app. split.
    + eapply Forall_impl; [|exact HS]. intros v. apply in_span_mono. intros u Hu. apply in_or_app. left. exact Hu.
    + constructor; [|constructor].
      assert (SR : in_span n (done ++ [row]) r).
      { apply sp_add with row (map (Rmult (-1)) (projection prev row)); [apply sp_in, in_or_app; right; left; reflexivity| |exact Lr|].
        - apply sp_scale. eapply in_span_mono; [|exact SP]. intros u Hu. apply in_or_app. left. exact Hu.
        - intros i. unfold r, residual. fold (projection prev row). rewrite v_sub_nth by (symmetry; exact Lp).
          replace 0 with (Rmult (-1) 0) at 4 by ring. rewrite map_nth. ring. }
      unfold e. rewrite (map_ext _ (Rmult (/ v_norm r))) by (intros v; unfold Rdiv; ring). apply sp_scale, SR.
  - intros k row' Hk. rewrite <- app_assoc. apply (HI (S k) row' Hk).
  - exists m. split; [exact Hm|]. split; [exact A|]. split; [exact B|]. rewrite C, app_length. cbn. lia.
Qed.
Lemma rounds_exact t : rounds_to t t = true.
Proof. unfold rounds_to. destruct (Rle_dec _ _) as [|N]; [reflexivity|]. exfalso. apply N. replace (t - t) with 0 by ring. rewrite Rabs_R0. lra. Qed.
Lemma close_exact t : close t t = true.
Proof. unfold close. destruct (Rle_dec _ _) as [|N]; [reflexivity|]. exfalso. apply N. replace (t - t) with 0 by ring. rewrite Rabs_R0. pose proof (Rabs_pos t). lra. Qed.
Lemma orthonormal_matrix n draws : (2 <= n)%nat -> length draws = n -> Forall (fun row => length row = n) draws -> independent n draws ->
  exists m, random_orthonormal_matrix draws = Ok m /\ orthonormal n m.
Proof.
  intros Hn HL HR HI. destruct (gram_schmidt_spec n draws [] []) as (m & Hm & A & B & C).
  - constructor.
  - intros i k Hi. cbn in Hi. lia.
  - exact HR.
  - constructor.
  - exact HI.
  - rewrite HL in C. cbn in C. exists m. unfold random_orthonormal_matrix. destruct draws as [|d draws]; [cbn in HL; lia|]. rewrite Hm.
    assert (E00 : r_dot (nth 0 m []) (nth 0 m []) = 1) by (rewrite r_dot_inner; apply (B 0%nat 0%nat); lia).
    unfold v_norm at 1. rewrite E00, sqrt_1, rounds_exact.
    destruct (nth_error m 1) as [row1|] eqn:E1; [|apply nth_error_None in E1; lia].
    assert (E01 : r_dot (nth 0 m []) row1 = 0). { rewrite r_dot_inner, <- (nth_error_nth _ _ [] E1). apply (B 0%nat 1%nat); lia. }
    rewrite E01, rounds_exact. replace (close_to_orthonormal m) with true.
    + split; [reflexivity|]. split; [exact C|]. split; [exact A|]. intros i k Hi Hk. apply B; lia.
    + symmetry. unfold close_to_orthonormal. apply forallb_forall. intros i Hi. apply forallb_forall. intros k Hk. apply in_seq in Hi, Hk.
      rewrite r_dot_inner, B by lia. apply close_exact.
Qed.
(** whatever is returned passed the final check *)
Lemma close_within a b : close a b = true -> Rabs (a - b) <= 1 / 100000000 + 1 / 100000 * Rabs b.
Proof. unfold close. destruct (Rle_dec _ _) as [H|]; [intros _; exact H|discriminate]. Qed.
Lemma one_dimension v : random_orthonormal_matrix [[v]] = Err IndexError \/ v = 0.
Proof.
  destruct (Req_dec v 0) as [-> | H]; [right; reflexivity|left]. unfold random_orthonormal_matrix. cbn [gram_schmidt].
  assert (Er : residual [] [v] = [v]). { unfold residual, v_sub, r_map2. cbn. f_equal. ring. }
  rewrite Er. destruct (Req_EM_T (v_norm [v]) 0) as [Z | NZ].
  - exfalso. unfold v_norm in Z. rewrite r_dot_inner in Z. cbn [inner] in Z. apply sqrt_eq_0 in Z; nra.
  - cbn [app map nth nth_error]. assert (U : v_norm [v / v_norm [v]] = 1).
    { unfold v_norm at 1. rewrite r_dot_inner. cbn [inner]. replace (v / v_norm [v] * (v / v_norm [v]) + 0) with (v * v / (v_norm [v] * v_norm [v])) by (field; exact NZ).
      assert (Nsq : v_norm [v] * v_norm [v] = v * v). { unfold v_norm. rewrite r_dot_inner. cbn [inner]. rewrite sqrt_sqrt by nra. ring. }
      rewrite Nsq. replace (v * v / (v * v)) with 1 by (field; exact H). apply sqrt_1. }
    rewrite U, rounds_exact. reflexivity.
Qed.
Lemma gram_schmidt_some n rows : forall prev m, all_len n prev -> ortho prev -> all_len n rows ->
  gram_schmidt prev rows = Some m -> all_len n m /\ ortho m /\ length m = (length prev + length rows)%nat.
Proof.
  induction rows as [|row rows IH]; intros prev m HL HO HR; cbn [gram_schmidt].
  { intros H. injection H as <-. cbn. split; [exact HL|]. split; [exact HO|lia]. }
  inversion HR as [|? ? Hrow HR']; subst. set (n := length row) in *. set (r := residual prev row).
  destruct (Req_EM_T (v_norm r) 0) as [Z | NZ]; [discriminate|]. set (e := map (fun v => v / v_norm r) r). intros H.
  assert (Lr : length r = n) by (apply residual_length; [exact HL|reflexivity]).
  assert (Nsq : v_norm r * v_norm r = inner r r) by (unfold v_norm; rewrite r_dot_inner; apply sqrt_sqrt, inner_self_nonneg).
  assert (Le : length e = n) by (unfold e; rewrite map_length; exact Lr).
  assert (E1 : inner e e = 1). { unfold e at 1. rewrite inner_div, inner_comm. unfold e. rewrite inner_div, <- Nsq. field. exact NZ. }
  assert (E0 : forall k, (k < length prev)%nat -> inner e (nth k prev []) = 0).
  { intros k Hk. unfold e. rewrite inner_div. unfold r. rewrite (residual_inner n) by (try assumption; reflexivity). ring. }
  destruct (IH (prev ++ [e]) m) as (A & B & C); [| |exact HR'|exact H|].
  - apply Forall_app. split; [exact HL|]. constructor; [exact Le|constructor].
  - intros i k Hi Hk. rewrite app_length in Hi, Hk. cbn [length] in Hi, Hk.
    destruct (Nat.lt_ge_cases i (length prev)) as [Li | Li], (Nat.lt_ge_cases k (length prev)) as [Lk | Lk].
    + rewrite !app_nth1 by assumption. apply HO; assumption.
    + assert (k = length prev) by lia. subst k. rewrite (app_nth1 _ _ _ Li), nth_middle, inner_comm, (E0 i Li). destruct (Nat.eqb_spec i (length prev)); [lia|reflexivity].
    + assert (i = length prev) by lia. subst i. rewrite (app_nth1 _ _ _ Lk), nth_middle, (E0 k Lk). destruct (Nat.eqb_spec (length prev) k); [lia|reflexivity].
    + assert (i = length prev) by lia. assert (k = length prev) by lia. subst i k. rewrite nth_middle, Nat.eqb_refl. exact E1.
  - split; [exact A|]. split; [exact B|]. rewrite C, app_length. cbn. lia.
Qed.
Lemma returned_orthonormal n draws m : length draws = n -> Forall (fun row => length row = n) draws ->
  random_orthonormal_matrix draws = Ok m -> orthonormal n m.
Proof.
  intros HL HR. unfold random_orthonormal_matrix. destruct draws as [|d draws]; [discriminate|].
  destruct (gram_schmidt [] (d :: draws)) as [m'|] eqn:E; [|discriminate].
  destruct (rounds_to 1 _); [|discriminate]. destruct (nth_error m' 1); [|discriminate]. destruct (rounds_to 0 _); [|discriminate].
  destruct (close_to_orthonormal m'); [|discriminate]. intros H. injection H as <-.
  destruct (gram_schmidt_some n (d :: draws) [] m') as (A & B & C); [constructor|intros i k Hi; cbn in Hi; lia|exact HR|exact E|].
  rewrite HL in C. cbn in C. split; [exact C|]. split; [exact A|]. intros i k Hi Hk. apply B; lia.
Qed.
Lemma span_empty n v : in_span n [] v -> forall i, nth i v 0 = 0.
Proof.
  induction 1 as [v Hv| |c v _ IH|v w u _ IH1 _ IH2 Hl Hn]; intros i.
  - destruct Hv.
  - apply nth_repeat.
  - replace 0 with (Rmult c 0) at 1 by ring. rewrite map_nth, IH. ring.
  - rewrite Hn, IH1, IH2. ring.
Qed.
Lemma span_coordinate n S j v : (forall u, In u S -> nth j u 0 = 0) -> in_span n S v -> nth j v 0 = 0.
Proof.
  intros HS. induction 1 as [v Hv| |c v _ IH|v w u _ IH1 _ IH2 Hl Hn].
  - apply HS, Hv.
  - apply nth_repeat.
  - replace 0 with (Rmult c 0) at 1 by ring. rewrite map_nth, IH. ring.
  - rewrite Hn, IH1, IH2. ring.
Qed.
