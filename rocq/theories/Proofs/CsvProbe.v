From Coq Require Import Ascii String Lia Lqa Sorted.
From Verif Require Import Model.Base Model.PyList Model.Scalar Model.Problems Model.Probe Model.CsvProbe.
From Verif Require Import Spec.Order Spec.Metrics Spec.Problems Spec.CsvProbe Proofs.Order Proofs.ScalarSel Proofs.Problems.
Local Open Scope list_scope.

(** ** texts *)
Lemma join_cons sep x r : join sep (x :: r) = x ++ concat (map (fun y => sep ++ y) r).
Proof.
  revert x. induction r as [|y r IH]; intros x; [cbn; rewrite app_nil_r; reflexivity|].
  cbn [join map concat]. cbn [join] in IH. rewrite IH. rewrite !app_assoc. reflexivity.
Qed.
Lemma join_prefix sep pre x r : concat (map (fun y => y ++ sep) pre) ++ join sep (x :: r) = join sep (pre ++ x :: r).
Proof.
  induction pre as [|y pre IH]; [reflexivity|]. cbn [map concat app]. rewrite <- !app_assoc, IH.
  destruct (pre ++ x :: r) as [|z l] eqn:E; [destruct pre; discriminate|]. reflexivity.
Qed.
Lemma join_app sep x a b : join sep ((x :: a) ++ b) = join sep (x :: a) ++ concat (map (fun y => sep ++ y) b).
Proof. cbn [app]. rewrite !join_cons, map_app, concat_app, app_assoc. reflexivity. Qed.

Lemma sep_by_cons c x r : sep_by c (x :: r) = x ++ concat (map (cons c) r).
Proof.
  revert x. induction r as [|y r IH]; intros x; [cbn; rewrite app_nil_r; reflexivity|].
  change (sep_by c (x :: y :: r)) with (x ++ c :: sep_by c (y :: r)). rewrite IH. reflexivity.
Qed.
Lemma join_sep_by x r : join comma_space (x :: r) = sep_by comma (x :: map (cons space) r).
Proof. rewrite join_cons, sep_by_cons, map_map. reflexivity. Qed.

Lemma space_not_comma : space <> comma. Proof. discriminate. Qed.

Lemma fields_join x r : Forall clean (x :: r) -> fields_are (join comma_space (x :: r)) (x :: r).
Proof.
  intros F. exists (x :: map (cons space) r). split; [discriminate|]. split; [apply join_sep_by|].
  apply Forall_cons_iff in F as [[H1 [H2 H3]] F]. split.
  - constructor; [exact H1|]. clear -F. induction F as [|y r [G1 [G2 G3]] F IH]; cbn; constructor; [|exact IH].
    intros [E|E]; [discriminate|]. exact (G1 E).
  - cbn [map]. rewrite H3. f_equal. clear -F. induction F as [|y r [G1 [G2 G3]] F IH]; [reflexivity|].
    cbn [map]. cbn [drop_spaces]. change (Ascii.eqb space space) with true. cbn iota. rewrite G3, <- IH. reflexivity.
Qed.

Lemma join_no_newline fs : Forall clean fs -> ~ In newline (join comma_space fs).
Proof.
  intros F. destruct fs as [|x r]; [intros []|]. rewrite join_cons. intros H. apply in_app_iff in H.
  apply Forall_cons_iff in F as [[_ [H2 _]] F]. destruct H as [H|H]; [exact (H2 H)|].
  apply in_concat in H as (t & Ht & H). apply in_map_iff in Ht as (y & <- & Hy).
  rewrite Forall_forall in F. destruct (F y Hy) as (_ & G & _). apply in_app_iff in H as [H|H]; [|exact (G H)].
  destruct H as [H|[H|[]]]; discriminate.
Qed.

Lemma split_from_spec c s : forall cur, ~ In c cur ->
  Forall (fun l => ~ In c l) (split_from c cur s) /\ sep_by c (split_from c cur s) = cur ++ s /\ split_from c cur s <> [].
Proof.
  induction s as [|x s IH]; intros cur Hc; cbn [split_from].
  - split; [repeat constructor; exact Hc|]. split; [rewrite app_nil_r; reflexivity|discriminate].
  - destruct (Ascii.eqb x c) eqn:E.
    + apply Ascii.eqb_eq in E. subst x. destruct (IH []) as (I1 & I2 & I3); [intros []|].
      split; [constructor; assumption|]. split; [|discriminate].
      destruct (split_from c [] s) as [|y l] eqn:Es; [contradiction|]. cbn [sep_by]. cbn [sep_by] in I2. rewrite I2. reflexivity.
    + apply Ascii.eqb_neq in E. destruct (IH (cur ++ [x])) as (I1 & I2 & I3).
      { rewrite in_app_iff. intros [H|[H|[]]]; [exact (Hc H)|]. congruence. }
      split; [exact I1|]. split; [|exact I3]. rewrite I2, <- app_assoc. reflexivity.
Qed.
Lemma join_newline l : l <> [] -> join [newline] l ++ [newline] = concat (map (fun x => x ++ [newline]) l).
Proof.
  induction l as [|x l IH]; intros H; [contradiction|]. destruct l as [|y l]; [cbn; rewrite app_nil_r; reflexivity|].
  cbn [join map concat]. cbn [join map concat] in IH. rewrite <- !app_assoc. f_equal. cbn [app]. f_equal.
  rewrite <- app_assoc in IH. apply IH. discriminate.
Qed.

(** ** statistics *)
Lemma isnan_val f : isnan f = true <-> num_val f = None.
Proof. destruct f; cbn; split; congruence. Qed.

Lemma to_float_val f : num_val (to_float f) = num_val f.
Proof. destruct f as [z|b e|]; reflexivity. Qed.
Lemma as_array_val l : map num_val (as_array l) = map num_val l.
Proof.
  unfold as_array. destruct (forallb is_int l); [reflexivity|]. rewrite map_map. apply map_ext, to_float_val.
Qed.

Section Extreme.
(** one of two numbers: [keep v w] says that v need not be replaced by w *)
Variable pick : num -> num -> num.
Variable bad : ext -> ext -> Prop.      (* bad w v: w is beyond v *)
Hypothesis bad_trans : forall u v w, ~ bad v u -> ~ bad w v -> ~ bad w u.
Hypothesis bad_refl : forall v, ~ bad v v.
Hypothesis pick_nan_l : forall a b, num_val a = None -> num_val (pick a b) = None.
Hypothesis pick_nan_r : forall a b, num_val b = None -> num_val (pick a b) = None.
Hypothesis pick_num : forall a b v w, num_val a = Some v -> num_val b = Some w ->
  exists u, num_val (pick a b) = Some u /\ (u = v \/ u = w) /\ ~ bad v u /\ ~ bad w u.

Lemma fold_nan r : forall x, num_val x = None -> num_val (fold_left pick r x) = None.
Proof. induction r as [|y r IH]; intros x H; cbn [fold_left]; [exact H|]. apply IH, pick_nan_l, H. Qed.

Lemma fold_has_nan r : forall x, In None (map num_val r) -> num_val (fold_left pick r x) = None.
Proof.
  induction r as [|y r IH]; intros x H; [destruct H|]. cbn [fold_left map] in *. destruct H as [H|H]; [|apply IH, H].
  apply fold_nan, pick_nan_r, H.
Qed.

Lemma fold_pick r : forall x v, num_val x = Some v -> ~ In None (map num_val r) ->
  exists u, num_val (fold_left pick r x) = Some u /\ In (Some u) (Some v :: map num_val r) /\
    forall w, In (Some w) (Some v :: map num_val r) -> ~ bad w u.
Proof.
  induction r as [|y r IH]; intros x v Hx Hr; cbn [fold_left map] in *.
  - exists v. split; [exact Hx|]. split; [left; reflexivity|]. intros w [[= <-]|[]]. apply bad_refl.
  - destruct (num_val y) as [w|] eqn:Hy; [|exfalso; apply Hr; left; reflexivity].
    destruct (pick_num x y v w Hx Hy) as (u & E & Hu & N1 & N2).
    destruct (IH (pick x y) u E) as (t & E' & It & Nt); [intros Q; apply Hr; right; exact Q|].
    exists t. split; [exact E'|]. split.
    + destruct It as [[= <-]|It]; [|right; right; exact It]. destruct Hu as [->| ->]; [left|right; left]; reflexivity.
    + intros z [[= <-]|[[= <-]|Hz]].
      * refine (bad_trans t u v _ N1). apply Nt. left. reflexivity.
      * refine (bad_trans t u w _ N2). apply Nt. left. reflexivity.
      * apply Nt. right. exact Hz.
Qed.

Lemma extreme_spec l m : l <> [] -> match as_array l with [] => m = NNan | x :: r => m = fold_left pick r x end ->
  if existsb isnan l then num_val m = None
  else exists x v, In x l /\ num_val x = Some v /\ num_val m = Some v /\
       forall y w, In y l -> num_val y = Some w -> ~ bad w v.
Proof.
  intros Hne Hm. pose proof (as_array_val l) as A. destruct (as_array l) as [|x r].
  { destruct l; [contradiction|discriminate]. }
  subst m. destruct (existsb isnan l) eqn:En.
  - apply existsb_exists in En as (y & Hy & Ny). apply isnan_val in Ny.
    assert (H : In None (map num_val (x :: r))) by (rewrite A, <- Ny; apply in_map, Hy).
    destruct H as [H|H]; [apply fold_nan, H|apply fold_has_nan, H].
  - assert (Hn : ~ In None (map num_val (x :: r))).
    { rewrite A. intros H. apply in_map_iff in H as (y & E & Hy). apply isnan_val in E.
      assert (X : existsb isnan l = true) by (apply existsb_exists; eauto). congruence. }
    cbn [map] in Hn. destruct (num_val x) as [v|] eqn:Ev; [|exfalso; apply Hn; left; reflexivity].
    destruct (fold_pick r x v Ev) as (u & E & Iu & Nu); [intros H; apply Hn; right; exact H|].
    cbn [map] in A. rewrite Ev in A. rewrite A in Iu, Nu. apply in_map_iff in Iu as (y & Ey & Hy).
    exists y, u. split; [exact Hy|]. split; [exact Ey|]. split; [exact E|]. intros z w Hz Ez. apply Nu. rewrite <- Ez. apply in_map, Hz.
Qed.
End Extreme.

Lemma ext_lt_irr a : ~ ext_lt a a.
Proof. destruct a; cbn; try tauto. apply Qlt_irrefl. Qed.
Lemma ext_not_lt_trans a b c : ~ ext_lt b a -> ~ ext_lt c b -> ~ ext_lt c a.
Proof. destruct a, b, c; cbn; try tauto. intros H1 H2. apply Qle_not_lt. apply Qnot_lt_le in H1, H2. lra. Qed.
Lemma ext_lt_asym a b : ext_lt a b -> ~ ext_lt b a.
Proof. destruct a, b; cbn; try tauto. intros H. apply Qle_not_lt, Qlt_le_weak, H. Qed.
Lemma ext_ltb_lt a b : ext_ltb a b = true <-> ext_lt a b.
Proof. destruct a, b; cbn; try (split; [discriminate|tauto]); try (split; auto). apply Qltb_lt. apply Qltb_lt. Qed.

Lemma num_min_spec l : l <> [] -> lowest l (np_min l).
Proof.
  intros H. apply (extreme_spec np_min2 ext_lt).
  - exact ext_not_lt_trans.
  - exact ext_lt_irr.
  - intros a b E. unfold np_min2. rewrite (proj2 (isnan_val a) E). exact E.
  - intros a b E. unfold np_min2. destruct (isnan a) eqn:Ea; [apply isnan_val, Ea|]. rewrite (proj2 (isnan_val b) E). exact E.
  - intros a b v w Ha Hb. unfold np_min2. destruct (isnan a) eqn:Ea; [apply isnan_val in Ea; congruence|].
    destruct (isnan b) eqn:Eb; [apply isnan_val in Eb; congruence|]. unfold num_ltb. rewrite Ha, Hb.
    destruct (ext_ltb w v) eqn:E.
    + exists w. split; [exact Hb|]. split; [auto|]. split; [apply ext_lt_asym, ext_ltb_lt, E|apply ext_lt_irr].
    + exists v. split; [exact Ha|]. split; [auto|]. split; [apply ext_lt_irr|]. rewrite <- ext_ltb_lt. congruence.
  - exact H.
  - unfold np_min. destruct (as_array l); reflexivity.
Qed.
Lemma num_max_spec l : l <> [] -> highest l (np_max l).
Proof.
  intros H. apply (extreme_spec np_max2 (fun w v => ext_lt v w)).
  - intros u v w H1 H2. exact (ext_not_lt_trans w v u H2 H1).
  - exact ext_lt_irr.
  - intros a b E. unfold np_max2. rewrite (proj2 (isnan_val a) E). exact E.
  - intros a b E. unfold np_max2. destruct (isnan a) eqn:Ea; [apply isnan_val, Ea|]. rewrite (proj2 (isnan_val b) E). exact E.
  - intros a b v w Ha Hb. unfold np_max2. destruct (isnan a) eqn:Ea; [apply isnan_val in Ea; congruence|].
    destruct (isnan b) eqn:Eb; [apply isnan_val in Eb; congruence|]. unfold num_ltb. rewrite Ha, Hb.
    destruct (ext_ltb v w) eqn:E.
    + exists w. split; [exact Hb|]. split; [auto|]. split; [apply ext_lt_asym, ext_ltb_lt, E|apply ext_lt_irr].
    + exists v. split; [exact Ha|]. split; [auto|]. split; [apply ext_lt_irr|]. rewrite <- ext_ltb_lt. congruence.
  - exact H.
  - unfold np_max. destruct (as_array l); reflexivity.
Qed.

Lemma var_finite l qs m0 : Forall2 (fun x q => num_val x = Some (Fin q)) l qs ->
  forall m, num_val m = Some (Fin m0) ->
  Forall2 (fun x q => num_val x = Some (Fin q)) (map (sq_dev m) l) (map (fun q => ((q - m0) * (q - m0))%Q) qs).
Proof.
  intros F m Hm. induction F as [|x q l qs E F IH]; cbn [map]; constructor; [|exact IH]. unfold sq_dev. rewrite E, Hm. reflexivity.
Qed.
Lemma Qsum_map_eq qs (f g : Q -> Q) : (forall q, f q == g q)%Q -> (Qsum (map f qs) == Qsum (map g qs))%Q.
Proof. intros H. induction qs as [|q qs IH]; cbn; [reflexivity|]. rewrite (H q), IH. reflexivity. Qed.

Lemma np_var_spec l : variance_of l (np_var l).
Proof.
  pose proof (np_mean_spec l) as (M1 & M2 & M3 & M4). unfold np_var.
  pose proof (np_mean_spec (map (sq_dev (np_mean l)) l)) as (V1 & V2 & V3 & V4). split.
  - intros (x & Hx & Nx). apply V1. left.
    assert (Hs : forall d, num_val (sq_dev (np_mean l) x) = d -> has d (map (sq_dev (np_mean l)) l)).
    { intros d E. exists (sq_dev (np_mean l) x). split; [apply in_map, Hx|exact E]. }
    apply Hs. destruct (num_val (np_mean l)) as [u|] eqn:Em; [|unfold sq_dev; rewrite Em; destruct (num_val x) as [[| |]|]; reflexivity].
    assert (NN : ~ has None l) by (intros H; specialize (M1 (or_introl H)); congruence).
    unfold sq_dev. destruct (num_val x) as [[|q|]|] eqn:Ex; [| | |].
    + assert (HM : has (Some MInf) l) by (exists x; auto).
      assert (NP : ~ has (Some PInf) l) by (intros H; specialize (M1 (or_intror (conj H HM))); congruence).
      specialize (M3 NN HM NP). injection M3 as ->. rewrite Em. reflexivity.
    + exfalso. exact (Nx q eq_refl).
    + assert (HP : has (Some PInf) l) by (exists x; auto).
      assert (NM : ~ has (Some MInf) l) by (intros H; specialize (M1 (or_intror (conj HP H))); congruence).
      specialize (M2 NN HP NM). injection M2 as ->. rewrite Em. reflexivity.
    + exfalso. apply NN. exists x. auto.
  - intros qs m Hne F Hm. destruct (M4 qs Hne F) as (m0 & E0 & H0).
    destruct (V4 (map (fun q => ((q - m0) * (q - m0))%Q) qs)) as (s & Es & Hs).
    { destruct l; [contradiction|discriminate]. }
    { apply var_finite; assumption. }
    exists s. split; [exact Es|]. rewrite map_length in Hs. rewrite Hs. apply Qsum_map_eq. intros q.
    assert (Em : (m == m0)%Q).
    { rewrite <- Hm in H0. apply Qmult_inj_r in H0; [symmetry; exact H0|]. destruct l as [|x l]; [contradiction|]. apply Zpos_len. }
    rewrite Em. reflexivity.
Qed.

(** ** runs *)
Section Run.
Variables (conf : stats_conf) (show_int : Z -> text) (show show_sqrt : num -> text) (mx : bool).
Let call := stats_call conf show_int show show_sqrt mx.
Let run := stats_run conf show_int show show_sqrt mx.

(** the same updates as the best-so-far probe *)
Fixpoint trace (old : option sind) (h : list bsf_input) : list sind :=
  match h with
  | [] => []
  | i :: r => match pymax (ind_gt mx (bi_coin i)) (bi_pop i) with
              | None => []
              | Some x => let b := bsf_update mx (bi_coin i) old x in b :: trace (Some b) r
              end
  end.

Lemma trace_probe h : forall st st' outs, bsf_run mx h st = Ok (outs, st') ->
  length (trace (bsf st) h) = length h /\ (h <> [] -> exists b, bsf st' = Some b /\ last (trace (bsf st) h) b = b).
Proof.
  induction h as [|i h IH]; intros st st' outs E; cbn [bsf_run trace] in *.
  - split; [reflexivity|]. intros H. contradiction.
  - unfold bsf_call in E. destruct (pymax _ _) as [x|]; cbn [bind] in E; [|discriminate].
    set (b := bsf_update mx (bi_coin i) (bsf st) x) in *.
    destruct (bsf_run mx h _) as [[outs' st'']|] eqn:Er; cbn [bind] in E; [|discriminate]. injection E as <- <-.
    pose proof (IH _ _ _ Er) as (I1 & I2). cbn [bsf] in I1, I2. split; [cbn [length]; lia|]. intros _.
    destruct h as [|i' h].
    + cbn in Er. injection Er as <- <-. exists b. split; reflexivity.
    + destruct I2 as (b' & Eb & El); [discriminate|]. exists b'. split; [exact Eb|].
      destruct (trace (Some b) (i' :: h)) as [|c l] eqn:Et; [discriminate|]. cbn [last] in *. exact El.
Qed.

Lemma trace_firstn h : forall old k, trace old (firstn k h) = firstn k (trace old h).
Proof.
  induction h as [|i h IH]; intros old k; [rewrite !firstn_nil; reflexivity|].
  destruct k; [reflexivity|]. cbn [firstn trace]. destruct (pymax _ _); [|reflexivity]. cbn [firstn]. rewrite IH. reflexivity.
Qed.

Lemma trace_best h : Forall (fun i => bi_pop i <> []) h -> best_so_far mx h (trace None h).
Proof.
  intros Hne. destruct (bsf_probe_ok mx h Hne) as (st & E & _). destruct (trace_probe h _ _ _ E) as (L & _). cbn [bsf bsf_init] in L.
  split; [exact L|]. intros k b Hk seen.
  assert (Hn : Forall (fun i => bi_pop i <> []) (firstn (S k) h)).
  { apply Forall_forall. intros i Hi. rewrite Forall_forall in Hne. apply Hne. rewrite <- (firstn_skipn (S k) h). apply in_or_app. auto. }
  destruct (bsf_probe_ok mx (firstn (S k) h) Hn) as (st' & E' & _ & _ & H').
  assert (Hkl : k < length h) by (rewrite <- L; apply nth_error_Some; congruence).
  assert (Hnn : firstn (S k) h <> []) by (destruct h; [cbn in Hkl; lia|discriminate]).
  destruct (H' Hnn) as (b' & Eb & _ & Hin & Hbest).
  destruct (trace_probe _ _ _ _ E') as (L' & T'). destruct (T' Hnn) as (b'' & Eb' & El).
  assert (b'' = b') by congruence. subst b''. cbn [bsf bsf_init] in El, L'. rewrite trace_firstn in El.
  assert (b = b').
  { rewrite <- El. clear -Hk. revert k Hk. generalize (trace None h). intros l. induction l as [|x l IH]; intros k Hk; [destruct k; discriminate|].
    destruct k; [cbn in Hk |- *; congruence|]. cbn [nth_error] in Hk. specialize (IH k Hk). rewrite firstn_cons.
    destruct (firstn (S k) l) eqn:Ef; [destruct l; [destruct k|]; discriminate|]. cbn [last]. cbn [last] in IH. exact IH. }
  subst b'. split; assumption.
Qed.

Definition row_of (ib : bsf_input * sind) (es : list text) : list text :=
  let '(i, b) := ib in
  let fits := map si_fit (bi_pop i) in
  (match sc_job conf with Some j => [j] | None => [] end) ++ map snd (sc_notes conf) ++
  [show_int (bi_gen i); show (si_fit b); show (np_mean fits); show_sqrt (np_var fits); show (np_min fits); show (np_max fits)] ++ es.

Lemma row_of_spec ib es : bi_pop (fst ib) <> [] -> Forall2 (fun e t => snd e (bi_pop (fst ib)) = Ok t) (sc_extras conf) es ->
  stats_row conf show_int show show_sqrt ib (row_of ib es).
Proof.
  destruct ib as [i b]. cbn [fst]. intros Hne F. set (fits := map si_fit (bi_pop i)).
  assert (Hf : fits <> []) by (unfold fits; destruct (bi_pop i); [contradiction|discriminate]).
  exists (np_mean fits), (np_var fits), (np_min fits), (np_max fits), es.
  split; [apply np_mean_spec|]. split; [apply np_var_spec|]. split; [apply num_min_spec, Hf|]. split; [apply num_max_spec, Hf|].
  split; [exact F|reflexivity].
Qed.

Lemma extras_ok es : forall ts pop t, Forall2 (fun e x => snd e pop = Ok x) es ts ->
  write_extras es pop t = (Ok tt, t ++ concat (map (fun x => comma_space ++ x) ts)).
Proof.
  induction es as [|[k f] es IH]; intros ts pop t F; inversion F as [|e x l1 l2 E F']; subst; cbn [write_extras].
  - cbn. rewrite app_nil_r. reflexivity.
  - cbn [snd] in E. rewrite E, (IH l2 pop _ F'). cbn [map concat]. rewrite <- !app_assoc. reflexivity.
Qed.

Lemma call_ok i st x : sc_modulo conf <> 0%Z -> pymax (ind_gt mx (bi_coin i)) (bi_pop i) = Some x ->
  let b := bsf_update mx (bi_coin i) (st_bsf st) x in
  (measured conf i = false -> call i st = (Ok (bi_pop i), mk_stats (Some b) (st_text st))) /\
  (forall es, measured conf i = true -> Forall2 (fun e t => snd e (bi_pop i) = Ok t) (sc_extras conf) es ->
   call i st = (Ok (bi_pop i), mk_stats (Some b) (st_text st ++ join comma_space (row_of (i, b) es) ++ [newline]))).
Proof.
  intros Hm Hp b. unfold call, stats_call. rewrite Hp. rewrite (proj2 (Z.eqb_neq _ _) Hm). fold b.
  split; [intros H|intros es H F]; unfold measured in H; rewrite H; [reflexivity|]. cbn [negb].
  rewrite (extras_ok _ es _ _ F). f_equal. f_equal. rewrite <- !app_assoc. f_equal. unfold row_of.
  rewrite (app_assoc (match sc_job conf with Some _ => _ | None => _ end) (map snd (sc_notes conf))). cbn [app].
  rewrite <- join_prefix, map_app, concat_app, map_map.
  rewrite <- !app_assoc. f_equal; [destruct (sc_job conf); cbn; rewrite ?app_nil_r; reflexivity|]. f_equal.
  rewrite join_cons. cbn [map concat]. rewrite <- !app_assoc. reflexivity.
Qed.

Lemma run_ok h : sc_modulo conf <> 0%Z -> Forall (fun i => bi_pop i <> []) h ->
  Forall (fun i => measured conf i = true -> Forall (fun e => exists t, snd e (bi_pop i) = Ok t) (sc_extras conf)) h ->
  forall st, exists rows st', run h st = (map (fun i => Ok (bi_pop i)) h, st') /\
    Forall2 (stats_row conf show_int show show_sqrt) (filter (fun ib => measured conf (fst ib)) (combine h (trace (st_bsf st) h))) rows /\
    st_text st' = st_text st ++ concat (map (fun r => join comma_space r ++ [newline]) rows).
Proof.
  intros Hm Hne He. unfold run. induction h as [|i h IH]; intros st; cbn [stats_run].
  - exists [], st. split; [reflexivity|]. split; [constructor|]. cbn. rewrite app_nil_r. reflexivity.
  - apply Forall_cons_iff in Hne as [Hi Hne]. apply Forall_cons_iff in He as [Ei He].
    destruct (pymax (ind_gt mx (bi_coin i)) (bi_pop i)) as [x|] eqn:Ep.
    2: { exfalso. clear -Hi Ep. destruct (bi_pop i); [contradiction|discriminate]. }
    cbn [trace]. rewrite Ep. set (b := bsf_update mx (bi_coin i) (st_bsf st) x).
    destruct (call_ok i st x Hm Ep) as (C1 & C2). fold b in C1, C2. cbn [combine filter fst].
    destruct (measured conf i) eqn:Em.
    + assert (exists es, Forall2 (fun e t => snd e (bi_pop i) = Ok t) (sc_extras conf) es) as (es & F).
      { clear -Ei. specialize (Ei eq_refl). induction Ei as [|e l (t & Ht) F (es & IH)]; [exists []; constructor|]. exists (t :: es). constructor; assumption. }
      specialize (C2 es eq_refl F). unfold call in C2. rewrite C2.
      destruct (IH Hne He (mk_stats (Some b) (st_text st ++ join comma_space (row_of (i, b) es) ++ [newline]))) as (rows & st' & R1 & R2 & R3).
      rewrite R1. exists (row_of (i, b) es :: rows), st'. split; [reflexivity|]. split.
      * constructor; [|exact R2]. apply row_of_spec; assumption.
      * rewrite R3. cbn [st_text map concat]. rewrite <- !app_assoc. reflexivity.
    + specialize (C1 eq_refl). unfold call in C1. rewrite C1.
      destruct (IH Hne He (mk_stats (Some b) (st_text st))) as (rows & st' & R1 & R2 & R3).
      rewrite R1. exists rows, st'. split; [reflexivity|]. split; [exact R2|exact R3].
Qed.

Lemma run_from_start h : sc_modulo conf <> 0%Z -> Forall (fun i => bi_pop i <> []) h ->
  Forall (fun i => measured conf i = true -> Forall (fun e => exists t, snd e (bi_pop i) = Ok t) (sc_extras conf)) h ->
  exists bests rows st, run h (stats_init conf) = (map (fun i => Ok (bi_pop i)) h, st) /\ best_so_far mx h bests /\
    Forall2 (stats_row conf show_int show show_sqrt) (filter (fun ib => measured conf (fst ib)) (combine h bests)) rows /\
    st_text st = st_text (stats_init conf) ++ concat (map (fun r => join comma_space r ++ [newline]) rows).
Proof.
  intros Hm Hne He. destruct (run_ok h Hm Hne He (stats_init conf)) as (rows & st & R1 & R2 & R3).
  exists (trace None h), rows, st. split; [exact R1|]. split; [apply trace_best, Hne|]. split; [exact R2|exact R3].
Qed.

Lemma header_text : write_header conf = join comma_space (columns conf) ++ [newline].
Proof.
  unfold write_header, columns. rewrite (app_assoc _ (map fst (sc_notes conf))). cbn [app]. rewrite <- join_prefix, map_app, concat_app, <- !app_assoc.
  f_equal; [destruct (sc_job conf); reflexivity|].
  f_equal.
  { destruct (sc_notes conf) as [|n ns]; [reflexivity|]. cbn [map]. rewrite join_cons. cbn [concat map]. rewrite <- !app_assoc. f_equal.
    clear. induction (map fst ns) as [|y l IH]; [cbn; rewrite ?app_nil_r; reflexivity|]. cbn [map concat]. rewrite <- !app_assoc. f_equal. f_equal. exact IH. }
  rewrite join_cons. cbn [map concat]. rewrite <- ?app_assoc. 
  change (lit "step, bsf, mean_fitness, std_fitness, min_fitness, max_fitness") with
    (lit "step" ++ comma_space ++ lit "bsf" ++ comma_space ++ lit "mean_fitness" ++ comma_space ++ lit "std_fitness" ++ comma_space ++ lit "min_fitness" ++ comma_space ++ lit "max_fitness").
  rewrite <- !app_assoc. repeat (apply f_equal2; [reflexivity|]). f_equal.
  destruct (sc_extras conf) as [|e es]; [reflexivity|]. cbn [map concat]. rewrite join_cons, <- app_assoc. reflexivity.
Qed.


Lemma columns_clean : clean_conf conf -> Forall clean (columns conf).
Proof.
  intros (Hj & Hn & He). unfold columns. repeat rewrite Forall_app.
  assert (L : forall x, forallb (fun c => negb (Ascii.eqb c comma) && negb (Ascii.eqb c newline)) (lit x) = true ->
              drop_spaces (lit x) = lit x -> clean (lit x)).
  { intros x H D. rewrite forallb_forall in H. split; [|split; [|exact D]]; intros Hin; specialize (H _ Hin); apply andb_prop in H as [A B].
    - rewrite Ascii.eqb_refl in A. discriminate.
    - rewrite Ascii.eqb_refl in B. discriminate. }
  split; [destruct (sc_job conf); constructor; [|constructor]; apply L; reflexivity|].
  split; [|split; [repeat (constructor; [apply L; reflexivity|]); constructor|]].
  - apply Forall_map. eapply Forall_impl; [|exact Hn]. intros n [H _]. exact H.
  - apply Forall_map, He.
Qed.
Lemma columns_nonempty : exists c r, columns conf = c :: r.
Proof.
  unfold columns. destruct (sc_job conf); [cbn; eauto|]. destruct (sc_notes conf); cbn; eauto.
Qed.

Lemma row_clean ib row : clean_conf conf -> (forall z, clean (show_int z)) -> (forall n, clean (show n)) -> (forall n, clean (show_sqrt n)) ->
  Forall (fun e => forall t, snd e (bi_pop (fst ib)) = Ok t -> clean t) (sc_extras conf) ->
  stats_row conf show_int show show_sqrt ib row -> Forall clean row /\ length row = length (columns conf).
Proof.
  intros (Hj & Hn & He) S1 S2 S3 Hx. destruct ib as [i b]. cbn [fst] in Hx.
  intros (m & v & lo & hi & es & _ & _ & _ & _ & F & ->). split.
  - repeat rewrite Forall_app. split; [destruct (sc_job conf); constructor; [exact Hj|constructor]|].
    split; [|split; [repeat (constructor; [auto|]); constructor|]].
    + apply Forall_map. eapply Forall_impl; [|exact Hn]. intros n [_ H]. exact H.
    + clear -F Hx. induction F as [|e t l ts E F IH]; constructor; apply Forall_cons_iff in Hx as [H1 H2]; auto.
  - unfold columns. rewrite !app_length, !map_length. cbn [length]. assert (length es = length (sc_extras conf)).
    { clear -F. induction F; cbn; congruence. }
    destruct (sc_job conf); cbn [length]; lia.
Qed.

Lemma nonempty_row (row : list text) : length row = length (columns conf) -> exists c r, row = c :: r.
Proof. destruct columns_nonempty as (c & r & ->). destruct row as [|x l]; [discriminate|eauto]. Qed.

Lemma table h : sc_modulo conf <> 0%Z -> sc_header conf = true -> Forall (fun i => bi_pop i <> []) h ->
  Forall (fun i => Forall (fun e => exists t, snd e (bi_pop i) = Ok t /\ clean t) (sc_extras conf)) h ->
  clean_conf conf -> (forall z, clean (show_int z)) -> (forall n, clean (show n)) -> (forall n, clean (show_sqrt n)) ->
  exists bests rows st cs body, run h (stats_init conf) = (map (fun i => Ok (bi_pop i)) h, st) /\ best_so_far mx h bests /\
    Forall2 (stats_row conf show_int show show_sqrt) (filter (fun ib => measured conf (fst ib)) (combine h bests)) rows /\
    lines_are (st_text st) (cs ++ body) /\ comment_lines conf cs /\ Forall2 fields_are body (columns conf :: rows) /\
    Forall (fun r => length r = length (columns conf)) rows.
Proof.
  intros Hm Hh Hne He Hc S1 S2 S3.
  destruct (run_from_start h Hm Hne) as (bests & rows & st & R1 & R2 & R3 & R4).
  { eapply Forall_impl; [|exact He]. intros i H _. eapply Forall_impl; [|exact H]. intros e (t & E & _). eauto. }
  set (ls := match sc_comment conf with [] => [] | _ => py_split newline (sc_comment conf) end).
  destruct (split_from_spec newline (sc_comment conf) []) as (P1 & P2 & P3); [intros []|]. fold (py_split newline (sc_comment conf)) in *.
  assert (Hrows : Forall (fun r => Forall clean r /\ length r = length (columns conf)) rows).
  { assert (G : forall ib, In ib (filter (fun ib => measured conf (fst ib)) (combine h bests)) ->
      Forall (fun e => forall t, snd e (bi_pop (fst ib)) = Ok t -> clean t) (sc_extras conf)).
    { intros [i b] Hin. apply filter_In in Hin as [Hin _]. apply in_combine_l in Hin. rewrite Forall_forall in He. specialize (He i Hin).
      eapply Forall_impl; [|exact He]. intros e (t & E & Ht) t' E'. cbn [fst] in E'. congruence. }
    clear -R3 G Hc S1 S2 S3. induction R3 as [|ib r l rs H F IH]; constructor.
    - apply (row_clean ib r); auto. apply G. left. reflexivity.
    - apply IH. intros ib' Hin. apply G. right. exact Hin. }
  exists bests, rows, st, (map (fun l => lit "# " ++ l) ls), (map (join comma_space) (columns conf :: rows)).
  split; [exact R1|]. split; [exact R2|]. split; [exact R3|].
  assert (Hls : Forall (fun l => ~ In newline l) ls).
  { unfold ls. destruct (sc_comment conf); [constructor|exact P1]. }
  split; [split|split; [|split]].
  - rewrite R4. unfold stats_init. rewrite Hh. cbn [st_text]. rewrite map_app, concat_app, <- app_assoc. f_equal.
    + unfold write_comment, ls. destruct (sc_comment conf) as [|c t]; [reflexivity|].
      rewrite join_newline; [rewrite !map_map; reflexivity|]. destruct (py_split newline (c :: t)); [contradiction|discriminate].
    + cbn [map concat]. rewrite header_text. f_equal. rewrite map_map. reflexivity.
  - apply Forall_app. split.
    + apply Forall_map. eapply Forall_impl; [|exact Hls]. intros l Hl [H|[H|H]]; [discriminate|discriminate|exact (Hl H)].
    + apply Forall_map. constructor; [apply join_no_newline, columns_clean, Hc|]. eapply Forall_impl; [|exact Hrows].
      intros r [H _]. apply join_no_newline, H.
  - exists ls. split; [reflexivity|]. unfold ls. split; [intros ->; reflexivity|].
    intros H. destruct (sc_comment conf); [contradiction|]. exact P2.
  - cbn [map]. constructor.
    + pose proof (columns_clean Hc) as C. destruct columns_nonempty as (c & r & E). rewrite E in *. apply fields_join, C.
    + clear -Hrows. induction Hrows as [|r l [H1 H2] F IH]; cbn [map]; constructor; [|exact IH].
      destruct (nonempty_row r H2) as (c & t & ->). apply fields_join, H1.
  - eapply Forall_impl; [|exact Hrows]. intros r [_ H]. exact H.
Qed.

Lemma call_empty i st : bi_pop i = [] -> call i st = (Err ValueError, st).
Proof. intros E. unfold call, stats_call. rewrite E. reflexivity. Qed.
Lemma call_modulo_zero i st : sc_modulo conf = 0%Z -> bi_pop i <> [] ->
  fst (call i st) = Err ZeroDivisionError /\ st_text (snd (call i st)) = st_text st /\
  exists b, st_bsf (snd (call i st)) = Some b /\ (In b (bi_pop i) \/ st_bsf st = Some b).
Proof.
  intros E H. unfold call, stats_call. destruct (pymax _ _) as [x|] eqn:Ep.
  - rewrite E. split; [reflexivity|]. split; [reflexivity|]. eexists. split; [reflexivity|].
    unfold pymax in Ep. destruct (bi_pop i) as [|a l]; [discriminate|]. injection Ep as <-.
    unfold bsf_update. destruct (st_bsf st) as [o|]; [|left; apply pymax_from_in].
    destruct (ind_gt _ _ _ _); [left; apply pymax_from_in|right; reflexivity].
  - destruct (bi_pop i); [contradiction|discriminate].
Qed.
Lemma no_header_rows h : sc_header conf = false -> sc_modulo conf <> 0%Z -> Forall (fun i => bi_pop i <> []) h ->
  Forall (fun i => measured conf i = true -> Forall (fun e => exists t, snd e (bi_pop i) = Ok t) (sc_extras conf)) h ->
  exists bests rows, best_so_far mx h bests /\
    Forall2 (stats_row conf show_int show show_sqrt) (filter (fun ib => measured conf (fst ib)) (combine h bests)) rows /\
    st_text (snd (stats_run conf show_int show show_sqrt mx h (stats_init conf))) =
      concat (map (fun r => join comma_space r ++ [newline]) rows).
Proof.
  intros E M P X. destruct (run_from_start h M P X) as (bests & rows & st & R & B & F & T).
  exists bests, rows. split; [exact B|]. split; [exact F|]. fold run. rewrite R. cbn [snd]. rewrite T. unfold stats_init. rewrite E. reflexivity.
Qed.
End Run.

(** ** how the columns relate *)
Lemma finite_order l qs : l <> [] -> Forall2 (fun x q => num_val x = Some (Fin q)) l qs ->
  exists lo m hi v, num_val (np_min l) = Some (Fin lo) /\ num_val (np_mean l) = Some (Fin m) /\
    num_val (np_max l) = Some (Fin hi) /\ num_val (np_var l) = Some (Fin v) /\ (lo <= m <= hi)%Q /\ (0 <= v)%Q /\
    ((v == 0)%Q <-> (forall q, In q qs -> (q == m)%Q)).
Proof.
  intros Hne F.
  assert (Hn : existsb isnan l = false).
  { apply not_true_is_false. intros H. apply existsb_exists in H as (x & Hx & Nx). apply isnan_val in Nx.
    destruct (finite_has _ _ None F) as (q & E); [exists x; auto|discriminate]. }
  pose proof (num_min_spec l Hne) as L. pose proof (num_max_spec l Hne) as H. unfold lowest in L. unfold highest in H. rewrite Hn in L, H.
  destruct L as (x & lo & Hx & Ex & El & Nl). destruct H as (y & hi & Hy & Ey & Eh & Nh).
  destruct (finite_has _ _ (Some lo) F) as (lo' & E1); [exists x; auto|]. injection E1 as ->.
  destruct (finite_has _ _ (Some hi) F) as (hi' & E2); [exists y; auto|]. injection E2 as ->.
  destruct (np_mean_spec l) as (_ & _ & _ & M). destruct (M qs Hne F) as (m & Em & Hm).
  destruct (np_var_spec l) as (_ & V). destruct (V qs m Hne F Hm) as (v & Ev & Hv).
  exists lo', m, hi', v. split; [exact El|]. split; [exact Em|]. split; [exact Eh|]. split; [exact Ev|].
  assert (Hlen : length qs = length l) by (clear -F; induction F; cbn; congruence).
  assert (Hb : forall q, In q qs -> (lo' <= q <= hi')%Q).
  { intros q Hq. assert (exists z, In z l /\ num_val z = Some (Fin q)) as (z & Hz & Ez).
    { clear -F Hq. induction F as [|a b l qs E F IH]; [destruct Hq|]. destruct Hq as [<-|Hq]; [exists a; cbn; auto|].
      destruct (IH Hq) as (z & Hz & Ez). exists z. cbn; auto. }
    split; apply Qnot_lt_le; [apply (Nl z (Fin q) Hz Ez)|apply (Nh z (Fin q) Hz Ez)]. }
  assert (Hpos : (0 < inject_Z (Z.of_nat (length l)))%Q).
  { destruct l; [contradiction|]. change 0%Q with (inject_Z 0). rewrite <- Zlt_Qlt. cbn [length]. lia. }
  assert (B : (lo' * inject_Z (Z.of_nat (length qs)) <= Qsum qs /\ Qsum qs <= hi' * inject_Z (Z.of_nat (length qs)))%Q).
  { clear -Hb. induction qs as [|q qs IH]; [cbn; split; ring_simplify; apply Qle_refl|].
    destruct IH as [I1 I2]; [intros q' Hq'; apply Hb; right; exact Hq'|]. destruct (Hb q) as [B1 B2]; [left; reflexivity|].
    assert (E : (inject_Z (Z.of_nat (length (q :: qs))) == inject_Z (Z.of_nat (length qs)) + 1)%Q).
    { cbn [length]. rewrite Nat2Z.inj_succ. unfold Z.succ. rewrite inject_Z_plus. reflexivity. }
    rewrite E. cbn [Qsum fold_right]. fold (Qsum qs). split; ring_simplify; lra. }
  rewrite Hlen, <- Hm in B. destruct B as [B1 B2]. split.
  { split; apply (Qmult_le_r _ _ _ Hpos); assumption. }
  assert (P : forall l', (0 <= Qsum (map (fun q => (q - m) * (q - m)) l') /\
     (Qsum (map (fun q => (q - m) * (q - m)) l') == 0 <-> forall q, In q l' -> q == m))%Q).
  { induction l' as [|q l' [I1 I2]]; [cbn; split; [apply Qle_refl|]; split; [intros _ q []|reflexivity]|].
    cbn [map Qsum fold_right]. fold (Qsum (map (fun q => ((q - m) * (q - m))%Q) l')).
    assert (Sq : (0 <= (q - m) * (q - m))%Q) by (generalize (q - m)%Q; intros t; nra).
    split; [lra|]. split.
    - intros E q' [<-|Hq'].
      + assert (Z : ((q - m) * (q - m) == 0)%Q) by lra. apply Qmult_integral in Z as [Z|Z]; lra.
      + apply I2; [lra|exact Hq'].
    - intros H. rewrite (proj2 I2); [|intros q' Hq'; apply H; right; exact Hq'].
      assert (E : (q == m)%Q) by (apply H; left; reflexivity). rewrite E. ring. }
  destruct (P qs) as [P1 P2]. rewrite <- Hv in P1, P2. split.
  - apply (Qmult_le_r _ _ _ Hpos). rewrite Qmult_0_l. exact P1.
  - rewrite <- P2. split; [intros ->; ring|]. intros E. apply Qmult_integral in E as [E|E]; [exact E|lra].
Qed.

Lemma nan_columns l : (exists x, In x l /\ num_val x = None) ->
  num_val (np_min l) = None /\ num_val (np_mean l) = None /\ num_val (np_max l) = None /\ num_val (np_var l) = None.
Proof.
  intros (x & Hx & Nx). assert (Hne : l <> []) by (intros ->; destruct Hx).
  assert (En : existsb isnan l = true) by (apply existsb_exists; exists x; split; [exact Hx|apply isnan_val, Nx]).
  pose proof (num_min_spec l Hne) as L. pose proof (num_max_spec l Hne) as H. unfold lowest in L. unfold highest in H. rewrite En in L, H.
  split; [exact L|]. split; [apply np_mean_spec; left; exists x; auto|]. split; [exact H|].
  apply np_var_spec. exists x. split; [exact Hx|]. congruence.
Qed.

(** ** AttributesCSVProbe *)
Lemma text_eqb_eq a b : text_eqb a b = true <-> a = b.
Proof. unfold text_eqb. destruct (list_eq_dec ascii_dec a b); split; congruence. Qed.
Lemma lookup_assign {A} (d : list (text * A)) k v n :
  lookup n (assign d k v) = if text_eqb k n then Some v else lookup n d.
Proof.
  induction d as [|[k' v'] d IH]; cbn [assign lookup]; [reflexivity|]. destruct (text_eqb k' k) eqn:E.
  - cbn [lookup]. apply text_eqb_eq in E. subst k'. destruct (text_eqb k n); reflexivity.
  - cbn [lookup]. rewrite IH. destruct (text_eqb k' n) eqn:E2; [|reflexivity]. apply text_eqb_eq in E2. subst k'.
    destruct (text_eqb k n) eqn:E3; [|reflexivity]. apply text_eqb_eq in E3. subst k.
    unfold text_eqb in E. destruct (list_eq_dec ascii_dec n n); congruence.
Qed.
Lemma lookup_in {A} (d : list (text * A)) n v : lookup n d = Some v -> In (n, v) d.
Proof.
  induction d as [|[k w] d IH]; cbn [lookup]; [discriminate|]. destruct (text_eqb k n) eqn:E.
  - apply text_eqb_eq in E. subst k. intros [= ->]. left. reflexivity.
  - intros H. right. apply IH, H.
Qed.
Lemma lookup_none {A} (d : list (text * A)) n : lookup n d = None -> ~ In n (map fst d).
Proof.
  induction d as [|[k w] d IH]; cbn [lookup map fst]; [intros _ []|]. destruct (text_eqb k n) eqn:E; [discriminate|].
  intros H [K|K]; [|exact (IH H K)]. subst k. unfold text_eqb in E. destruct (list_eq_dec ascii_dec n n); congruence.
Qed.

Definition reflects (row : arow) (al : list (text * cell)) : Prop := forall n, last_named al n (lookup n row).

Lemma reflects_assign row al k v : reflects row al -> reflects (assign row k v) (al ++ [(k, v)]).
Proof.
  intros R n. rewrite lookup_assign. destruct (text_eqb k n) eqn:E.
  - apply text_eqb_eq in E. subst k. exists al, []. split; [reflexivity|intros []].
  - assert (Hk : k <> n) by (intros K; apply text_eqb_eq in K; congruence). specialize (R n). destruct (lookup n row) as [a|].
    + destruct R as (l1 & l2 & -> & H). exists l1, (l2 ++ [(k, v)]). rewrite <- app_assoc. split; [reflexivity|].
      rewrite map_app, in_app_iff. cbn. intros [G|[G|[]]]; [exact (H G)|exact (Hk G)].
    + cbn [last_named] in *. rewrite map_app, in_app_iff. cbn. intros [G|[G|[]]]; [exact (R G)|exact (Hk G)].
Qed.
Lemma reflects_fold {B} (f : B -> text * cell) l : forall row al, reflects row al ->
  reflects (fold_left (fun r n => assign r (fst (f n)) (snd (f n))) l row) (al ++ map f l).
Proof.
  induction l as [|x l IH]; intros row al R; cbn [fold_left map]; [rewrite app_nil_r; exact R|].
  replace (al ++ f x :: map f l) with ((al ++ [f x]) ++ map f l) by (rewrite <- app_assoc; reflexivity).
  apply IH. pose proof (reflects_assign row al (fst (f x)) (snd (f x)) R) as H. destruct (f x). exact H.
Qed.

Lemma add_attributes_ok attrs ind : forall row al, reflects row al ->
  (Forall (fun a => In a (map fst (ai_attrs ind))) attrs ->
   exists row' vs, add_attributes attrs ind row = Ok row' /\ Forall2 (fun a v => In (a, v) (ai_attrs ind)) attrs vs /\
     reflects row' (al ++ combine attrs (map CText vs))) /\
  (~ Forall (fun a => In a (map fst (ai_attrs ind))) attrs -> add_attributes attrs ind row = Err ValueError).
Proof.
  induction attrs as [|a attrs IH]; intros row al R; cbn [add_attributes].
  - split; [|intros H; exfalso; apply H; constructor]. intros _. exists row, []. cbn. rewrite app_nil_r. auto.
  - destruct (lookup a (ai_attrs ind)) as [v|] eqn:E.
    + destruct (IH (assign row a (CText v)) (al ++ [(a, CText v)]) (reflects_assign _ _ _ _ R)) as [I1 I2]. split.
      * intros F. apply Forall_cons_iff in F as [_ F]. destruct (I1 F) as (row' & vs & E' & F' & R').
        exists row', (v :: vs). split; [exact E'|]. split; [constructor; [apply lookup_in, E|exact F']|]. cbn [map combine].
        rewrite <- app_assoc in R'. exact R'.
      * intros N. apply I2. intros F. apply N. constructor; [|exact F]. apply in_map_iff. exists (a, v). split; [reflexivity|apply lookup_in, E].
    + split; [|reflexivity]. intros F. apply Forall_cons_iff in F as [F _]. exfalso. exact (lookup_none _ _ E F).
Qed.

Lemma combine_firstn_app {A B} (a : list A) : forall (b : list B) x l, length b <= length a -> nth_error a (length b) = Some x ->
  combine a (b ++ [l]) = combine a b ++ [(x, l)].
Proof.
  induction a as [|y a IH]; intros [|z b] x l Hl Hn; cbn in *; try lia; try discriminate.
  - injection Hn as ->. destruct a; reflexivity.
  - f_equal. apply IH; [lia|exact Hn].
Qed.

Lemma add_extras_ok base all : forall es done row, (forall e r, In e es -> exists v, snd e r = Ok v) ->
  all = firstn (length done) all ++ es -> length done <= length all ->
  reflects row (base ++ combine (map fst all) done) ->
  (forall k name f, k < length done -> nth_error all k = Some (name, f) -> exists r v,
      nth_error done k = Some v /\ f r = Ok v /\ forall n, last_named (base ++ combine (map fst all) (firstn k done)) n (lookup n r)) ->
  exists row' evs, add_extras es row = Ok row' /\ length evs = length all /\ reflects row' (base ++ combine (map fst all) evs) /\
  (forall k name f, nth_error all k = Some (name, f) -> exists r v,
      nth_error evs k = Some v /\ f r = Ok v /\ forall n, last_named (base ++ combine (map fst all) (firstn k evs)) n (lookup n r)).
Proof.
  induction es as [|[name f] es IH]; intros dn row Ht Ha Hl R H; cbn [add_extras].
  - rewrite app_nil_r in Ha. assert (L : length dn = length all) by (apply (f_equal (@length _)) in Ha; rewrite firstn_length in Ha; lia).
    exists row, dn. split; [reflexivity|]. split; [exact L|]. split; [exact R|]. intros k nm g E. apply (H k nm g); [|exact E].
    rewrite L. apply nth_error_Some. congruence.
  - destruct (Ht (name, f) row) as (v & Ev); [left; reflexivity|]. cbn [snd] in Ev. rewrite Ev. cbn [bind].
    assert (Hn : nth_error all (length dn) = Some (name, f)).
    { rewrite Ha. rewrite nth_error_app2; rewrite firstn_length, Nat.min_l by lia; [rewrite Nat.sub_diag; reflexivity|lia]. }
    assert (Hlt : length dn < length all) by (apply nth_error_Some; congruence).
    assert (Hc : combine (map fst all) (dn ++ [v]) = combine (map fst all) dn ++ [(name, v)]).
    { apply combine_firstn_app; [rewrite map_length; lia|]. rewrite nth_error_map, Hn. reflexivity. }
    apply (IH (dn ++ [v])).
    + intros e r He. apply Ht. right. exact He.
    + rewrite app_length. cbn [length]. replace (length dn + 1) with (S (length dn)) by lia.
      rewrite Ha at 1. rewrite Ha at 2. clear -Hlt Ha. set (p := firstn (length dn) all) in *.
      assert (Lp : length p = length dn) by (unfold p; rewrite firstn_length; lia).
      rewrite <- Lp. rewrite firstn_app. rewrite firstn_all2 by lia. replace (S (length p) - length p) with 1 by lia. cbn [firstn].
      rewrite <- app_assoc. reflexivity.
    + rewrite app_length. cbn [length]. lia.
    + rewrite Hc, app_assoc. apply reflects_assign, R.
    + intros k nm g Hk E. rewrite app_length in Hk. cbn [length] in Hk. destruct (Nat.eq_dec k (length dn)) as [->|Hne].
      * assert (Eq : (nm, g) = (name, f)) by congruence. injection Eq as -> ->. exists row, v.
        split; [rewrite nth_error_app2, Nat.sub_diag by lia; reflexivity|]. split; [exact Ev|].
        rewrite firstn_app, Nat.sub_diag, firstn_all, app_nil_r. exact R.
      * destruct (H k nm g) as (r & w & E1 & E2 & E3); [lia|exact E|]. exists r, w.
        split; [rewrite nth_error_app1 by lia; exact E1|]. split; [exact E2|]. rewrite firstn_app. replace (k - length dn) with 0 by lia.
        rewrite app_nil_r. exact E3.
Qed.

Section Attr.
Variables (conf : attr_conf) (show_int : Z -> text) (show : num -> text) (show_genome : list Z -> text) (mx : bool).
Hypothesis total : forall e r, In e (ac_extras conf) -> exists v, snd e r = Ok v.

Lemma row_ok gen ind :
  (Forall (fun a => In a (map fst (ai_attrs ind))) (ac_attributes conf) ->
   exists row al, get_row_dict conf show_int show gen ind = Ok row /\ attr_row conf show_int show gen ind al /\ reflects row al) /\
  (~ Forall (fun a => In a (map fst (ai_attrs ind))) (ac_attributes conf) -> get_row_dict conf show_int show gen ind = Err ValueError).
Proof.
  unfold get_row_dict.
  assert (R0 : reflects [(lit "step", CText (show_int gen))] [(lit "step", CText (show_int gen))]).
  { apply (reflects_assign [] []). intros n H. destruct H. }
  destruct (add_attributes_ok (ac_attributes conf) ind _ _ R0) as [A1 A2]. split; [|intros N; rewrite (A2 N); reflexivity].
  intros F. destruct (A1 F) as (row & vs & -> & Fv & R1). cbn [bind].
  set (l1 := match ac_job conf with Some j => [(lit "job", CText j)] | None => [] end).
  assert (R2 : reflects (match ac_job conf with Some j => assign row (lit "job") (CText j) | None => row end)
                 (([(lit "step", CText (show_int gen))] ++ combine (ac_attributes conf) (map CText vs)) ++ l1)).
  { unfold l1. destruct (ac_job conf); [apply reflects_assign, R1|rewrite app_nil_r; exact R1]. }
  apply (reflects_fold (fun n : text * text => (fst n, CText (snd n))) (ac_notes conf)) in R2. cbn [fst snd] in R2.
  set (row2 := fold_left _ (ac_notes conf) _) in *.
  set (l2 := if ac_fitness conf then [(lit "fitness", CText (show (si_fit (ai_sind ind))))] else []).
  assert (R3 : reflects (if ac_fitness conf then assign row2 (lit "fitness") (CText (show (si_fit (ai_sind ind)))) else row2)
    ((([(lit "step", CText (show_int gen))] ++ combine (ac_attributes conf) (map CText vs)) ++ l1) ++ map (fun n => (fst n, CText (snd n))) (ac_notes conf) ++ l2)).
  { rewrite app_assoc. unfold l2. destruct (ac_fitness conf); [apply reflects_assign, R2|rewrite app_nil_r; exact R2]. }
  set (row3 := if ac_fitness conf then assign row2 (lit "fitness") (CText (show (si_fit (ai_sind ind)))) else row2) in *.
  set (l3 := if ac_genome conf then [(lit "genome", CGenome (ai_genome ind))] else []).
  set (base := (lit "step", CText (show_int gen)) :: combine (ac_attributes conf) (map CText vs) ++ l1 ++ map (fun n => (fst n, CText (snd n))) (ac_notes conf) ++ l2 ++ l3).
  assert (R4 : reflects (if ac_genome conf then assign row3 (lit "genome") (CGenome (ai_genome ind)) else row3) (base ++ combine (map fst (ac_extras conf)) [])).
  { assert (E : base ++ combine (map fst (ac_extras conf)) [] = ((([(lit "step", CText (show_int gen))] ++ combine (ac_attributes conf) (map CText vs)) ++ l1) ++ map (fun n => (fst n, CText (snd n))) (ac_notes conf) ++ l2) ++ l3).
    { unfold base. destruct (map fst (ac_extras conf)); cbn [combine]; rewrite app_nil_r; cbn [app]; rewrite <- !app_assoc; reflexivity. }
    rewrite E. unfold l3. destruct (ac_genome conf); [apply reflects_assign, R3|rewrite app_nil_r; exact R3]. }
  destruct (add_extras_ok base (ac_extras conf) (ac_extras conf) [] _ total eq_refl (Nat.le_0_l _) R4) as (row' & evs & E & L & R & H).
  { intros k nm g Hk. cbn in Hk. lia. }
  exists row', (base ++ combine (map fst (ac_extras conf)) evs). split; [exact E|]. split; [|exact R].
  exists vs, evs. split; [exact Fv|]. split; [exact L|]. split; [reflexivity|exact H].
Qed.

Lemma names_of gen ind al : attr_row conf show_int show gen ind al -> forall n, In n (map fst al) <-> In n (fieldnames conf).
Proof.
  intros (vs & evs & F & L & -> & _) n. unfold fieldnames.
  assert (E1 : map fst (combine (ac_attributes conf) (map CText vs)) = ac_attributes conf).
  { clear -F. induction F as [|a v l m H F IH]; [reflexivity|]. cbn. f_equal. exact IH. }
  assert (E2 : map fst (combine (map fst (ac_extras conf)) evs) = map fst (ac_extras conf)).
  { clear -L. revert evs L. induction (ac_extras conf) as [|e l IH]; intros [|v evs] L; try discriminate; [reflexivity|]. cbn. f_equal. apply IH. cbn in L. lia. }
  cbn [app map fst]. rewrite !map_app, E1, E2, map_map. cbn [fst].
  cbn [In app]. rewrite !in_app_iff.
  assert (J : In n (map fst (match ac_job conf with Some j => [(lit "job", CText j)] | None => [] end)) <-> In n (match ac_job conf with Some _ => [lit "job"] | None => [] end)) by (destruct (ac_job conf); reflexivity).
  assert (K : In n (map fst (if ac_fitness conf then [(lit "fitness", CText (show (si_fit (ai_sind ind))))] else [])) <-> In n (if ac_fitness conf then [lit "fitness"] else [])) by (destruct (ac_fitness conf); reflexivity).
  assert (M : In n (map fst (if ac_genome conf then [(lit "genome", CGenome (ai_genome ind))] else [])) <-> In n (if ac_genome conf then [lit "genome"] else [])) by (destruct (ac_genome conf); reflexivity).
  rewrite J, K, M. cbn [In]. rewrite !in_app_iff. tauto.
Qed.

Definition line_of (heap : nat -> list Z) (row : arow) : list text :=
  map (fun n => match lookup n row with Some c => cell_text show_genome heap c | None => [] end) (fieldnames conf).

Lemma line_ok gen ind row al heap : attr_row conf show_int show gen ind al -> reflects row al ->
  dict_line show_genome (fieldnames conf) heap row = Ok (line_of heap row) /\ attr_line show_genome heap (fieldnames conf) al (line_of heap row).
Proof.
  intros A R. pose proof (names_of gen ind al A) as N. split.
  - unfold dict_line. assert (forallb (fun kv => existsb (text_eqb (fst kv)) (fieldnames conf)) row = true) as ->; [|reflexivity].
    apply forallb_forall. intros [k v] Hin. cbn [fst]. apply existsb_exists. exists k. split; [|apply text_eqb_eq; reflexivity].
    apply N. specialize (R k). destruct (lookup k row) as [c|] eqn:E.
    + destruct R as (l1 & l2 & -> & _). rewrite map_app, in_app_iff. right. left. reflexivity.
    + exfalso. apply (lookup_none _ _ E). apply in_map_iff. exists (k, v). auto.
  - unfold attr_line, line_of. assert (G : forall n, In n (fieldnames conf) -> exists c, last_named al n (Some c) /\ lookup n row = Some c).
    { intros n Hn. apply N in Hn. specialize (R n). destruct (lookup n row) as [c|]; [exists c; auto|]. contradiction. }
    clear N. revert G. induction (fieldnames conf) as [|n l IH]; intros G; cbn [map]; constructor.
    + destruct (G n) as (c & H1 & H2); [left; reflexivity|]. rewrite H2. exists c. split; [exact H1|]. destruct c; reflexivity.
    + apply IH. intros n' Hn'. apply G. right. exact Hn'.
Qed.

Notation has_attributes := (has_attributes conf).

Lemma record_ok gen heap inds : Forall has_attributes inds -> forall st,
  exists rows als, length als = length inds /\ Forall2 (attr_row conf show_int show gen) inds als /\ Forall2 reflects rows als /\
    Forall2 (attr_line show_genome heap (fieldnames conf)) als (map (line_of heap) rows) /\
    record_all conf show_int show show_genome gen heap inds st =
      (Ok tt, mk_attr (as_lines st ++ (if ac_stream conf then map (line_of heap) rows else []))
                      (as_data st ++ (if ac_dataframe conf then rows else []))).
Proof.
  intros F. induction F as [|ind inds Hi F IH]; intros st; cbn [record_all].
  - exists [], []. cbn. rewrite (fun b : bool => match b return ((if b then @nil (list text) else []) = []) with true => eq_refl | false => eq_refl end).
    rewrite (fun b : bool => match b return ((if b then @nil arow else []) = []) with true => eq_refl | false => eq_refl end).
    rewrite !app_nil_r. destruct st. repeat split; constructor.
  - destruct (row_ok gen ind) as [R _]. destruct (R Hi) as (row & al & -> & A & Rf). clear R.
    destruct (line_ok gen ind row al heap A Rf) as [L1 L2].
    set (st1 := mk_attr (as_lines st ++ (if ac_stream conf then [line_of heap row] else [])) (as_data st ++ (if ac_dataframe conf then [row] else []))).
    destruct (IH st1) as (rows & als & I1 & I2 & I3 & I4 & I5). exists (row :: rows), (al :: als).
    split; [cbn; congruence|]. split; [constructor; assumption|]. split; [constructor; assumption|].
    split; [constructor; assumption|].
    assert (E : (if ac_stream conf then bind (dict_line show_genome (fieldnames conf) heap row) (fun l => Ok [l]) else Ok []) =
                Ok (if ac_stream conf then [line_of heap row] else [])).
    { rewrite L1. destruct (ac_stream conf); reflexivity. }
    rewrite E. fold st1. rewrite I5. f_equal. unfold st1. cbn [as_lines as_data]. rewrite <- !app_assoc.
    destruct (ac_stream conf), (ac_dataframe conf); cbn [map app]; rewrite ?app_nil_r; reflexivity.
Qed.

Lemma record_missing gen heap pre ind post : Forall has_attributes pre -> ~ has_attributes ind -> forall st,
  record_all conf show_int show show_genome gen heap (pre ++ ind :: post) st =
  (Err ValueError, snd (record_all conf show_int show show_genome gen heap pre st)).
Proof.
  intros F N. induction F as [|x pre Hx F IH]; intros st; cbn [app record_all].
  - destruct (row_ok gen ind) as [_ R]. rewrite (R N). reflexivity.
  - destruct (row_ok gen x) as [R _]. destruct (R Hx) as (row & al & -> & A & Rf).
    destruct (line_ok gen x row al heap A Rf) as [L1 _]. rewrite L1. cbn [bind].
    destruct (ac_stream conf); apply IH.
Qed.

Lemma call_rows gen coin heap pop st : ac_best_only conf = false -> Forall has_attributes pop ->
  exists rows als, Forall2 (attr_row conf show_int show gen) pop als /\ Forall2 reflects rows als /\
    Forall2 (attr_line show_genome heap (fieldnames conf)) als (map (line_of heap) rows) /\
    attr_call conf show_int show show_genome mx gen coin heap pop st =
      (Ok pop, mk_attr (as_lines st ++ (if ac_stream conf then map (line_of heap) rows else []))
                       (as_data st ++ (if ac_dataframe conf then rows else []))).
Proof.
  intros B F. destruct (record_ok gen heap pop F st) as (rows & als & _ & F1 & F2' & F3 & E). exists rows, als.
  unfold attr_call. rewrite B, E. auto.
Qed.

Lemma call_best gen coin heap pop st : ac_best_only conf = true -> pop <> [] -> Forall has_attributes pop ->
  exists best row al, In best pop /\
    (forall y, In y pop -> better mx (si_fit (ai_sind y)) (si_fit (ai_sind best)) -> within_rel tol (si_fit (ai_sind y)) (si_fit (ai_sind best))) /\
    attr_row conf show_int show gen best al /\ reflects row al /\
    attr_line show_genome heap (fieldnames conf) al (line_of heap row) /\
    attr_call conf show_int show show_genome mx gen coin heap pop st =
      (Ok pop, mk_attr (as_lines st ++ (if ac_stream conf then [line_of heap row] else []))
                       (as_data st ++ (if ac_dataframe conf then [row] else []))).
Proof.
  intros B Hne F. unfold attr_call. rewrite B. destruct pop as [|c l]; [congruence|]. cbn [pymax].
  set (best := pymax_from _ c l). assert (Hb : In best (c :: l)) by apply pymax_from_in.
  assert (E : ai_sind best = pymax_from (ind_gt mx coin) (ai_sind c) (map ai_sind l)) by apply (pymax_from_map ai_sind).
  assert (Fb : Forall has_attributes [best]).
  { constructor; [|constructor]. exact (proj1 (Forall_forall _ _) F best Hb). }
  destruct (record_ok gen heap [best] Fb st) as (rows & als & _ & F1 & F2' & F3 & Er).
  inversion F1 as [|x al t1 t2 A1 A2]; subst. inversion A2; subst. inversion F2' as [|row x t1 t2 B1 B2]; subst. inversion B2; subst.
  cbn [map] in F3, Er. inversion F3 as [|x y t1 t2 C1 C2]; subst.
  exists best, row, al. split; [exact Hb|]. split; [|rewrite Er; auto].
  intros y Hy. rewrite E. apply (in_map ai_sind) in Hy. cbn [map] in Hy.
  exact (pymax_from_almost mx coin (map ai_sind l) (ai_sind c) [] (fun y H => match H with end) (ai_sind y) Hy).
Qed.

Lemma call_best_empty gen coin heap st : ac_best_only conf = true ->
  attr_call conf show_int show show_genome mx gen coin heap [] st = (Err ValueError, st).
Proof. intros B. unfold attr_call. rewrite B. reflexivity. Qed.

Lemma call_missing gen coin heap pre ind post st : ac_best_only conf = false -> Forall has_attributes pre -> ~ has_attributes ind ->
  attr_call conf show_int show show_genome mx gen coin heap (pre ++ ind :: post) st =
  (Err ValueError, snd (attr_call conf show_int show show_genome mx gen coin heap pre st)).
Proof.
  intros B F N. unfold attr_call. rewrite B, (record_missing gen heap pre ind post F N st).
  destruct (record_all conf show_int show show_genome gen heap pre st) as [[?|?] ?]; reflexivity.
Qed.

Lemma dataframe_lines gens coin heap pops : ac_best_only conf = false -> ac_dataframe conf = true -> ac_stream conf = true ->
  Forall (Forall has_attributes) pops -> length gens = length pops -> forall st rows0,
  as_data st = rows0 -> forall hd, as_lines st = hd ++ map (line_of heap) rows0 ->
  let st' := fold_left (fun s gp => snd (attr_call conf show_int show show_genome mx (fst gp) coin heap (snd gp) s)) (combine gens pops) st in
  exists ls, as_lines st' = hd ++ ls /\ dataframe conf show_genome heap st' = Ok ls.
Proof.
  intros B D S F. revert gens. induction F as [|pop pops Fp F IH]; intros [|g gens] L st rows0 E hd E2; try discriminate; cbn [combine fold_left].
  - exists (map (line_of heap) rows0). unfold dataframe. rewrite D. split; [exact E2|]. rewrite E. reflexivity.
  - destruct (call_rows g coin heap pop st B Fp) as (rows & als & _ & _ & _ & Ec). cbn [fst snd]. rewrite Ec, S, D. cbn [snd].
    apply (IH gens ltac:(cbn in L; lia) _ (rows0 ++ rows)); cbn [as_data as_lines]; [rewrite E; reflexivity|].
    rewrite E2, map_app, app_assoc. reflexivity.
Qed.

Lemma lines_all gen heap inds : forall rows als, Forall2 (attr_row conf show_int show gen) inds als -> Forall2 reflects rows als ->
  Forall2 (attr_line show_genome heap (fieldnames conf)) als (map (line_of heap) rows).
Proof.
  intros rows als A. revert rows. induction A as [|i al is als H A IH]; intros rows R; inversion R as [|row al' rows' als' R1 R2]; subst; cbn [map]; constructor.
  - exact (proj2 (line_ok gen i row al heap H R1)).
  - apply IH. exact R2.
Qed.

Notation grows := (grows conf show_genome).

Lemma columns_eq : fieldnames conf = attr_columns conf.
Proof. unfold fieldnames, attr_columns. cbn [concat]. rewrite app_nil_r. reflexivity. Qed.

Lemma grows_ok gen heap inds rows als st : Forall2 (attr_row conf show_int show gen) inds als -> Forall2 reflects rows als ->
  grows st (mk_attr (as_lines st ++ (if ac_stream conf then map (line_of heap) rows else []))
                       (as_data st ++ (if ac_dataframe conf then rows else []))) heap als.
Proof.
  intros A R. unfold CsvProbe.grows. rewrite <- columns_eq. split.
  - exists (map (line_of heap) rows). split; [exact (lines_all gen heap inds rows als A R)|reflexivity].
  - intros D heap'. exists (map (line_of heap') (as_data st)), (map (line_of heap') rows). unfold dataframe. rewrite D. split; [reflexivity|].
    split; [exact (lines_all gen heap' inds rows als A R)|]. cbn [as_data]. rewrite <- map_app. reflexivity.
Qed.

Lemma call_rows_grow gen coin heap pop st : ac_best_only conf = false -> Forall has_attributes pop ->
  exists als st', Forall2 (attr_row conf show_int show gen) pop als /\
    attr_call conf show_int show show_genome mx gen coin heap pop st = (Ok pop, st') /\ grows st st' heap als.
Proof.
  intros B F. destruct (call_rows gen coin heap pop st B F) as (rows & als & A & R & _ & E). exists als. rewrite E. eexists.
  split; [exact A|]. split; [reflexivity|]. exact (grows_ok gen heap pop rows als st A R).
Qed.
Lemma call_best_grow gen coin heap pop st : ac_best_only conf = true -> pop <> [] -> Forall has_attributes pop ->
  exists best al st', In best pop /\
    (forall y, In y pop -> better mx (si_fit (ai_sind y)) (si_fit (ai_sind best)) -> within_rel tol (si_fit (ai_sind y)) (si_fit (ai_sind best))) /\
    attr_row conf show_int show gen best al /\
    attr_call conf show_int show show_genome mx gen coin heap pop st = (Ok pop, st') /\ grows st st' heap [al].
Proof.
  intros B Hne F. destruct (call_best gen coin heap pop st B Hne F) as (best & row & al & Hb & Hm & A & R & _ & E). exists best, al. rewrite E. eexists.
  split; [exact Hb|]. split; [exact Hm|]. split; [exact A|]. split; [reflexivity|].
  apply (grows_ok gen heap [best] [row] [al] st); (constructor; [assumption|constructor]).
Qed.
End Attr.

Lemma init_ok conf : (attr_init conf = Err ValueError <-> ac_stream conf = false /\ ac_dataframe conf = false) /\
  (ac_stream conf = true \/ ac_dataframe conf = true -> attr_init conf =
     Ok (mk_attr (if ac_stream conf && ac_header conf then [attr_columns conf] else []) [])).
Proof. unfold attr_init. rewrite columns_eq. destruct (ac_stream conf), (ac_dataframe conf); cbn; split; try split; intros; try discriminate; try reflexivity; try tauto; destruct H; discriminate. Qed.

Lemma dataframe_agrees conf show_int show show_genome mx gens coin heap pops hd :
  (forall e r, In e (ac_extras conf) -> exists v, snd e r = Ok v) -> ac_best_only conf = false ->
  ac_dataframe conf = true -> ac_stream conf = true -> Forall (Forall (has_attributes conf)) pops -> length gens = length pops ->
  let st' := fold_left (fun s gp => snd (attr_call conf show_int show show_genome mx (fst gp) coin heap (snd gp) s))
               (combine gens pops) (mk_attr hd []) in
  exists ls, as_lines st' = hd ++ ls /\ dataframe conf show_genome heap st' = Ok ls.
Proof.
  intros T B D S F L. apply (dataframe_lines conf show_int show show_genome mx T gens coin heap pops B D S F L (mk_attr hd []) [] eq_refl hd).
  cbn. rewrite app_nil_r. reflexivity.
Qed.

(** ** examples *)
Ltac ascii_notin := let H := fresh in intros H; vm_compute in H; repeat (destruct H as [H|H]; [discriminate|]); contradiction.
Lemma unquoted : exists h header row fs gs,
  lines_are (st_text (snd (stats_run ex_quote_conf digit ex_show ex_show true h (stats_init ex_quote_conf)))) [header; row] /\
  fields_are header fs /\ fields_are row gs /\ length gs = S (length fs).
Proof.
  exists [ex_in 0 [1; 5; 3]%Z].
  exists (sep_by comma [lit "note"; lit " step"; lit " bsf"; lit " mean_fitness"; lit " std_fitness"; lit " min_fitness"; lit " max_fitness"]).
  exists (sep_by comma [lit "a"; lit " b"; lit " 0"; lit " 5"; lit " 3"; lit " 8"; lit " 1"; lit " 5"]).
  eexists. eexists. split; [split|split; [|split]].
  - reflexivity.
  - repeat (constructor; [ascii_notin|]). constructor.
  - eexists. split; [|split; [reflexivity|split; [|reflexivity]]]; [discriminate|]. repeat (constructor; [ascii_notin|]). constructor.
  - eexists. split; [|split; [reflexivity|split; [|reflexivity]]]; [discriminate|]. repeat (constructor; [ascii_notin|]). constructor.
  - reflexivity.
Qed.

Lemma interrupted : exists i j rs st,
  stats_run ex_fail_conf digit ex_show ex_show true [i; j] (stats_init ex_fail_conf) = (rs, st) /\
  rs = [Err ValueError; Ok (bi_pop j)] /\
  exists header row fs gs, lines_are (st_text st) [header; row] /\ fields_are header fs /\ fields_are row gs /\
    (length fs < length gs)%nat.
Proof.
  exists (ex_in 0 [1]%Z), (ex_in 1 [1; 3]%Z). eexists. eexists. split; [reflexivity|]. split; [reflexivity|].
  exists (sep_by comma [lit "step"; lit " bsf"; lit " mean_fitness"; lit " std_fitness"; lit " min_fitness"; lit " max_fitness"; lit " f"]).
  exists (sep_by comma [lit "0"; lit " 1"; lit " 1"; lit " 0"; lit " 1"; lit " 11"; lit " 3"; lit " 2"; lit " 1"; lit " 1"; lit " 3"; lit " 0"]).
  eexists. eexists. split; [split|split; [|split]].
  - reflexivity.
  - repeat (constructor; [ascii_notin|]). constructor.
  - eexists. split; [|split; [reflexivity|split; [|reflexivity]]]; [discriminate|]. repeat (constructor; [ascii_notin|]). constructor.
  - eexists. split; [|split; [reflexivity|split; [|reflexivity]]]; [discriminate|]. repeat (constructor; [ascii_notin|]). constructor.
  - cbn. lia.
Qed.

Lemma attr_example :
  (forall e r, In e (ac_extras ex_attr_conf) -> exists v, snd e r = Ok v) /\
  Forall (has_attributes ex_attr_conf) [ex_aind 3 0; ex_aind 5 1] /\
  forall heap, heap 0 = [1; 2]%Z -> heap 1 = [3]%Z ->
  attr_call ex_attr_conf digit ex_show ex_genome_text true 4 ex_coin heap [ex_aind 3 0; ex_aind 5 1] (mk_attr [] []) =
    (Ok [ex_aind 3 0; ex_aind 5 1],
     mk_attr [[lit "7"; lit "ga"; lit "4"; lit "2"; lit "3"; lit "12"; lit "6"]; [lit "7"; lit "ga"; lit "4"; lit "2"; lit "5"; lit "3"; lit "6"]]
       (map (fun fa => [(lit "step", CText (lit "4")); (lit "foo", CText (lit "2")); (lit "job", CText (lit "7")); (lit "alg", CText (lit "ga"));
                        (lit "fitness", CText (fst fa)); (lit "genome", CGenome (snd fa)); (lit "len", CText (lit "6"))])
            [(lit "3", 0); (lit "5", 1)])).
Proof.
  split; [|split].
  - intros e r [<-|[]]. eexists. reflexivity.
  - repeat constructor; cbn; tauto.
  - intros heap H0 H1.
    cbv. rewrite H0, H1. reflexivity.
Qed.

Lemma missing_example : ~ has_attributes ex_attr_conf (mk_aind [(lit "bar", lit "1")] (mk_sind 0 (NInt 1)) 0) /\
  has_attributes ex_attr_conf (ex_aind 3 0).
Proof.
  split; [|repeat constructor; cbn; tauto]. intros F. apply Forall_cons_iff in F as [[F|[]] _]. discriminate.
Qed.

Lemma snapshot : exists heap heap' st ls ls',
  snd (attr_call ex_attr_conf digit ex_show ex_genome_text true 0 ex_coin heap [ex_aind 3 0] (mk_attr [] [])) = st /\
  dataframe ex_attr_conf ex_genome_text heap st = Ok ls /\ as_lines st = ls /\
  dataframe ex_attr_conf ex_genome_text heap' st = Ok ls' /\ ls' <> ls.
Proof.
  exists (fun _ => [1]%Z), (fun _ => [2]%Z). eexists. eexists. eexists. split; [reflexivity|]. split; [reflexivity|].
  split; [reflexivity|]. split; [reflexivity|]. discriminate.
Qed.

Lemma collision : exists gen ind st,
  attr_call ex_step_conf digit ex_show ex_genome_text true gen ex_coin (fun _ => []) [ind] (mk_attr [] []) = (Ok [ind], st) /\
  forall line t, In line (as_lines st) -> In t line -> t <> digit gen.
Proof.
  exists 3%Z, (mk_aind [(lit "step", lit "9")] (mk_sind 0 (NInt 1)) 0). eexists. split; [reflexivity|].
  intros line t [<-|[]] [<-|[<-|[]]]; discriminate.
Qed.

Lemma no_dataframe conf show_genome heap st : (exists e, dataframe conf show_genome heap st = Err e) <-> ac_dataframe conf = false.
Proof.
  unfold dataframe. destruct (ac_dataframe conf); split; [intros [e H]; discriminate|discriminate|reflexivity|].
  intros _. exists ValueError. reflexivity.
Qed.

(** ** the kind of number in the columns min_fitness and max_fitness *)
Lemma np_min2_in a b : np_min2 a b = a \/ np_min2 a b = b.
Proof. unfold np_min2. destruct (isnan a), (isnan b), (num_ltb b a); auto. Qed.
Lemma np_max2_in a b : np_max2 a b = a \/ np_max2 a b = b.
Proof. unfold np_max2. destruct (isnan a), (isnan b), (num_ltb a b); auto. Qed.
Lemma fold_pick_in (f : num -> num -> num) : (forall a b, f a b = a \/ f a b = b) ->
  forall l x, In (fold_left f l x) (x :: l).
Proof.
  intros Hf. induction l as [|y l IH]; intros x; [left; reflexivity|]. cbn [fold_left].
  destruct (Hf x y) as [E|E]; rewrite E.
  - destruct (IH x) as [H|H]; [left; exact H|right; right; exact H].
  - destruct (IH y) as [H|H]; [right; left; exact H|right; right; exact H].
Qed.
Lemma is_int_true n : is_int n = true <-> exists z, n = NInt z.
Proof. destruct n; cbn; split; intros H; try discriminate; try (destruct H as [z H]; discriminate); eauto. Qed.
Lemma to_float_not_int n z : to_float n <> NInt z.
Proof. unfold to_float. destruct (num_val n); discriminate. Qed.
Lemma extremes_kind l : l <> [] ->
  ((forall x, In x l -> exists z, x = NInt z) -> In (np_min l) l /\ In (np_max l) l) /\
  ((exists x, In x l /\ forall z, x <> NInt z) -> forall z, np_min l <> NInt z /\ np_max l <> NInt z).
Proof.
  intros Hne. split.
  - intros Hi. unfold np_min, np_max, as_array.
    assert (E : forallb is_int l = true) by (apply forallb_forall; intros x Hx; apply is_int_true, Hi, Hx).
    rewrite E. destruct l as [|x r]; [congruence|].
    split; apply fold_pick_in; [exact np_min2_in|exact np_max2_in].
  - intros (x & Hx & Hn) z. unfold np_min, np_max, as_array.
    assert (E : forallb is_int l = false).
    { destruct (forallb is_int l) eqn:E; [|reflexivity]. rewrite forallb_forall in E. apply E, is_int_true in Hx.
      destruct Hx as [z' Hx]. destruct (Hn z' Hx). }
    rewrite E. destruct l as [|y r]; [congruence|]. cbn [map].
    split; intros F.
    + pose proof (fold_pick_in np_min2 np_min2_in (map to_float r) (to_float y)) as H. rewrite F in H.
      apply (in_map_iff to_float (y :: r)) in H. destruct H as (w & Hw & _). exact (to_float_not_int w z Hw).
    + pose proof (fold_pick_in np_max2 np_max2_in (map to_float r) (to_float y)) as H. rewrite F in H.
      apply (in_map_iff to_float (y :: r)) in H. destruct H as (w & Hw & _). exact (to_float_not_int w z Hw).
Qed.
