(** Proofs about probes that draw the best individual *)
From Coq Require Import Lia Lqa Qabs.
From Verif Require Import Model.Base Model.PyList Model.Scalar Model.NeuralNet Spec.NeuralNet Model.Rules Model.ExecProbe Spec.Order Spec.Rules Spec.ExecProbe
  Proofs.Order Proofs.PyList Proofs.ScalarSel Proofs.NeuralNet Proofs.Rules.

Section Best.
Variable mx : bool.
Variable coin : sind -> sind -> bool.

Lemma best_spec {G} (pop : list (pind G)) : pop <> [] -> exists best, best_pind mx coin pop = Ok best /\ best_in mx pop best.
Proof.
  intros N. destruct pop as [|c l]; [contradiction|]. unfold best_pind, pymax.
  set (gt := fun a b : pind G => ind_gt mx coin (p_sind a) (p_sind b)). exists (pymax_from gt c l). split; [reflexivity|].
  split; [apply pymax_from_in|]. intros y Hy.
  assert (E : p_sind (pymax_from gt c l) = pymax_from (ind_gt mx coin) (p_sind c) (map p_sind l)) by apply (pymax_from_map p_sind).
  rewrite E. apply (in_map p_sind) in Hy. cbn [map] in Hy.
  exact (pymax_from_almost mx coin (map p_sind l) (p_sind c) [] (fun y H => match H with end) (p_sind y) Hy).
Qed.

(** ** rules *)
Lemma boxes_loop xl yl rules bs : forall acc, Forall2 (fun r b => rule_box xl yl r = Ok b) rules bs ->
  draw_rules xl yl rules acc = (Ok tt, acc ++ bs).
Proof.
  intros acc F. revert acc. induction F as [|r b rules bs E _ IH]; intros acc; cbn [draw_rules]; [rewrite app_nil_r; reflexivity|].
  rewrite E, IH, <- app_assoc. reflexivity.
Qed.
Lemma rounded_lt q z z' : rounded q z -> rounded q z' -> ~ (z < z')%Z.
Proof.
  intros (R1 & R2) (H1 & H2) L. assert (L' : (z + 1 <= z')%Z) by lia. rewrite Zle_Qle, inject_Z_plus in L'. change (inject_Z 1) with 1%Q in L'.
  pose proof (Qle_Qabs (q - inject_Z z)) as A. pose proof (Qle_Qabs (- (q - inject_Z z'))) as B. rewrite Qabs_opp in B.
  assert (E1 : (Qabs (q - inject_Z z) == 1 # 2)%Q) by lra. assert (E2 : (Qabs (q - inject_Z z') == 1 # 2)%Q) by lra.
  destruct (R2 E1) as (m & Hm), (H2 E2) as (n & Hn). assert (E3 : (inject_Z z' == inject_Z (z + 1))%Q) by (rewrite inject_Z_plus; change (inject_Z 1) with 1%Q; lra).
  rewrite inject_Z_injective in E3. lia.
Qed.
Lemma rounded_unique q z z' : rounded q z -> rounded q z' -> z = z'.
Proof. intros A B. pose proof (rounded_lt q z z' A B). pose proof (rounded_lt q z' z B A). lia. Qed.
Lemma rounds_spec q : rounds_to_zero (Some q) = true <-> rounded q 0.
Proof.
  unfold rounds_to_zero. rewrite Z.eqb_eq. pose proof (round_even_spec q) as R. split; intros H; [rewrite H in R; exact R|].
  exact (rounded_unique q _ _ R H).
Qed.
Lemma ltb_lt a b : gene_ltb (Some a) (Some b) = true <-> (a < b)%Q.
Proof. cbn [gene_ltb]. unfold Qltb. rewrite Bool.negb_true_iff. split; intros H; [apply Qnot_le_lt; intros L; apply Qle_bool_iff in L; congruence|].
  destruct (Qle_bool b a) eqn:E; [apply Qle_bool_iff in E; lra|reflexivity]. Qed.

Lemma box_of_genes n seg rl xl yl : 2 <= n -> lays_out n (map Some seg) rl -> 0 < length (actions rl) ->
  exists b, rule_box xl yl rl = Ok b /\ (r_blue b = true <-> acts_zero n seg) /\
    forall x y, within xl x -> within yl y -> (contains b x y <-> satisfies seg x y).
Proof.
  intros N (LC & LS & C & A) LA. destruct rl as [cs acts]. cbn [conditions actions] in *.
  destruct cs as [|cx cs]; [cbn in LC; lia|]. destruct cs as [|cy cs]; [cbn in LC; lia|]. destruct acts as [|a acts]; [cbn in LA; lia|].
  destruct cx as [xlo xhi], cy as [ylo yhi]. rewrite map_length in LS.
  destruct seg as [|s0 seg]; [cbn in LS; lia|]. destruct seg as [|s1 seg]; [cbn in LS; lia|]. destruct seg as [|s2 seg]; [cbn in LS; lia|]. destruct seg as [|s3 seg]; [cbn in LS; lia|].
  destruct (C 0 xlo xhi eq_refl) as (C1 & C2). destruct (C 1 ylo yhi eq_refl) as (C3 & C4). cbn in C1, C2, C3, C4. injection C1 as <-. injection C2 as <-. injection C3 as <-. injection C4 as <-.
  pose proof (A 0) as A0. cbn [nth_error] in A0. rewrite Nat.add_0_r in A0. symmetry in A0.
  assert (LA2 : exists a', a = Some a' /\ nth_error (s0 :: s1 :: s2 :: s3 :: seg) (n * 2) = Some a').
  { rewrite nth_error_map in A0. destruct (nth_error (s0 :: s1 :: s2 :: s3 :: seg) (n * 2)) as [a'|]; [|discriminate]. injection A0 as <-. eauto. }
  destruct LA2 as (a' & -> & Ha'). clear A0 A C.
  unfold rule_box. cbn [conditions actions fst snd].
  destruct (gene_ltb (Some s1) (Some s0)) eqn:X, (gene_ltb (Some s3) (Some s2)) eqn:Y;
    (eexists; split; [reflexivity|]; cbn [r_blue]; split;
      [rewrite rounds_spec; unfold acts_zero; split; [intros H; exists a'; auto|intros (a'' & H1 & H2); congruence]|]);
    (assert (X' := X); assert (Y' := Y));
    (apply ltb_lt in X' || (assert (NX : ~ (s1 < s0)%Q) by (intros K; apply ltb_lt in K; congruence); apply Qnot_lt_le in NX));
    (apply ltb_lt in Y' || (assert (NY : ~ (s3 < s2)%Q) by (intros K; apply ltb_lt in K; congruence); apply Qnot_lt_le in NY));
    intros x y (X1 & X2) (Y1 & Y2); unfold contains, satisfies; cbn [r_x r_y r_width r_height lift2];
    (split; [intros (u & v & w & h & E1 & E2 & E3 & E4 & I1 & I2 & I3 & I4); injection E1 as <-; injection E2 as <-; injection E3 as <-; injection E4 as <-|
             intros (I1 & I2); do 4 eexists; split; [reflexivity|]; split; [reflexivity|]; split; [reflexivity|]; split; [reflexivity|]]).
  all: try (split; [|]); try (first [left; assumption | right; lra]); try lra.
  all: destruct I1 as [I1|I1]; try lra; destruct I2 as [I2|I2]; try lra.
  all: repeat split; lra.
Qed.

Lemma Forall2_exists {A B} (R : A -> B -> Prop) l : Forall (fun a => exists b, R a b) l -> exists m, Forall2 R l m.
Proof. induction 1 as [|a l (b & H) _ (m & IH)]; [exists []; constructor|exists (b :: m); constructor; assumption]. Qed.

Lemma draw_genome dc g xl yl : dec_memory dc = 0 -> 2 <= num_inputs dc -> 0 < num_outputs dc ->
  rule_genome (num_inputs dc) (num_outputs dc) (map (map Some) g) ->
  exists rules bs, genome_to_rules dc (map (map Some) g) = Ok rules /\ draw_rules xl yl rules [] = (Ok tt, bs) /\
    Forall2 (fun seg b => (r_blue b = true <-> acts_zero (num_inputs dc) seg) /\
      forall x y, within xl x -> within yl y -> (contains b x y <-> satisfies seg x y)) g bs.
Proof.
  intros M N K GG. destruct (proj1 (genome_to_rules_spec dc M K _) GG) as (rules & E & F).
  exists rules. assert (H : exists bs, Forall2 (fun r b => rule_box xl yl r = Ok b) rules bs /\ Forall2 (fun seg b => (r_blue b = true <-> acts_zero (num_inputs dc) seg) /\
      forall x y, within xl x -> within yl y -> (contains b x y <-> satisfies seg x y)) g bs).
  { clear E GG. revert rules F. induction g as [|seg g IH]; intros rules F; inversion F as [|? rl ? rules' (L & LA) F']; subst; [exists []; split; constructor|].
    destruct (IH rules' F') as (bs & B1 & B2). destruct (box_of_genes (num_inputs dc) seg rl xl yl N L) as (b & Eb & Sb); [lia|].
    exists (b :: bs). split; constructor; assumption. }
  destruct H as (bs & B1 & B2). exists bs. split; [exact E|]. split; [apply (boxes_loop xl yl rules bs [] B1)|exact B2].
Qed.

Theorem boxes_spec dc dims xl yl modulo generation (pop : list (pind (list (list gene)))) patches : (modulo <= 1)%Z ->
  dec_memory dc = 0 -> 2 <= num_inputs dc -> 0 < num_outputs dc -> pop <> [] ->
  exists best, best_in mx pop best /\
    forall g, p_genome best = map (map Some) g -> rule_genome (num_inputs dc) (num_outputs dc) (p_genome best) ->
    exists bs, plot_rules_call mx coin dc dims xl yl modulo generation pop patches = (Ok pop, bs) /\
      Forall2 (fun seg b => (r_blue b = true <-> acts_zero (num_inputs dc) seg) /\
        forall x y, within xl x -> within yl y -> (contains b x y <-> satisfies seg x y)) g bs.
Proof.
  intros Mo M N K P. destruct (best_spec pop P) as (best & E & B). exists best. split; [exact B|]. intros g G GG. rewrite G in GG.
  destruct (draw_genome dc g xl yl M N K GG) as (rules & bs & Er & Eb & F). exists bs. split; [|exact F].
  unfold plot_rules_call, plot_rules. destruct (1 <? modulo)%Z eqn:L; [apply Z.ltb_lt in L; lia|]. rewrite E, G, Er, Eb. reflexivity.
Qed.

(** what the picture says about the rule system *)
Lemma satisfies_box x_low x_high y_low y_high rest x y : satisfies (x_low :: x_high :: y_low :: y_high :: rest) x y <->
  box_distance [(x_low, x_high); (y_low, y_high)] [x; y] 0.
Proof.
  assert (H : forall l h v, (h < l \/ l <= v /\ v <= h)%Q <-> gap l h v 0).
  { intros l h v. split.
    - intros [H|H]; [split; [reflexivity|lra]|]. split; [reflexivity|]. intros _. split.
      + exists v. split; [lra|]. split; [lra|]. setoid_replace (v - v)%Q with 0%Q by ring. reflexivity.
      + intros z _ _. apply Qabs_nonneg.
    - intros (_ & H). destruct (Qlt_le_dec h l) as [L|L]; [left; exact L|right]. destruct (H L) as ((z & Z1 & Z2 & Z3) & _).
      assert (v == z)%Q by (destruct (Qabs_case (v - z)) as [A|A]; rewrite A in Z3; lra). lra. }
  cbn [satisfies]. rewrite !H. split.
  - intros (A & B). eapply bd_cons; [exact A| |]; [eapply bd_cons; [exact B|apply bd_nil; reflexivity|reflexivity]|ring].
  - intros D. inversion D as [|? ? ? ? ? dx Dx ? G1 D1 E1]; subst. inversion D1 as [|? ? ? ? ? dy Dy ? G2 D2 E2]; subst.
    inversion D2 as [? ? Z|]; subst. rewrite Z in E2. rewrite E2 in E1.
    assert (S : forall d, (0 <= d * d)%Q).
    { intros d. destruct (Qlt_le_dec d 0) as [L|L]; [|apply Qmult_le_0_compat; assumption]. setoid_replace (d * d)%Q with ((- d) * (- d))%Q by ring. apply Qmult_le_0_compat; lra. }
    assert (Sx : (dx * dx == 0)%Q) by (pose proof (S dx); pose proof (S dy); lra). assert (Sy : (dy * dy == 0)%Q) by (pose proof (S dx); pose proof (S dy); lra).
    assert (T : forall d, (d * d == 0)%Q -> (d == 0)%Q).
    { intros d Hd. destruct (Qmult_integral _ _ Hd); assumption. }
    assert (R : forall l h v d, (d == 0)%Q -> gap l h v d -> gap l h v 0).
    { intros l h v d Hd (A & B). split; [reflexivity|]. intros L. destruct (B L) as ((z & Z1 & Z2 & Z3) & B2). split.
      - exists z. rewrite <- Hd. auto.
      - intros w W1 W2. rewrite <- Hd. auto. }
    split; [eapply R; [apply T, Sx|exact G1]|eapply R; [apply T, Sy|exact G2]].
Qed.

Definition seg_box (seg : list Q) : list (Q * Q) :=
  match seg with a :: b :: c :: d :: _ => [(a, b); (c, d)] | _ => [] end.

Theorem predicts dc g w seg x y d : dec_memory dc = 0 -> num_inputs dc = 2 -> num_outputs dc = 1 ->
  (dec_metric dc = None \/ dec_metric dc = Some RULE_ORDER) ->
  rule_genome 2 1 (map (map Some) g) -> Forall (Forall small) g ->
  nth_error g w = Some seg -> satisfies seg x y -> (forall i s, i < w -> nth_error g i = Some s -> ~ satisfies s x y) ->
  exists e z, decode dc (map (map Some) g) = Ok e /\ call e [Some x; Some y] d = Ok (One z) /\ (z = 0%Z <-> acts_zero 2 seg).
Proof.
  intros M N K Me GG SM W Sat First.
  assert (K0 : 0 < num_outputs dc) by lia. rewrite <- N, <- K in GG at 1.
  destruct (proj1 (genome_to_rules_spec dc M K0 _) GG) as (rules & Er & F). rewrite N, K in *.
  assert (RN : rules <> []) by (destruct GG as (G0 & _); inversion F; subst; [congruence|discriminate]).
  assert (BX : boxes_of 2 1 rules (map seg_box g)).
  { destruct GG as (_ & GG). clear -F GG. revert rules F. induction g as [|s g IH]; intros rules F; inversion F as [|? rl ? rules' ((LC & LS & C & A) & LA) F']; subst; [constructor|].
    inversion GG as [|? ? L GG']; subst. cbn [map]. constructor; [|apply IH; assumption]. rewrite map_length in L.
    destruct s as [|s0 [|s1 [|s2 [|s3 s]]]]; try (cbn in L; lia). split; [|split; [cbn; lia|exact LA]].
    destruct (conditions rl) as [|[c0 c1] [|[c2 c3] [|]]]; try (cbn in LC; lia).
    destruct (C 0 c0 c1 eq_refl) as (C1 & C2). destruct (C 1 c2 c3 eq_refl) as (C3 & C4). cbn in C1, C2, C3, C4. injection C1 as <-. injection C2 as <-. injection C3 as <-. injection C4 as <-. reflexivity. }
  assert (EM : exists e, make_executable 1 rules (Some RULE_ORDER) [] = Ok e).
  { unfold make_executable. destruct rules; [contradiction|]. rewrite priorities_seq. eexists. reflexivity. }
  destruct EM as (e & EM). destruct (call_nearest rules (map seg_box g) 1 e [x; y] d (le_n 1) EM BX) as (w' & rl & D & out & Rw & (NB & ND) & EC & PR & MinI).
  assert (SB : forall i s, nth_error g i = Some s -> satisfies s x y <-> box_distance (seg_box s) [x; y] 0).
  { intros i s Hs. apply nth_error_In in Hs. destruct GG as (_ & GG). apply (in_map (map Some)) in Hs. rewrite Forall_forall in GG. apply GG in Hs. rewrite map_length in Hs.
    destruct s as [|s0 [|s1 [|s2 [|s3 s]]]]; try (cbn in Hs; lia). apply satisfies_box. }
  assert (BW : nth_error (map seg_box g) w = Some (seg_box seg)) by (rewrite nth_error_map, W; reflexivity).
  assert (D0 : (D == 0)%Q).
  { apply Qle_antisym; [exact (ND w (seg_box seg) 0%Q BW (proj1 (SB w seg W) Sat))|]. destruct NB as (box & _ & NB). exact (box_distance_nonneg _ _ _ NB). }
  assert (WW : w' = w).
  { assert (w' <= w).
    { apply (MinI D0 w 0%Q). split; [exists (seg_box seg); split; [exact BW|apply (SB w seg W); exact Sat]|]. intros i box E _ Hb. exact (box_distance_nonneg _ _ _ Hb). }
    destruct (Nat.eq_dec w' w) as [|NE]; [assumption|exfalso]. destruct NB as (box & Hb1 & Hb2). rewrite nth_error_map in Hb1.
    destruct (nth_error g w') as [s|] eqn:Hs; [|discriminate]. injection Hb1 as <-. apply (First w' s); [lia|exact Hs|]. apply (SB w' s Hs). exact (box_distance_eq _ _ _ _ D0 Hb2). }
  subst w'.
  assert (LO : lays_out 2 (map Some seg) rl /\ length (actions rl) = 1).
  { clear -F W Rw. revert g rules F W Rw. induction w as [|w IH]; intros g rules F W Rw; destruct g as [|s g]; try discriminate; destruct rules as [|r rules]; try discriminate;
      inversion F as [|? ? ? ? F1 F2]; subst; [injection W as ->; injection Rw as ->; exact F1|exact (IH g rules F2 W Rw)]. }
  destruct LO as ((LC & LS & C & A) & LA). destruct (actions rl) as [|a acts] eqn:EA; [discriminate|]. destruct acts; [|discriminate].
  pose proof (A 0) as A0. cbn [nth_error] in A0. rewrite nth_error_map in A0. change (2 * 2 + 0) with 4 in A0.
  destruct (nth_error seg 4) as [q|] eqn:Q4; [|discriminate]. injection A0 as ->.
  destruct (PR [q] eq_refl) as (zs & RZ & O).
  { constructor; [|constructor]. apply nth_error_In in W. rewrite Forall_forall in SM. apply SM in W. rewrite Forall_forall in W. apply W. eapply nth_error_In. exact Q4. }
  destruct O as [(O1 & _) | (z & -> & ->)]; [inversion RZ as [|? ? ? ? _ RZ']; subst; inversion RZ'; subst; cbn in O1; lia|].
  inversion RZ as [|? ? ? ? R1 _]; subst. exists e, z. split; [|split; [exact EC|]].
  - unfold decode. rewrite Er. cbn [bind]. rewrite K. destruct Me as [-> | ->]; exact EM.
  - unfold acts_zero. split.
    + intros ->. exists q. split; [exact Q4|exact R1].
    + intros (a & Ha & Ra). change (2 * 2) with 4 in Ha. assert (a = q) by congruence. subst a. exact (rounded_unique q _ _ R1 Ra).
Qed.

Lemma Forall2_nth_l {A B} (R : A -> B -> Prop) l m i a : Forall2 R l m -> nth_error l i = Some a -> exists b, nth_error m i = Some b /\ R a b.
Proof.
  intros F. revert i. induction F as [|x y l m H _ IH]; intros i E; destruct i; try discriminate; [injection E as <-; exists y; split; [reflexivity|exact H]|exact (IH i E)].
Qed.
Lemma Forall2_nth_r {A B} (R : A -> B -> Prop) l m i b : Forall2 R l m -> nth_error m i = Some b -> exists a, nth_error l i = Some a /\ R a b.
Proof.
  intros F. revert i. induction F as [|x y l m H _ IH]; intros i E; destruct i; try discriminate; [injection E as <-; exists x; split; [reflexivity|exact H]|exact (IH i E)].
Qed.
Theorem picture_predicts dc dims xl yl modulo generation (pop : list (pind (list (list gene)))) patches : (modulo <= 1)%Z ->
  dec_memory dc = 0 -> num_inputs dc = 2 -> num_outputs dc = 1 -> (dec_metric dc = None \/ dec_metric dc = Some RULE_ORDER) -> pop <> [] ->
  exists best, best_in mx pop best /\
    forall g, p_genome best = map (map Some) g -> rule_genome 2 1 (p_genome best) -> Forall (Forall small) g ->
    exists bs e, plot_rules_call mx coin dc dims xl yl modulo generation pop patches = (Ok pop, bs) /\ decode dc (p_genome best) = Ok e /\
      forall x y w b, within xl x -> within yl y -> nth_error bs w = Some b -> contains b x y ->
        (forall i b', i < w -> nth_error bs i = Some b' -> ~ contains b' x y) ->
        forall d, exists z, call e [Some x; Some y] d = Ok (One z) /\ (z = 0%Z <-> r_blue b = true).
Proof.
  intros Mo M N K Me P. destruct (boxes_spec dc dims xl yl modulo generation pop patches Mo M) as (best & B & H); [lia|lia|exact P|].
  exists best. split; [exact B|]. intros g G GG SM. rewrite N, K in H. destruct (H g G GG) as (bs & E & F).
  assert (ED : exists e, decode dc (p_genome best) = Ok e).
  { unfold decode. assert (K0 : 0 < num_outputs dc) by lia. assert (GG' := GG). rewrite <- N, <- K in GG' at 1.
    destruct (proj1 (genome_to_rules_spec dc M K0 _) GG') as (rules & -> & Fr). cbn [bind]. unfold make_executable.
    destruct rules; [inversion Fr as [Z|]; destruct GG as (GG & _); congruence|].
    assert (Em : Some (match dec_metric dc with Some m => m | None => RULE_ORDER end) = Some RULE_ORDER) by (destruct Me as [-> | ->]; reflexivity).
    rewrite Em, priorities_seq. eexists. reflexivity. }
  destruct ED as (e & ED). exists bs, e. split; [exact E|]. split; [exact ED|].
  intros x y w b X Y W C First d. destruct (Forall2_nth_r _ _ _ _ _ F W) as (seg & Hs & Hc & Hb).
  destruct (predicts dc g w seg x y d M N K Me) as (e' & z & E1 & E2 & E3); [rewrite <- G; exact GG|exact SM|exact Hs|apply (Hb x y X Y); exact C| |].
  - intros i s L Hi S. destruct (Forall2_nth_l _ _ _ _ _ F Hi) as (b' & Hb' & _ & Hbs). apply (First i b' L Hb'). apply (Hbs x y X Y). exact S.
  - exists z. assert (e' = e). { rewrite G in ED. assert (Ok e' = Ok e) by (rewrite <- E1, <- ED; reflexivity). congruence. } subst e'.
    split; [exact E2|]. rewrite E3, Hc. reflexivity.
Qed.

(** failures *)
Theorem rules_failures dc dims xl yl modulo generation (pop : list (pind (list (list gene)))) patches : let call := plot_rules_call mx coin dc dims xl yl modulo generation pop patches in
  ((1 < modulo)%Z -> call = (Err NameError, patches)) /\
  ((modulo <= 1)%Z ->
    (pop = [] -> call = (Err ValueError, [])) /\
    (dec_memory dc = 0 -> 0 < num_outputs dc -> num_inputs dc < 2 -> pop <> [] -> (forall i, In i pop -> rule_genome (num_inputs dc) (num_outputs dc) (p_genome i)) -> call = (Err ValueError, [])) /\
    (dec_memory dc = 0 -> 0 < num_outputs dc -> pop <> [] -> (forall i, In i pop -> ~ rule_genome (num_inputs dc) (num_outputs dc) (p_genome i)) -> call = (Err AssertionError, []))).
Proof.
  intros call. subst call. unfold plot_rules_call, plot_rules. split; [intros M; apply Z.ltb_lt in M; rewrite M; reflexivity|].
  intros M. destruct (1 <? modulo)%Z eqn:L; [apply Z.ltb_lt in L; lia|]. split; [|split].
  - intros ->. reflexivity.
  - intros Me K N P G. destruct (best_spec pop P) as (best & -> & B & _). specialize (G best B).
    destruct (proj1 (genome_to_rules_spec dc Me K _) G) as (rules & -> & F). destruct G as (G & _). inversion F as [|seg rl ? ? ((LC & _) & _) _]; subst; [congruence|].
    cbn [draw_rules]. unfold rule_box. destruct (conditions rl) as [|c0 [|c1 cs]]; try reflexivity. cbn in LC. lia.
  - intros Me K P G. destruct (best_spec pop P) as (best & -> & B & _). specialize (G best B).
    rewrite (proj2 (genome_to_rules_spec dc Me K _) G). reflexivity.
Qed.

(** ** graphs *)
Theorem graph_drawn decode modulo weights m generation pop shown a b r : (0 < modulo)%Z -> (generation mod modulo = 0)%Z -> pop <> [] ->
  exists best, best_in mx pop best /\
    forall net, decode (p_genome best) = Ok net -> fits (a :: b :: r) net ->
    exists d, graph_call mx coin decode modulo weights m generation pop shown = (Ok pop, Some d) /\
      NoDup (dr_nodes d) /\ (forall n, In n (dr_nodes d) <-> network_nodes (S (length r)) (a :: b :: r) n) /\
      (weights = false -> dr_widths d = None) /\
      (weights = true -> exists ws, dr_widths d = Some ws /\ length ws = length (dr_edges d) /\
        ws = map (fun w => m * w)%Q (all_weights net) /\
        forall e s t v, nth_error (dr_edges d) e = Some (s, t) -> nth_error ws e = Some v ->
          exists l mt i j row u w, v = (m * w)%Q /\ nth_error net l = Some mt /\ nth_error mt i = Some row /\ nth_error row j = Some w /\
            nth_error (a :: b :: r) l = Some u /\ s = row_node (S (length r)) l u i /\ t = unit_node (S (length r)) (S l) j) /\
      length (dr_edges d) = length (all_weights net) /\
      forall s t, In (s, t) (dr_edges d) <-> exists l mt i j row u w, nth_error net l = Some mt /\ nth_error mt i = Some row /\ nth_error row j = Some w /\
        nth_error (a :: b :: r) l = Some u /\ s = row_node (S (length r)) l u i /\ t = unit_node (S (length r)) (S l) j.
Proof.
  intros Mo Ge P. destruct (best_spec pop P) as (best & E & B). exists best. split; [exact B|]. intros net En Fn.
  destruct (graph_spec a b r net Fn) as (ns & es & Eg & N1 & N2 & N3 & N4).
  unfold graph_call. rewrite (proj2 (Z.eqb_eq _ _) Ge), E, En. cbn [bind]. rewrite Eg. eexists. split; [reflexivity|]. cbn [dr_nodes dr_edges dr_widths].
  split; [exact N1|]. split; [exact N2|]. split; [intros ->; reflexivity|]. split.
  - intros ->. eexists. split; [reflexivity|]. rewrite !map_length. split; [reflexivity|]. split; [rewrite <- N3, map_map; reflexivity|].
    intros e s t v He Hv. rewrite nth_error_map in He, Hv. destruct (nth_error es e) as [[[s' t'] w]|] eqn:N; [|discriminate]. cbn in He, Hv.
    injection He as -> ->. injection Hv as <-. apply nth_error_In in N. apply N4 in N. destruct N as (l & mt & i & j & row & u & H).
    exists l, mt, i, j, row, u, w. split; [reflexivity|exact H].
  - rewrite map_length, <- N3, map_length. split; [reflexivity|]. intros s t. split.
    + intros H. apply in_map_iff in H. destruct H as ([[s' t'] w] & H1 & H2). cbn in H1. injection H1 as -> ->. apply N4 in H2.
      destruct H2 as (l & mt & i & j & row & u & H). exists l, mt, i, j, row, u, w. exact H.
    + intros (l & mt & i & j & row & u & w & H). apply in_map_iff. exists (s, t, w). split; [reflexivity|]. apply N4. exists l, mt, i, j, row, u. exact H.
Qed.
Theorem graph_other decode modulo weights m generation pop shown : (0 < modulo)%Z ->
  ((generation mod modulo <> 0)%Z -> graph_call mx coin decode modulo weights m generation pop shown = (Ok pop, shown)) /\
  ((generation mod modulo = 0)%Z -> pop = [] -> graph_call mx coin decode modulo weights m generation pop shown = (Err ValueError, shown)) /\
  ((generation mod modulo = 0)%Z -> pop <> [] -> exists best, best_in mx pop best /\ forall e, decode (p_genome best) = Err e ->
     graph_call mx coin decode modulo weights m generation pop shown = (Err e, shown)).
Proof.
  intros Mo. unfold graph_call. split; [|split].
  - intros H. apply Z.eqb_neq in H. rewrite H. reflexivity.
  - intros H ->. apply Z.eqb_eq in H. rewrite H. reflexivity.
  - intros H P. apply Z.eqb_eq in H. rewrite H. destruct (best_spec pop P) as (best & E & B). exists best. split; [exact B|]. intros e Ee. rewrite E, Ee. reflexivity.
Qed.
End Best.
