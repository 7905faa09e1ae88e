From Coq Require Import Lia Permutation Lqa Qabs Qfield.
From Verif Require Import Model.Base Model.Scalar Model.Variation Model.Heap Model.Pipeline Model.Executable Model.Transfer Model.HeapEa
  Spec.Order Spec.Variation Spec.Heap Spec.HeapEa Spec.Executable Spec.HeapRuns
  Proofs.Order Proofs.Variation Proofs.Executable Proofs.HeapEa.
From Verif Require Model.Cgp Spec.Cgp Proofs.CgpDecode Proofs.CgpProps.

(** ** operators that neither leave a set nor raise on it *)
Section Safe.
Context {G : Type}.
Variable D : list G -> Prop.

Definition safe (o : op G) : Prop := is_source o = false /\ stays_within D o /\ works_on D o.

Lemma mutate_safe f q : (forall k g, D g -> exists ip fr, f k g = Ok (ip, fr) /\ D (match fr with Some h => h | None => ip end)) ->
  safe (OpMutate f q).
Proof.
  intros H. split; [reflexivity|]. split.
  - intros k g ip fr Hg E. destruct (H k g Hg) as (ip' & fr' & E' & HD). rewrite E in E'. injection E' as <- <-. exact HD.
  - intros k g Hg. destruct (H k g Hg) as (ip' & fr' & E' & _). eauto.
Qed.
Lemma xover_safe skip f fresh : (forall k a b, D a -> D b -> exists c d, f k a b = Ok (c, d) /\ D c /\ D d) ->
  safe (OpXover skip f fresh).
Proof.
  intros H. split; [reflexivity|]. split.
  - intros k a b c d Ha Hb E. destruct (H k a b Ha Hb) as (c' & d' & E' & HD). rewrite E in E'. injection E' as <- <-. exact HD.
  - intros k a b Ha Hb. destruct (H k a b Ha Hb) as (c' & d' & E' & _). eauto.
Qed.

Lemma breeds_safe (variation : op G -> Prop) ops : (forall o, variation o -> safe o) -> breeds_with variation ops ->
  (clone_vary_evaluate ops /\ Forall (stays_within D) ops) /\ Forall (works_on D) ops.
Proof.
  intros H (between & -> & HF).
  assert (HS : Forall safe between) by (rewrite Forall_forall in *; auto).
  split; [split|].
  - exists between. split; auto. eapply Forall_impl; [|exact HS]. intros o (A & _). exact A.
  - constructor; [exact I|]. apply Forall_app. split; [|repeat constructor].
    eapply Forall_impl; [|exact HS]. intros o (_ & A & _). exact A.
  - constructor; [exact I|]. apply Forall_app. split; [|repeat constructor].
    eapply Forall_impl; [|exact HS]. intros o (_ & _ & A). exact A.
Qed.

(** a crossover keeps every gene at its place, hence within the bounds of that place *)
Context {B : Type}.
Variable R : G -> B -> Prop.
Variable bs : list B.
Definition box (g : list G) : Prop := Forall2 R g bs.

Lemma F2_nth (X Y : Type) (T : X -> Y -> Prop) l m : Forall2 T l m <->
  length l = length m /\ forall i x y, nth_error l i = Some x -> nth_error m i = Some y -> T x y.
Proof.
  split.
  - intros H. induction H as [|x y l m Hx Hl [IH1 IH2]]; (split; [cbn; congruence|]).
    + intros [|i]; discriminate.
    + intros [|i] a b; cbn; [intros [= <-] [= <-]; auto|eauto].
  - revert m. induction l as [|x l IH]; intros [|y m] [HL H]; try discriminate; constructor.
    + apply (H 0); reflexivity.
    + apply IH. split; [cbn in HL; congruence|]. intros i a b. apply (H (S i)).
Qed.

Lemma exchanged_box sw a b a' b' : exchanged sw a b a' b' -> box a -> box b -> box a' /\ box b'.
Proof.
  unfold box. intros (L1 & L2 & H) Ha Hb. apply F2_nth in Ha, Hb. destruct Ha as [La Ha], Hb as [Lb Hb].
  split; apply F2_nth; (split; [congruence|]); intros i x y Ex Ey.
  - destruct (nth_error a i) as [u|] eqn:Eu; [|apply nth_error_None in Eu; assert (i < length a') by (apply nth_error_Some; congruence); lia].
    destruct (nth_error b i) as [v|] eqn:Ev; [|apply nth_error_None in Ev; assert (i < length a') by (apply nth_error_Some; congruence); lia].
    destruct (H i u v Eu Ev) as [E1 _]. rewrite Ex in E1. injection E1 as ->. destruct (sw i); eauto.
  - destruct (nth_error a i) as [u|] eqn:Eu; [|apply nth_error_None in Eu; assert (i < length b') by (apply nth_error_Some; congruence); lia].
    destruct (nth_error b i) as [v|] eqn:Ev; [|apply nth_error_None in Ev; assert (i < length b') by (apply nth_error_Some; congruence); lia].
    destruct (H i u v Eu Ev) as [_ E1]. rewrite Ex in E1. injection E1 as ->. destruct (sw i); eauto.
Qed.

Lemma box_length g : box g -> length g = length bs.
Proof. intros H. apply F2_nth in H. apply H. Qed.
End Safe.

Lemma crossing_safe {G B} (R : G -> B -> Prop) (bs : list B) (o : op G) : crossing (length bs) o -> safe (box R bs) o.
Proof.
  intros H. destruct H as [skip masks HL|skip n draws Hn HL]; apply xover_safe; intros k a b Ha Hb;
    pose proof (box_length R bs a Ha) as La; pose proof (box_length R bs b Hb) as Lb.
  - destruct (uniform_exchanged (masks k) a b) as (c & d & E & HX); [rewrite HL; auto..|].
    exists c, d. split; auto. eapply exchanged_box; eauto.
  - destruct (HL k) as [H1 H2].
    destruct (nary_exchanged n (draws k) a b) as (c & d & E & HX); auto; try congruence.
    { rewrite La. exact H2. }
    exists c, d. split; auto. eapply exchanged_box; eauto.
Qed.

(** ** rates *)
Lemma per_gene_ok expected n : n <> 0 -> (0 <= expected)%Q -> (expected <= inject_Z (Z.of_nat n))%Q ->
  (0 <= per_gene expected n)%Q /\ (per_gene expected n <= 1)%Q /\ (per_gene expected n * inject_Z (Z.of_nat n) == expected)%Q.
Proof.
  intros Hn H0 H1. unfold per_gene.
  assert (Hq : (0 < inject_Z (Z.of_nat n))%Q) by (unfold Qlt; cbn; lia).
  split; [apply Qle_shift_div_l; auto; lra|]. split; [apply Qle_shift_div_r; auto; lra|]. field. lra.
Qed.
Lemma per_gene_rate expected n : n <> 0 -> (0 <= expected)%Q -> (expected <= inject_Z (Z.of_nat n))%Q ->
  rate_is (Some expected) None n (per_gene expected n).
Proof. intros Hn H0 H1. right. exists expected. repeat split; auto. apply per_gene_ok; auto. Qed.

Lemma select_length {G} p : forall us (g : list G), length us = length g ->
  length (select_mask (map (fun u => Qltb u p) us) g) = selected_before us p (length g).
Proof.
  induction us as [|u us IH]; intros [|x g] H; try discriminate; [reflexivity|]. cbn in H |- *.
  unfold selected_before. cbn [length firstn filter].
  destruct (Qltb u p) eqn:E; destruct (Qlt_le_dec u p) as [C|C].
  - cbn [length]. f_equal. apply IH. lia.
  - apply Qltb_lt in E. lra.
  - apply Qltb_lt in C. congruence.
  - apply IH. lia.
Qed.

(** ** integer genomes *)
Lemma int_box_bounds bs g : int_box bs g <-> length g = length bs /\ in_bounds Z.le (BEach bs) g.
Proof. exact (CgpProps.within_in_bounds g bs). Qed.

Lemma int_variation_safe bs o : 1 <= length bs -> Forall (fun b => fst b <= snd b)%Z bs -> int_variation bs o -> safe (int_box bs) o.
Proof.
  intros Hn HB H. destruct H as [o H|expected us ds H0 H1 HL|expected us ks fls H0 H1 HL].
  - exact (crossing_safe _ bs o H).
  - apply mutate_safe. intros k g Hg. apply int_box_bounds in Hg. destruct Hg as [Lg Hg]. destruct (HL k) as [L1 L2].
    destruct (randint_in_bounds bs (Some expected) None (us k) (ds k) g (per_gene expected (length bs))) as (g' & E & Hb & [Lg' _]); auto; try congruence; try lia.
    + rewrite Lg. apply per_gene_rate; auto; lia.
    + apply per_gene_ok; auto; lia.
    + apply per_gene_ok; auto; lia.
    + rewrite E. cbn [bind]. eexists _, _. split; [reflexivity|]. apply int_box_bounds. split; [congruence|auto].
  - apply mutate_safe. intros k g Hg. apply int_box_bounds in Hg. destruct Hg as [Lg Hg]. destruct (HL k) as (L1 & L2 & L3).
    destruct (binomial_in_bounds (BEach bs) (Some expected) None (us k) (ks k) (fls k) g (per_gene expected (length bs)))
      as (ip & g' & E & Hb & [Lg' _]); auto; try congruence.
    + rewrite select_length by congruence. rewrite Lg. exact L2.
    + rewrite Lg. apply per_gene_rate; auto; lia.
    + apply per_gene_ok; auto; lia.
    + apply per_gene_ok; auto; lia.
    + intros i low high Ei. cbn in Ei. rewrite Forall_forall in HB. apply (HB (low, high)). eapply nth_error_In; eauto.
    + rewrite E. cbn [bind]. eexists _, _. split; [reflexivity|]. apply int_box_bounds. split; [congruence|auto].
Qed.

Lemma created_int_box bs ds g : Forall (fun b => fst b <= snd b)%Z bs -> length bs <= length ds ->
  Cgp.create_int_vector bs ds = Ok g -> int_box bs g.
Proof.
  intros HB HL E. destruct (randint_genes_spec bs ds HL HB) as (g' & E' & F). unfold Cgp.create_int_vector in E. rewrite E in E'.
  injection E' as <-. unfold int_box. clear -F. induction F; constructor; auto.
Qed.

(** ** real genomes *)
Lemma real_variation_safe bs o : 1 <= length bs -> Forall (fun b => fst b <= snd b)%Q bs -> real_variation bs o -> safe (real_box bs) o.
Proof.
  intros Hn HB H. destruct H as [o H|stds expected slope intercept us noise p Hs Hp HL].
  - exact (crossing_safe _ bs o H).
  - apply mutate_safe. intros k g Hg. pose proof (box_length _ _ g Hg) as Lg. destruct (HL k) as [L1 L2].
    set (b := BEach (map (fun b => (Fin (fst b), Fin (snd b))) bs)).
    assert (Hp2 : (0 <= p)%Q /\ (p <= 1)%Q /\
      match expected with None => p == 1 | Some e => length g <> 0%nat /\ p * inject_Z (Z.of_nat (length g)) == e end%Q).
    { destruct expected as [e|].
      - destruct Hp as (H0 & H1 & ->). destruct (per_gene_ok e (length bs)) as (A & B & C); auto; [lia|].
        rewrite Lg. repeat split; auto. lia.
      - subst p. repeat split; lra. }
    destruct Hp2 as (P0 & P1 & P2).
    assert (Hbnd : forall i low high, bound_at b i = Some (low, high) -> ext_le low high).
    { intros i low high Ei. unfold b in Ei. cbn in Ei. rewrite nth_error_map in Ei.
      destruct (nth_error bs i) as [[l h]|] eqn:E; [|discriminate]. cbn in Ei. injection Ei as <- <-. cbn.
      rewrite Forall_forall in HB. apply (HB (l, h)). eapply nth_error_In; eauto. }
    destruct (gaussian_in_bounds stds expected b slope intercept (us k) (noise k) g p) as (ip & g' & E & Hb & [Lg' _]); auto; try congruence.
    + unfold b. cbn. rewrite map_length. congruence.
    + rewrite select_length by congruence. rewrite Lg. exact L2.
    + destruct stds; [auto|congruence].
    + rewrite E. cbn [bind].
      assert (HF : exists q, finite_genes g' = Ok q /\ real_box bs q).
      { assert (Lb : length g' = length bs) by congruence. clear -Hb Lb. unfold b in Hb. clear b. revert bs Hb Lb.
        induction g' as [|x g' IH]; intros [|[l h] bs] Hb Lb; try discriminate.
        - exists []. split; [reflexivity|constructor].
        - destruct (IH bs) as (q & Eq & Hq).
          + intros i y Hy. apply (Hb (S i) y Hy).
          + cbn in Lb. lia.
          + destruct (Hb 0 x eq_refl) as (low & high & Eb & H1 & H2). cbn in Eb. injection Eb as <- <-.
            destruct x as [|x|]; cbn in H1, H2; try contradiction.
            exists (x :: q). cbn [finite_genes]. rewrite Eq. split; [reflexivity|]. constructor; auto. }
      destruct HF as (q & Eq & Hq). rewrite Eq. cbn [bind]. eexists _, _. split; [reflexivity|]. exact Hq.
Qed.

Lemma created_real_box : forall bs us, Forall (fun b => fst b <= snd b)%Q bs -> length us = length bs ->
  Forall (fun u => 0 <= u /\ u < 1)%Q us -> real_box bs (create_real_vector bs us).
Proof.
  induction bs as [|[l h] bs IH]; intros [|u us] HB HL HU; try discriminate; [constructor|].
  pose proof (Forall_inv HB) as Hb. pose proof (Forall_inv HU) as Hu. cbn in Hb.
  constructor; [|apply IH; [eapply Forall_inv_tail; eauto|cbn in HL; lia|eapply Forall_inv_tail; eauto]].
  destruct Hu as [Hu1 Hu2]. cbn [fst snd].
  assert (A : (0 <= (h - l) * u)%Q) by (apply Qmult_le_0_compat; lra).
  assert (B : (0 <= (h - l) * (1 - u))%Q) by (apply Qmult_le_0_compat; lra).
  split; lra.
Qed.

(** ** runs *)
Section BoxRun.
Context {G P : Type}.
Variable decoder_of : nat -> option (list G -> result P).
Variable problem_of : nat -> phen_value G P -> result num.
Variable D : list G -> Prop.
Variable variation : nat -> op G -> Prop.
Hypothesis Hv : forall i o, variation i o -> safe D o.

Lemma safe_run problem decoder robust maximize coin k_elites max_generations size operators pick stop
    initialize pop_size start (w : world G P num) :
  (forall i, breeds_with (variation i) (operators i)) ->
  robust = true \/ (forall g, D g -> exists f, score (decoder_of decoder) (problem_of problem) g = Ok f) ->
  (forall i w l k, l <> [] -> pick i w l k < length l) ->
  (forall k, D (initialize k)) -> 1 <= pop_size -> 1 <= size ->
  exists final w' earlier gc',
    heap_ea decoder_of problem_of maximize coin max_generations k_elites size operators pick stop
      initialize problem decoder robust pop_size start w = Some (Ok (final, w', earlier), gc') /\
    ((forall i w l, stop i w l = false) -> length earlier = Z.to_nat (max_generations - start)) /\
    forall p i, In p (earlier ++ [final]) -> In i p -> D (genes w' i) /\
      i_fitness (w_ind w' i) = Some (outcome NNan (score (decoder_of decoder) (problem_of problem) (genes w' i))).
Proof.
  intros Ho Hsc Hpk Hi Hp Hs.
  assert (Hops : forall i, clone_vary_evaluate (operators i) /\ Forall (stays_within D) (operators i)).
  { intros i. destruct (breeds_safe D (variation i) (operators i) (Hv i) (Ho i)) as [A B]. auto. }
  assert (Hwk : forall i, Forall (works_on D) (operators i)).
  { intros i. destruct (breeds_safe D (variation i) (operators i) (Hv i) (Ho i)) as [A B]. auto. }
  destruct (run_works decoder_of problem_of D problem decoder robust maximize coin k_elites max_generations size operators
              pick stop Hops Hsc Hwk Hpk initialize pop_size start w Hi Hp Hs) as (final & w' & earlier & gc' & E & HN).
  exists final, w', earlier, gc'. split; [exact E|]. split; [exact HN|]. intros p i Hin Hip.
  apply (run_good decoder_of problem_of D problem decoder robust maximize coin k_elites max_generations size operators pick stop Hops) in E; auto.
  cbn zeta in E. destruct E as (_ & _ & _ & _ & E). destruct (E p Hin) as (_ & _ & F). destruct (F i Hip) as (A & _ & _ & B). auto.
Qed.
End BoxRun.

Lemma int_run {P} (decoder_of : nat -> option (list Z -> result P)) (problem_of : nat -> phen_value Z P -> result num)
    bs ds problem decoder robust maximize coin k_elites max_generations size operators pick stop initialize pop_size start
    (w : world Z P num) :
  1 <= length bs -> Forall (fun b => fst b <= snd b)%Z bs ->
  (forall i, breeds_with (int_variation bs) (operators i)) ->
  robust = true \/ (forall g, int_box bs g -> exists f, score (decoder_of decoder) (problem_of problem) g = Ok f) ->
  (forall i w l k, l <> [] -> pick i w l k < length l) ->
  (forall k, length bs <= length (ds k) /\ Cgp.create_int_vector bs (ds k) = Ok (initialize k)) -> 1 <= pop_size -> 1 <= size ->
  exists final w' earlier gc',
    heap_ea decoder_of problem_of maximize coin max_generations k_elites size operators pick stop
      initialize problem decoder robust pop_size start w = Some (Ok (final, w', earlier), gc') /\
    ((forall i w l, stop i w l = false) -> length earlier = Z.to_nat (max_generations - start)) /\
    forall p i, In p (earlier ++ [final]) -> In i p -> int_box bs (genes w' i) /\
      i_fitness (w_ind w' i) = Some (outcome NNan (score (decoder_of decoder) (problem_of problem) (genes w' i))).
Proof.
  intros Hn HB Ho Hsc Hpk Hi. apply (safe_run decoder_of problem_of (int_box bs) (fun _ => int_variation bs)); auto.
  - intros _ o. apply int_variation_safe; auto.
  - intros k. destruct (Hi k) as [HL E]. eapply created_int_box; eauto.
Qed.

Lemma real_run {P} (decoder_of : nat -> option (list Q -> result P)) (problem_of : nat -> phen_value Q P -> result num)
    bs us problem decoder robust maximize coin k_elites max_generations size operators pick stop pop_size start
    (w : world Q P num) :
  1 <= length bs -> Forall (fun b => fst b <= snd b)%Q bs ->
  (forall i, breeds_with (real_variation bs) (operators i)) ->
  robust = true \/ (forall g, real_box bs g -> exists f, score (decoder_of decoder) (problem_of problem) g = Ok f) ->
  (forall i w l k, l <> [] -> pick i w l k < length l) ->
  (forall k, length (us k) = length bs /\ unit_draws (us k)) -> 1 <= pop_size -> 1 <= size ->
  exists final w' earlier gc',
    heap_ea decoder_of problem_of maximize coin max_generations k_elites size operators pick stop
      (fun k => create_real_vector bs (us k)) problem decoder robust pop_size start w = Some (Ok (final, w', earlier), gc') /\
    ((forall i w l, stop i w l = false) -> length earlier = Z.to_nat (max_generations - start)) /\
    forall p i, In p (earlier ++ [final]) -> In i p -> real_box bs (genes w' i) /\
      i_fitness (w_ind w' i) = Some (outcome NNan (score (decoder_of decoder) (problem_of problem) (genes w' i))).
Proof.
  intros Hn HB Ho Hsc Hpk Hu. apply (safe_run decoder_of problem_of (real_box bs) (fun _ => real_variation bs)); auto.
  - intros _ o. apply real_variation_safe; auto.
  - intros k. destruct (Hu k) as [HL HF]. apply created_real_box; auto.
Qed.

(** ** truth tables solved by cartesian genetic programming *)
Section Cgp.
Import Verif.Model.Cgp.
Variable d : decoder Z.
Hypothesis Hd : Spec.Cgp.proper d.
Hypothesis Hback : (1 <= c_back d)%Z.
Hypothesis Hprims : forall p, In p (c_prims d) -> forall args, exists v, p_call p args = Ok v.
Variable prune : bool.
Variable left : graph Z -> list Z -> Z -> option Z.
Variable function : list Z -> result (list Z).
Variable pad : bool.
Variable n : nat.
Hypothesis Hn : 0 < n.
Hypothesis Hfit : if pad then n <= c_inputs d else n = c_inputs d.
Hypothesis Hfun : forall i, bit_vector n i -> exists e, function i = Ok e /\ e <> [].
Notation tt_score g := (score (cgp_decoder d prune 0) (truth_table_problem (c_inputs d) (c_outputs d) left function pad n 0) g).
Notation problem := (truth_table_problem (c_inputs d) (c_outputs d) left function pad n).

Lemma filled_length i : bit_vector n i -> length (filled pad (c_inputs d) i) = c_inputs d.
Proof.
  intros [L _]. unfold filled. destruct pad; [rewrite app_length, repeat_length|]; lia.
Qed.

Lemma solves_score g k : solves d function pad n g k ->
  exists q, tt_score g = Ok (NFlt true (Fin q)) /\ (q == inject_Z (Z.of_nat k) / inject_Z (Z.of_nat (2 ^ n)))%Q.
Proof.
  intros (nodes & outs & prog & ok & Hl & Hf & Hp & Hnd & Hk & Hok).
  destruct (CgpProps.decode_ok d Hd prune g nodes outs prog Hl Hf Hp) as (gr & E & _).
  assert (HR : forall i, bit_vector n i -> exists vs,
    bind (call gr (c_inputs d) (c_outputs d) (left gr (filled pad (c_inputs d) i)) (filled pad (c_inputs d) i)) (fun '(_, vs) => Ok vs) = Ok vs /\
    (forall vs', Forall2 (Spec.Cgp.value (c_inputs d) prog (filled pad (c_inputs d) i)) outs vs' <-> vs' = vs)).
  { intros i Hi. pose proof (filled_length i Hi) as HL.
    destruct (CgpProps.total_same d g nodes outs prog _ Hd Hl Hf Hp HL Hprims) as (g1 & g2 & vs & E1 & E2 & HV & HC).
    destruct (CgpProps.any_pruned d g nodes outs prog _ Hd Hl Hf Hp HL) as (g3 & g4 & E3 & E4 & HC2).
    rewrite E2 in E4. injection E4 as <-.
    exists vs. split.
    - destruct (HC (left gr (filled pad (c_inputs d) i))) as [[o1 C1] [o2 C2]].
      destruct prune; rewrite E in *; [injection E2 as <-; rewrite C2|injection E1 as <-; rewrite C1]; reflexivity.
    - intros vs'. split; [|intros ->; exact HV]. intros HV'.
      destruct (HC2 (fun _ => None) vs') as [_ [_ HB]]. destruct (HB HV') as [o' C'].
      destruct (HC (fun _ => None)) as [_ [o2 C2]]. rewrite C2 in C'. congruence. }
  destruct (tt_evaluate_spec z_list_eqb function
              (fun i => bind (call gr (c_inputs d) (c_outputs d) (left gr i) i) (fun '(_, vs) => Ok vs)) (c_inputs d) pad n Hn)
    as (table & [Ht1 Ht2] & HL & Hgood & _).
  destruct Hgood as (q & Eq & Hq & _).
  - intros i Hi. destruct (Hfun i Hi) as (e & He & Hne). destruct (HR i Hi) as (vs & Hvs & _). exists e, vs. auto.
  - exists q. split.
    + unfold score, cgp_decoder, truth_table_problem. rewrite E. cbn [bind]. rewrite Eq. reflexivity.
    + rewrite Hq. cut (length (filter (fun i => match function i, bind (call gr (c_inputs d) (c_outputs d) (left gr (filled pad (c_inputs d) i)) (filled pad (c_inputs d) i)) (fun '(_, vs) => Ok vs) with
                 | Ok e, Ok o => z_list_eqb o e | _, _ => false end) table) = k).
      { intros <-. reflexivity. }
      rewrite <- Hk. apply Permutation_length, NoDup_Permutation; [apply NoDup_filter, Ht1|exact Hnd|].
      intros i. rewrite filter_In, Ht2, Hok. split; intros [Hi H]; split; auto;
        destruct (HR i Hi) as (vs & Hvs & Hiff); destruct (Hfun i Hi) as (e & He & _).
      * rewrite He, Hvs in H. unfold z_list_eqb in H. destruct (list_eq_dec Z.eq_dec vs e) as [->|]; [|discriminate].
        exists e. split; auto. apply Hiff. reflexivity.
      * destruct H as (vs' & H1 & H2). apply Hiff in H2. subst vs'. rewrite H1, Hvs. unfold z_list_eqb.
        destruct (list_eq_dec Z.eq_dec vs vs); congruence.
Qed.

Lemma within_solves g : int_box (bounds d) g -> exists k, solves d function pad n g k.
Proof.
  intros Hg. destruct (CgpProps.within_decodes d Hd false g Hg) as (nodes & outs & prog & gr & Hl & Hf & Hp & _).
  destruct (table_spec n Hn) as (table & _ & [Ht1 Ht2] & _).
  assert (HR : forall i, bit_vector n i -> exists vs, forall vs', Forall2 (Spec.Cgp.value (c_inputs d) prog (filled pad (c_inputs d) i)) outs vs' <-> vs' = vs).
  { intros i Hi. assert (HL : length (filled pad (c_inputs d) i) = c_inputs d) by (apply filled_length; exact Hi).
    destruct (CgpProps.total_same d g nodes outs prog _ Hd Hl Hf Hp HL Hprims) as (g1 & g2 & vs & E1 & E2 & HV & HC).
    destruct (CgpProps.any_pruned d g nodes outs prog _ Hd Hl Hf Hp HL) as (g3 & g4 & E3 & E4 & HC2).
    rewrite E2 in E4. injection E4 as <-. exists vs. intros vs'. split; [|intros ->; exact HV]. intros HV'.
    destruct (HC2 (fun _ => None) vs') as [_ [_ HB]]. destruct (HB HV') as [o' C'].
    destruct (HC (fun _ => None)) as [_ [o2 C2]]. rewrite C2 in C'. congruence. }
  assert (HX : exists ok, NoDup ok /\ forall i, In i ok <-> In i table /\ exists vs, function i = Ok vs /\
    Forall2 (Spec.Cgp.value (c_inputs d) prog (filled pad (c_inputs d) i)) outs vs).
  { assert (HT : forall i, In i table -> bit_vector n i) by (intros i; apply Ht2). clear Ht2.
    induction table as [|i table IH]; [exists []; split; [constructor|]; intros i; split; [intros []|intros [[] _]]|].
    apply NoDup_cons_iff in Ht1. destruct Ht1 as [Hi Ht1].
    destruct IH as (ok & N & Hok); auto. { intros; apply HT; right; auto. }
    assert (HTi : bit_vector n i) by (apply HT; left; auto).
    destruct (HR i HTi) as (vs & Hvs). destruct (Hfun i HTi) as (e & He & _).
    destruct (list_eq_dec Z.eq_dec vs e) as [->|Hne].
    - exists (i :: ok). split; [constructor; auto; rewrite Hok; tauto|]. intros j. cbn [In]. rewrite Hok. split.
      + intros [<-|[H1 H2]]; [|tauto]. split; auto. exists e. split; auto. apply Hvs. auto.
      + intros [[<-|H1] H2]; auto.
    - exists ok. split; auto. intros j. cbn [In]. rewrite Hok. split; [tauto|]. intros [[<-|H1] H2]; [|auto].
      destruct H2 as (vs' & H1 & H2). apply Hvs in H2. congruence. }
  destruct HX as (ok & N & Hok). exists (length ok), nodes, outs, prog, ok.
  split; [exact Hl|]. split; [exact Hf|]. split; [exact Hp|]. split; [exact N|]. split; [reflexivity|].
  intros i. rewrite Hok, Ht2. reflexivity.
Qed.

Lemma fractions_sharp (N a b : nat) (q r : Q) : 0 < N -> (Z.of_nat N < 1000000000)%Z -> a <= N -> b <= N ->
  (q == inject_Z (Z.of_nat a) / inject_Z (Z.of_nat N))%Q -> (r == inject_Z (Z.of_nat b) / inject_Z (Z.of_nat N))%Q ->
  blurred (NFlt true (Fin q)) (NFlt true (Fin r)) -> a = b.
Proof.
  intros HN HB Ha Hb Hq Hr (_ & _ & H). cbn in H.
  assert (HNq : (0 < inject_Z (Z.of_nat N))%Q) by (unfold Qlt; cbn; lia).
  assert (HI : forall x : nat, x <= N -> (0 <= inject_Z (Z.of_nat x) <= inject_Z (Z.of_nat N))%Q).
  { intros x Hx. split; [change 0%Q with (inject_Z 0)|]; rewrite <- Zle_Qle; lia. }
  pose proof (HI a Ha) as Ia. pose proof (HI b Hb) as Ib.
  assert (Hq1 : (0 <= q <= 1)%Q).
  { rewrite Hq. split; [apply Qle_shift_div_l; auto|apply Qle_shift_div_r; auto]; lra. }
  assert (Hr1 : (0 <= r <= 1)%Q).
  { rewrite Hr. split; [apply Qle_shift_div_l; auto|apply Qle_shift_div_r; auto]; lra. }
  assert (HM : (Qabs (q - r) <= tol)%Q).
  { eapply Qle_trans; [exact H|]. setoid_replace tol with (tol * 1)%Q at 2 by ring.
    apply Qmult_le_l; [reflexivity|]. apply Q.max_lub; apply Qabs_Qle_condition; lra. }
  apply Qabs_Qle_condition in HM. destruct HM as [M1 M2].
  assert (E : ((q - r) * inject_Z (Z.of_nat N) == inject_Z (Z.of_nat a - Z.of_nat b))%Q).
  { rewrite Hq, Hr. unfold Zminus. rewrite inject_Z_plus, inject_Z_opp. field. lra. }
  assert (HT : (tol * inject_Z (Z.of_nat N) < 1)%Q).
  { rewrite Zlt_Qlt in HB. unfold tol. change (inject_Z 1000000000) with (1000000000 # 1)%Q in HB. lra. }
  assert (A1 : (inject_Z (Z.of_nat a - Z.of_nat b) < 1)%Q).
  { rewrite <- E. eapply Qle_lt_trans; [|exact HT]. apply Qmult_le_compat_r; lra. }
  assert (A2 : (-1 < inject_Z (Z.of_nat a - Z.of_nat b))%Q).
  { rewrite <- E. apply Qlt_le_trans with (- tol * inject_Z (Z.of_nat N))%Q; [lra|]. apply Qmult_le_compat_r; lra. }
  change 1%Q with (inject_Z 1) in A1. change (-1)%Q with (inject_Z (-1)) in A2. rewrite <- Zlt_Qlt in A1, A2. lia.
Qed.

Lemma solves_bound g k : solves d function pad n g k -> k <= 2 ^ n.
Proof.
  intros (nodes & outs & prog & ok & _ & _ & _ & N & <- & H). destruct (table_spec n Hn) as (table & _ & [Ht1 Ht2] & <-).
  apply NoDup_incl_length; auto. intros i Hi. apply Ht2, H, Hi.
Qed.

Lemma cgp_run ds maximize coin k_elites max_generations size operators pick stop initialize pop_size start
    (w : world Z (graph Z) num) :
  (forall i, breeds_with (int_variation (bounds d)) (operators i)) ->
  (forall i w l k, l <> [] -> pick i w l k < length l) ->
  (forall k, num_genes d <= length (ds k) /\ create_cgp_vector d (ds k) = Ok (initialize k)) -> 1 <= pop_size -> 1 <= size ->
  exists final w' earlier gc',
    heap_ea (cgp_decoder d prune) problem maximize coin max_generations k_elites size operators pick stop
      initialize 0 0 false pop_size start w = Some (Ok (final, w', earlier), gc') /\
    ((forall i w l, stop i w l = false) -> length earlier = Z.to_nat (max_generations - start)) /\
    (forall p i, In p (earlier ++ [final]) -> In i p ->
       Spec.Cgp.within (genes w' i) (bounds d) /\
       exists k q, solves d function pad n (genes w' i) k /\ i_fitness (w_ind w' i) = Some (NFlt true (Fin q)) /\
         (q == inject_Z (Z.of_nat k) / inject_Z (Z.of_nat (2 ^ n)))%Q) /\
    (maximize = true -> 1 <= k_elites -> (Z.of_nat (2 ^ n) < 1000000000)%Z ->
     forall j1 j2 p1 p2, j1 <= j2 ->
       nth_error (earlier ++ [final]) j1 = Some p1 -> nth_error (earlier ++ [final]) j2 = Some p2 ->
       forall x k, In x p1 -> solves d function pad n (genes w' x) k ->
       exists y k', In y p2 /\ solves d function pad n (genes w' y) k' /\ k <= k').
Proof.
  intros Ho Hpk Hi Hp Hs.
  assert (Hb : Forall (fun b => fst b <= snd b)%Z (bounds d)) by (apply CgpProps.bounds_nonempty; auto).
  assert (Hlen : length (bounds d) = num_genes d) by (apply CgpDecode.bounds_length; auto).
  assert (Hge : 1 <= length (bounds d)).
  { rewrite Hlen. unfold num_genes. destruct Hd as (_ & _ & H & _). lia. }
  assert (Hsc : forall g, int_box (bounds d) g -> exists k q, solves d function pad n g k /\ tt_score g = Ok (NFlt true (Fin q)) /\
         (q == inject_Z (Z.of_nat k) / inject_Z (Z.of_nat (2 ^ n)))%Q).
  { intros g Hg. destruct (within_solves g Hg) as [k Hk]. destruct (solves_score g k Hk) as (q & A & B). exists k, q. auto. }
  assert (Hinit : forall k, int_box (bounds d) (initialize k)).
  { intros k. destruct (Hi k) as [HL E]. eapply (created_int_box (bounds d) (ds k)); eauto. lia. }
  assert (Hv : forall i o, (fun _ : nat => int_variation (bounds d)) i o -> safe (int_box (bounds d)) o).
  { intros i o. apply int_variation_safe; auto. }
  destruct (safe_run (cgp_decoder d prune) problem (int_box (bounds d)) (fun _ => int_variation (bounds d)) Hv
              0 0 false maximize coin k_elites max_generations size operators pick stop initialize pop_size start w)
    as (final & w' & earlier & gc' & E & HN & HA); auto.
  { right. intros g Hg. destruct (Hsc g Hg) as (k & q & _ & H & _). eauto. }
  exists final, w', earlier, gc'. split; [exact E|]. split; [exact HN|]. split.
  - intros p i Hin Hip. destruct (HA p i Hin Hip) as [HD HF]. split; [exact HD|].
    destruct (Hsc _ HD) as (k & q & H1 & H2 & H3). exists k, q. rewrite H2 in HF. auto.
  - intros -> Hk HB j1 j2 p1 p2 Hle E1 E2 x k Hx Hkx.
    assert (Hops : forall i, clone_vary_evaluate (operators i) /\ Forall (stays_within (int_box (bounds d))) (operators i)).
    { intros i. destruct (breeds_safe _ _ (operators i) (Hv i) (Ho i)) as [A B]. auto. }
    assert (HN2 : 0 < 2 ^ n) by (apply Nat.neq_0_lt_0, Nat.pow_nonzero; lia).
    destruct (run_monotone (cgp_decoder d prune) problem (int_box (bounds d)) 0 0 false true coin k_elites max_generations size operators
                pick stop Hops initialize pop_size start w final w' earlier gc' Hinit Hk Hs) with (j1 := j1) (j2 := j2) (p1 := p1) (p2 := p2) (x := x)
      as (y & Hy & Hnb); auto.
    + intros g h m Hg Hh. cbn zeta. destruct (Hsc g Hg) as (a & q & A1 & A2 & A3). destruct (Hsc h Hh) as (b & r & B1 & B2 & B3).
      rewrite A2, B2. cbn [outcome]. intros HBl.
      assert (a = b) as ->.
      { apply (fractions_sharp (2 ^ n) a b q r); auto; eapply solves_bound; eauto. }
      rewrite <- B3 in A3. cbn. destruct m; intros C; rewrite A3 in C; lra.
    + destruct (HA p2 y) as [HDy _]; auto. { eapply nth_error_In; eauto. }
      destruct (Hsc _ HDy) as (k' & r & B1 & B2 & B3). exists y, k'. split; auto. split; auto.
      destruct (solves_score _ _ Hkx) as (q & A2 & A3). rewrite A2, B2 in Hnb. cbn in Hnb. rewrite A3, B3 in Hnb.
      destruct (le_lt_dec k k') as [|C]; auto. exfalso. apply Hnb.
      assert (Hq : (0 < inject_Z (Z.of_nat (2 ^ n)))%Q) by (unfold Qlt; cbn; lia).
      unfold Qdiv. apply Qmult_lt_r; [apply Qinv_lt_0_compat; auto|]. rewrite <- Zlt_Qlt. lia.
Qed.
End Cgp.
