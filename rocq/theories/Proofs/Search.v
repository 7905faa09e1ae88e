From Coq Require Import Lia Permutation.
From Verif Require Import Model.Base Model.PyList Model.Scalar Model.Selection Model.Counters Model.Heap Model.Pipeline Model.HeapEa
  Spec.Order Spec.Selection Spec.Heap Spec.HeapEa Spec.Odds Spec.Search
  Proofs.Order Proofs.PyList Proofs.ScalarSel Proofs.Algorithm Proofs.Heap Proofs.Pipeline Proofs.HeapEa Proofs.Odds.
Local Open Scope nat_scope.
Local Open Scope list_scope.

(** ** counting *)
Lemma pow_grows a b n : a * a ^ n + n * b * a ^ n <= a * (a + b) ^ n.
Proof.
  induction n as [|n IH]; [cbn; lia|]. cbn [Nat.pow].
  assert (H : a * ((a + b) * (a + b) ^ n) >= (a + b) * (a * a ^ n + n * b * a ^ n)) by nia.
  nia.
Qed.

Lemma few_left K s B n : 1 <= s -> s <= K -> 1 <= n -> B * K <= n -> B * (K - s) ^ n <= K ^ n.
Proof.
  intros Hs HK Hn HB. destruct (Nat.eq_dec (K - s) 0) as [E|E].
  - rewrite E, Nat.pow_0_l by lia. lia.
  - pose proof (pow_grows (K - s) s n) as H. replace (K - s + s) with K in H by lia. set (a := K - s) in *.
    assert (Ha : B * a <= n) by (unfold a; nia). clearbody a. revert H. generalize (a ^ n) (K ^ n). intros z y H.
    assert (H2 : a * (B * z) <= a * y); [|apply (Nat.mul_le_mono_pos_l _ _ a); lia].
    assert (H3 : B * a * z <= n * s * z) by (apply Nat.mul_le_mono_r; nia).
    lia.
Qed.

Lemma filter_split {A} (b : A -> bool) l : length (filter b l) + length (filter (fun x => negb (b x)) l) = length l.
Proof. induction l as [|x l IH]; cbn; auto. destruct (b x); cbn; lia. Qed.

Lemma filter_prod_le {A} (p : nat -> A -> bool) (u : list A) m : forall n k,
  (forall j, k <= j < k + n -> length (filter (p j) u) <= m) ->
  length (filter (fun l => forallb (fun jx => p (fst jx) (snd jx)) (combine (seq k n) l)) (tuples u n)) <= m ^ n.
Proof.
  induction n as [|n IH]; intros k Hm; [cbn; lia|]. cbn [tuples seq].
  rewrite filter_flat_map.
  assert (E : forall v, length (flat_map (fun i => filter (fun l => forallb (fun jx => p (fst jx) (snd jx)) (combine (k :: seq (S k) n) l))
                (map (cons i) (tuples u n))) v)
              <= length (filter (p k) v) * m ^ n).
  { intros v. induction v as [|x v IHv]; [cbn; lia|]. cbn [flat_map filter]. rewrite app_length, filter_map_comp, map_length.
    set (rest := length (flat_map _ v)) in *. clearbody rest.
    cbn [combine forallb fst snd]. destruct (p k x) eqn:Ep; cbn [andb].
    - cbn [length Nat.mul]. specialize (IH (S k)).
      assert (length (filter (fun l => forallb (fun jx => p (fst jx) (snd jx)) (combine (seq (S k) n) l)) (tuples u n)) <= m ^ n).
      { apply IH. intros j Hj. apply Hm. lia. }
      match goal with |- length (filter ?q _) + _ <= _ => change q with (fun l => forallb (fun jx => p (fst jx) (snd jx)) (combine (seq (S k) n) l)) end.
      lia.
    - assert (Ez : filter (fun _ : list A => false) (tuples u n) = []) by (generalize (tuples u n); intros tu; induction tu; cbn; auto).
      rewrite Ez. cbn [length]. lia. }
  specialize (E u). cbn [Nat.pow]. assert (length (filter (p k) u) <= m) by (apply Hm; lia). nia.
Qed.

Lemma filter_cons_le {A} (q : A -> bool) (P : list A -> bool) (v : list A) (t : list (list A)) c m :
  (forall x, In x v -> q x = false -> forall l, In l t -> P (x :: l) = false) ->
  (forall x, In x v -> q x = true -> length (filter (fun l => P (x :: l)) t) <= c) ->
  length (filter q v) <= m ->
  length (filter P (flat_map (fun x => map (cons x) t) v)) <= m * c.
Proof.
  intros H1 H2 Hm. rewrite filter_flat_map.
  assert (E : length (flat_map (fun x => filter P (map (cons x) t)) v) <= length (filter q v) * c); [|nia].
  clear Hm. induction v as [|x v IH]; [cbn; lia|]. cbn [flat_map filter]. rewrite app_length, filter_map_comp, map_length.
  assert (IH' : length (flat_map (fun x => filter P (map (cons x) t)) v) <= length (filter q v) * c).
  { apply IH; intros; [apply H1|apply H2]; cbn; auto. }
  set (rest := length (flat_map _ v)) in *. clearbody rest. clear IH.
  destruct (q x) eqn:Eq.
  - cbn [length Nat.mul]. specialize (H2 x (or_introl eq_refl) Eq). lia.
  - assert (Ez : filter (fun l => P (x :: l)) t = []).
    { specialize (H1 x (or_introl eq_refl) Eq). clear - H1. induction t as [|l t IH]; auto. cbn.
      rewrite (H1 l) by (cbn; auto). apply IH. intros; apply H1; cbn; auto. }
    rewrite Ez. cbn. lia.
Qed.

Lemma finite_choice {A} (R : nat -> A -> Prop) (a0 : A) : (forall k, exists a, R k a) -> forall n, exists f, forall k, k < n -> R k (f k).
Proof.
  intros H n. induction n as [|n (f & Hf)]; [exists (fun _ => a0); lia|]. destruct (H n) as (a & Ha).
  exists (fun k => if Nat.eq_dec k n then a else f k). intros k Hk. destruct (Nat.eq_dec k n) as [->|]; auto. apply Hf. lia.
Qed.

Lemma tables_perm {X} (alphabet : list X) size T l : NoDup alphabet -> all_tables alphabet size T l ->
  Permutation l (tuples (tuples alphabet size) T).
Proof.
  intros Hn [H1 H2]. apply NoDup_Permutation; [auto|apply tuples_nodup, tuples_nodup, Hn|].
  intros t. rewrite H2, tuples_in. split; intros [L H]; (split; [auto|]); revert H; apply Forall_impl; intros gen;
    rewrite tuples_in; auto.
Qed.

Lemma tables_exist {X} (alphabet : list X) size T : NoDup alphabet -> exists l, all_tables alphabet size T l.
Proof.
  intros Hn. exists (tuples (tuples alphabet size) T). split; [apply tuples_nodup, tuples_nodup, Hn|].
  intros t. rewrite tuples_in. split; intros [L H]; (split; [auto|]); revert H; apply Forall_impl; intros gen;
    rewrite tuples_in; auto.
Qed.

(** ** one generation of clone, mutate, evaluate *)
Section Search.
Context {G P X : Type}.
Variable decoder_of : nat -> option (list G -> result P).
Variable problem_of : nat -> phen_value G P -> result num.
Implicit Types w : world G P num.
Variable D : list G -> Prop.
Variable problem decoder : nat.
Variable robust : bool.
Variable mutator : X -> list G -> result (list G * option (list G)).
Variable x0 : X.
Notation pool := (pool NNan decoder_of problem_of).
Notation pull := (pull NNan decoder_of problem_of).
Notation good := (good decoder_of problem_of D problem decoder robust).
Notation value := (value decoder_of problem_of problem decoder).

Definition at_step (k : nat) (sts : list ostate) : Prop :=
  length sts = 4 /\ Forall (fun s => s_done s = k /\ s_second s = None) sts.

Section Step.
Variable w0 : world G P num.
Variable gen : list X.
Variable parents : list nat.
Variable pk : nat -> nat.
Hypothesis Hpar : forall i, In i parents -> i < w_nind w0 /\ i_genome (w_ind w0 i) < w_narr w0.
Notation stack := (search_pipeline mutator x0 gen ++ [OpSelect parents pk]).

Definition bred k w c : Prop :=
  exists p r, nth_error parents (pk k) = Some p /\ mutator (nth k gen x0) (genes w0 p) = Ok r /\ genes w c = outcome_of r.

Lemma breeding_ok : breeding (w_nind w0) stack.
Proof. cbn. intros i Hi. apply Hpar. auto. Qed.

Lemma pull_bred k sts w c sts' w' out : at_step k sts -> inv w0 w (out ++ held sts) ->
  pull stack sts w = Ok (c, sts', w') -> at_step (S k) sts' /\ bred k w' c.
Proof.
  intros [L HF] HI HP.
  destruct sts as [|s1 [|s2 [|s3 [|s4 [|]]]]]; try discriminate L.
  inversion HF as [|? ? [K1 N1] HF1]; subst. inversion HF1 as [|? ? [K2 N2] HF2]; subst.
  inversion HF2 as [|? ? [K3 N3] HF3]; subst. inversion HF3 as [|? ? [K4 N4] _]; subst.
  cbn [search_pipeline app Pipeline.pull] in HP.
  destruct (nth_error parents (pk (s_done s4))) as [p|] eqn:Ep; [|discriminate].
  destruct (clone w p) as [c1 w2] eqn:EC.
  destruct (mutate_ind (fun g => mutator (nth (s_done s2) gen x0) g) w2 c1) as [[u|e] w3] eqn:EM; [|discriminate].
  destruct (evaluate NNan decoder_of problem_of w3 c1) as [[f|e] w4] eqn:EE; [|discriminate].
  injection HP as <- <- <-. split.
  - split; [reflexivity|]. repeat constructor; cbn [tick s_done s_second]; congruence || lia.
  - assert (Hin : In p parents) by (eapply nth_error_In; eauto).
    destruct (Hpar p Hin) as [P1 P2].
    assert (Eg : genes w p = genes w0 p).
    { destruct HI as (_ & _ & (U1 & U2) & _). unfold genes. rewrite U1, U2 by auto. auto. }
    apply clone_spec in EC. destruct EC as (_ & _ & _ & _ & EC & _).
    apply mutate_ind_spec in EM. destruct EM as (ip & fr & Ef & _ & EM & _).
    apply evaluate_spec in EE. destruct EE as (V1 & _ & _ & _ & _ & V6 & _).
    rewrite EC, Eg in Ef. exists p, (ip, fr). rewrite K2 in Ef. rewrite K4 in Ep.
    split; auto. split; auto. unfold genes at 1. rewrite V1, V6. unfold outcome_of. cbn [fst snd].
    exact EM.
Qed.

Lemma pool_bred n : forall k sts w out sts' w' before, at_step k sts -> inv w0 w (before ++ held sts) ->
  pool n stack sts w = Ok (out, sts', w') -> forall j c, nth_error out j = Some c -> bred (k + j) w' c.
Proof.
  induction n as [|n IH]; intros k sts w out sts' w' before HA HI HP j c Hj; cbn [Pipeline.pool] in HP.
  - injection HP as <- _ _. destruct j; discriminate.
  - destruct (pull stack sts w) as [[[i sts1] w1]|e] eqn:E; [|discriminate].
    destruct (pool n stack sts1 w1) as [[[r sts2] w2]|e] eqn:E2; [|discriminate]. injection HP as <- <- <-.
    destruct (pull_bred k sts w i sts1 w1 before HA HI E) as [HA1 HB].
    destruct (pull_inv NNan decoder_of problem_of w0 stack breeding_ok sts w i sts1 w1 before HI E) as [HI1 _].
    destruct j as [|j].
    + injection Hj as <-. rewrite Nat.add_0_r.
      destruct (pool_inv NNan decoder_of problem_of w0 n stack breeding_ok sts1 w1 r sts2 w2 (i :: before) HI1 E2) as [_ HS].
      destruct (HS i (or_introl eq_refl)) as [_ Eg]. destruct HB as (p & r0 & B1 & B2 & B3).
      exists p, r0. rewrite Eg. auto.
    + replace (k + S j) with (S k + j) by lia. cbn in Hj. exact (IH (S k) sts1 w1 r sts2 w2 (i :: before) HA1 HI1 E2 j c Hj).
Qed.

Lemma start_at_step : at_step 0 (start stack).
Proof. split; [reflexivity|]. cbn. repeat constructor. Qed.
End Step.

(** ** the loop *)
Variable maximize : bool.
Variable coin : nat -> sind -> sind -> bool.
Variable max_generations : Z.
Variable k_elites : nat.
Variable size : nat.
Variable pick : nat -> world G P num -> list nat -> nat -> nat.
Notation never := (fun (_ : nat) (_ : world G P num) (_ : list nat) => false).
Notation loop operators := (ea_loop decoder_of problem_of maximize coin max_generations k_elites size operators pick never).

Lemma loop_ext ops1 ops2 : forall fuel i gc w earlier parents,
  (forall j, i <= j -> ops1 j = ops2 j) -> loop ops1 fuel i gc w earlier parents = loop ops2 fuel i gc w earlier parents.
Proof.
  induction fuel as [|fuel IH]; intros i gc w earlier parents H; cbn [ea_loop].
  - destruct (gc_generation gc <? max_generations)%Z; auto.
  - destruct (gc_generation gc <? max_generations)%Z; auto. rewrite (H i) by lia.
    destruct (Pipeline.pool _ _ _ _ _ _ _) as [[[o s] w1]|e]; auto.
    destruct (survive _ _ _ _ _ _ _); auto. apply IH. intros j Hj. apply H. lia.
Qed.

Lemma loop_earlier ops : forall fuel i gc w earlier parents,
  loop ops fuel i gc w earlier parents =
  match loop ops fuel i gc w [] parents with
  | Some (Ok (final, w', pops), gc') => Some (Ok (final, w', earlier ++ pops), gc')
  | r => r
  end.
Proof.
  induction fuel as [|fuel IH]; intros i gc w earlier parents; cbn [ea_loop].
  - destruct (gc_generation gc <? max_generations)%Z; rewrite ?app_nil_r; auto.
  - destruct (gc_generation gc <? max_generations)%Z; rewrite ?app_nil_r; auto.
    destruct (Pipeline.pool _ _ _ _ _ _ _) as [[[o s] w1]|e]; auto.
    destruct (survive _ _ _ _ _ _ _); auto. rewrite (IH _ _ _ (earlier ++ [parents])), (IH _ _ _ ([] ++ [parents])).
    destruct (loop ops _ _ _ _ _ _) as [[[[[f w'] pops]|e] gc']|]; auto. rewrite <- app_assoc. reflexivity.
Qed.

Variable h : list G.
Notation goal := (outcome NNan (score (decoder_of decoder) (problem_of problem) h)).

Definition missed (run : option (result (list nat * world G P num * list (list nat)) * gen_counter)) : bool :=
  match run with
  | Some (Ok (final, w', _), _) =>
      forallb (fun y => if better_dec maximize goal (value w' y) then true else false) final
  | _ => true
  end.

Lemma missed_spec run : missed run = true <-> ~ found (decoder_of decoder) (problem_of problem) maximize h run.
Proof.
  unfold missed, found. destruct run as [[[[[final w'] pops]|e] gc']|].
  - rewrite forallb_forall. split.
    + intros H (f & w1 & ea & g1 & E & y & Hy & Hn). injection E as <- <- <- <-. specialize (H y Hy).
      destruct (better_dec maximize goal (value w' y)); [auto|discriminate].
    + intros H y Hy. destruct (better_dec maximize goal (value w' y)) as [|Hn]; auto. exfalso. apply H.
      exists final, w', pops, gc'. split; auto. exists y. auto.
  - split; auto. intros _ (f & w1 & ea & g1 & E & _). discriminate.
  - split; auto. intros _ (f & w1 & ea & g1 & E & _). discriminate.
Qed.

Variable alphabet : list X.
Variable s : nat.
Hypothesis x0_in : In x0 alphabet.
Hypothesis closed : forall x g, In x alphabet -> D g -> exists r, mutator x g = Ok r /\ D (outcome_of r).
Hypothesis reach : forall g, D g -> exists c, counts (fun x => exists r, mutator x g = Ok r /\ outcome_of r = h) alphabet c /\ s <= c.
Hypothesis scored : robust = true \/ forall g, D g -> exists f, score (decoder_of decoder) (problem_of problem) g = Ok f.
Hypothesis sharp_values : forall g g' m, D g -> D g' ->
  let f := outcome NNan (score (decoder_of decoder) (problem_of problem) g) in
  let f' := outcome NNan (score (decoder_of decoder) (problem_of problem) g') in
  blurred f f' -> ~ better m f f'.
Hypothesis picks : forall i w l k, l <> [] -> pick i w l k < length l.
Hypothesis elites1 : 1 <= k_elites.
Hypothesis size1 : 1 <= size.

Definition from_table (t : list (list X)) (i : nat) : list (op G) := search_pipeline mutator x0 (nth i t []).
Definition in_alphabet (t : list (list X)) : Prop := Forall (fun gen => Forall (fun x => In x alphabet) gen) t.

Lemma nth_alphabet t i k : in_alphabet t -> In (nth k (nth i t []) x0) alphabet.
Proof.
  intros H. destruct (nth_in_or_default k (nth i t []) x0) as [Hk|Hk]; [|rewrite Hk; auto].
  destruct (nth_in_or_default i t []) as [Hi|Hi]; [|rewrite Hi in Hk; destruct Hk].
  unfold in_alphabet in H. rewrite Forall_forall in H. specialize (H _ Hi). rewrite Forall_forall in H. auto.
Qed.

Lemma ops_fine t i : in_alphabet t ->
  (clone_vary_evaluate (from_table t i) /\ Forall (stays_within D) (from_table t i)) /\ Forall (works_on D) (from_table t i).
Proof.
  intros H. split; [split|].
  - exists [OpMutate (fun k g => mutator (nth k (nth i t []) x0) g) false]. split; [reflexivity|repeat constructor].
  - repeat constructor. intros k g ip fr Hg E. destruct (closed _ g (nth_alphabet t i k H) Hg) as (r & E2 & HD).
    rewrite E in E2. injection E2 as <-. exact HD.
  - repeat constructor. intros k g Hg. destruct (closed _ g (nth_alphabet t i k H) Hg) as (r & E2 & HD). eauto.
Qed.

(** the draw [x] turns the k-th parent into [h] *)
Definition hits i w parents k (x : X) : Prop :=
  exists p r, nth_error parents (pick i w parents k) = Some p /\ mutator x (genes w p) = Ok r /\ outcome_of r = h.

Lemma fails_few i w parents k : good w parents -> parents <> [] ->
  exists b : X -> bool, (forall x, In x alphabet -> b x = false -> hits i w parents k x) /\
    length (filter b alphabet) <= length alphabet - s.
Proof.
  intros HG Hne.
  assert (Hlt := picks i w parents k Hne).
  destruct (nth_error parents (pick i w parents k)) as [p|] eqn:Ep; [|apply nth_error_None in Ep; lia].
  assert (Hp : D (genes w p)).
  { destruct HG as (_ & _ & HG). destruct (HG p (nth_error_In _ _ Ep)) as (_ & _ & (K & _) & _). auto. }
  destruct (reach _ Hp) as (c & (b & Hb & Ec) & Hs). exists (fun x => negb (b x)). split.
  - intros x Hx E. apply Bool.negb_false_iff in E. apply Hb in E; auto. destruct E as (r & Er & C). exists p, r. auto.
  - pose proof (filter_split b alphabet) as HL. lia.
Qed.

Lemma good_sharp w l : good w l -> sharp (map si_fit (map (fun j => mk_sind j (value w j)) l)).
Proof.
  intros (_ & _ & HG) f f' m Hf Hf'. rewrite map_map in Hf, Hf'. apply in_map_iff in Hf, Hf'.
  destruct Hf as (j1 & <- & H1), Hf' as (j2 & <- & H2). cbn [si_fit].
  destruct (HG j1 H1) as (_ & _ & (K1 & _) & _), (HG j2 H2) as (_ & _ & (K2 & _) & _). apply sharp_values; auto.
Qed.

(** what follows a generation that produced [h] *)
Lemma good_forever t fuel i gc w parents : in_alphabet t -> good w parents -> parents <> [] ->
  (max_generations - gc_curr gc <= Z.of_nat fuel)%Z ->
  (exists y, In y parents /\ ~ better maximize goal (value w y)) ->
  missed (loop (from_table t) fuel i gc w [] parents) = false.
Proof.
  intros HT HG Hne Hf (y & Hy & Hnb).
  assert (Hops : forall i, clone_vary_evaluate (from_table t i) /\ Forall (stays_within D) (from_table t i)).
  { intros j. apply ops_fine. auto. }
  assert (Hw : forall i, Forall (works_on D) (from_table t i)) by (intros j; apply ops_fine; auto).
  destruct (loop_works decoder_of problem_of D problem decoder robust maximize coin k_elites max_generations size (from_table t)
    pick never Hops scored Hw picks size1 fuel i gc w [] parents HG Hne Hf) as (final & w' & pops & gc' & E & _).
  pose proof E as E2.
  apply (loop_spec decoder_of problem_of D problem decoder robust maximize coin k_elites max_generations size (from_table t)
    pick never Hops) in E2; [|constructor; auto].
  destruct E2 as (Hgr & HGf & later & El & _ & _ & _ & Hch).
  specialize (Hch elites1 size1 sharp_values).
  assert (HC : HeapEa.chain decoder_of problem_of problem decoder maximize w' (pops ++ [final])).
  { apply Hch. intros [|j] p q E1 E2; [discriminate|destruct j; discriminate]. }
  rewrite E. unfold missed. destruct (forallb _ final) eqn:Efb; auto. exfalso.
  rewrite forallb_forall in Efb. cbn [app] in El.
  destruct (chain_trans decoder_of problem_of problem decoder maximize w' _ HC 0 (length pops) parents final (Nat.le_0_l _)) with (x := y)
    as (z & Hz & Hyz); auto.
  - rewrite El. reflexivity.
  - rewrite nth_error_app2, Nat.sub_diag by lia. reflexivity.
  - specialize (Efb z Hz). destruct (better_dec maximize goal (value w' z)) as [Hb|]; [|discriminate].
    revert Hb. rewrite (value_grows decoder_of problem_of D problem decoder robust w w' y parents Hgr HG Hy) in Hyz.
    exact (nb_trans_num maximize _ _ _ Hnb Hyz).
Qed.

Lemma shifted gen t i j : i < j -> from_table (repeat [] i ++ gen :: t) j = from_table (repeat [] (S i) ++ t) j.
Proof.
  intros H. unfold from_table. rewrite !app_nth2 by (rewrite repeat_length; lia). rewrite !repeat_length.
  destruct (j - i) as [|d] eqn:E; [lia|]. cbn [nth]. replace (j - S i) with d by lia. reflexivity.
Qed.

Lemma in_alphabet_app a b : in_alphabet a -> in_alphabet b -> in_alphabet (a ++ b).
Proof. intros. apply Forall_app. auto. Qed.
Lemma in_alphabet_none i : in_alphabet (repeat [] i).
Proof. apply Forall_forall. intros gen Hg. apply repeat_spec in Hg. subst. constructor. Qed.

Lemma missed_earlier ops fuel i gc w earlier parents :
  missed (loop ops fuel i gc w earlier parents) = missed (loop ops fuel i gc w [] parents).
Proof. rewrite loop_earlier. destruct (loop ops fuel i gc w [] parents) as [[[[[f w'] pops]|e] gc']|]; auto. Qed.

Lemma one_step gen T i gc w parents : Forall (fun x => In x alphabet) gen -> length gen = size ->
  good w parents -> parents <> [] -> (max_generations - gc_curr gc = Z.of_nat (S T))%Z ->
  exists w1 surv, good w1 surv /\ surv <> [] /\
    (forall t, missed (loop (from_table (repeat [] i ++ gen :: t)) (S T) i gc w [] parents) =
               missed (loop (from_table (repeat [] (S i) ++ t)) T (S i) (snd (gc_increment [] gc)) w1 [] surv)) /\
    (forall k x, nth_error gen k = Some x -> hits i w parents k x -> exists y, In y surv /\ ~ better maximize goal (value w1 y)).
Proof.
  intros Hgen Lg HG Hne Hgc.
  set (t0 := repeat [] i ++ [gen]).
  assert (HT : in_alphabet t0) by (apply in_alphabet_app; [apply in_alphabet_none|constructor; auto]).
  assert (Hops : forall i, clone_vary_evaluate (from_table t0 i) /\ Forall (stays_within D) (from_table t0 i)).
  { intros j. apply ops_fine. auto. }
  assert (Hw : forall i, Forall (works_on D) (from_table t0 i)) by (intros j; apply ops_fine; auto).
  destruct (loop_works decoder_of problem_of D problem decoder robust maximize coin k_elites max_generations size (from_table t0)
    pick never Hops scored Hw picks size1 (S T) i gc w [] parents HG Hne) as (final & w' & pops & gc' & E & _); [lia|].
  assert (Eops : forall t, from_table (repeat [] i ++ gen :: t) i = search_pipeline mutator x0 gen).
  { intros t. unfold from_table. rewrite app_nth2 by (rewrite repeat_length; lia). rewrite repeat_length, Nat.sub_diag. reflexivity. }
  assert (Elt : (gc_generation gc <? max_generations)%Z = true) by (apply Z.ltb_lt; unfold gc_generation; lia).
  cbn [ea_loop] in E. rewrite Elt in E. unfold t0 in E at 1 2. rewrite Eops in E.
  set (stack := search_pipeline mutator x0 gen ++ [OpSelect parents (pick i w parents)]) in E.
  destruct (pool size stack (start stack) w) as [[[offspring sts] w1]|e] eqn:EP; [|discriminate].
  destruct (Hops i) as [Hc Hs]. unfold t0 in Hc, Hs. rewrite Eops in Hc, Hs.
  destruct (generation_good decoder_of problem_of D problem decoder robust maximize coin k_elites i w parents _ _ _ _ _ _ HG Hc Hs EP)
    as (Hgr & Lo & surv & Es & Ls & Gs & Go & Gp & Eq & Hpart).
  exists w1, surv. split; [auto|]. split; [intros ->; cbn in Ls; lia|]. split.
  - intros t. cbn [ea_loop]. rewrite Elt, Eops. fold stack. rewrite EP, Es, missed_earlier. f_equal.
    apply loop_ext. intros j Hj. apply shifted. lia.
  - intros k x Hk (p & r & Ep & Er & Eh).
    assert (Hkl : k < size) by (rewrite <- Lg; apply nth_error_Some; congruence).
    destruct (nth_error offspring k) as [c|] eqn:Ec; [|apply nth_error_None in Ec; lia].
    assert (Hpar : forall j, In j parents -> j < w_nind w /\ i_genome (w_ind w j) < w_narr w).
    { intros j Hj. destruct HG as (_ & _ & HG). destruct (HG j Hj) as (A & B & _). auto. }
    assert (I0 : inv w w ([] ++ held (start stack))) by (rewrite held_start; apply inv_init).
    destruct (pool_bred w gen parents (pick i w parents) Hpar size 0 _ _ _ _ _ [] (start_at_step gen parents _) I0 EP k c Ec)
      as (p' & r' & Ep' & Er' & Eg). cbn [Nat.add] in Ep', Er'.
    rewrite (nth_error_nth gen k x0 Hk) in Er'. rewrite Ep in Ep'. injection Ep' as <-. rewrite Er in Er'. injection Er' as <-.
    set (o := map (fun j => mk_sind j (value w1 j)) offspring) in *.
    set (p' := map (fun j => mk_sind j (value w1 j)) parents) in *.
    assert (Hsharp : sharp (map si_fit (o ++ p'))).
    { intros f f' m Hf Hf'.
      assert (HD : forall f, In f (map si_fit (o ++ p')) -> exists g, D g /\
                  f = outcome NNan (score (decoder_of decoder) (problem_of problem) g)).
      { clear f f' Hf Hf'. intros f Hf. unfold o, p' in Hf. rewrite <- map_app, map_map in Hf. cbn in Hf. apply in_map_iff in Hf.
        destruct Hf as (j1 & <- & Hj1). exists (genes w1 j1). split; auto. apply in_app_or in Hj1.
        destruct Hj1 as [Hj1|Hj1]; [destruct Go as (_ & _ & Gm)|destruct Gp as (_ & _ & Gm)];
          destruct (Gm j1 Hj1) as (_ & _ & (K & _) & _); auto. }
      destruct (HD f Hf) as (g & Dg & ->), (HD f' Hf') as (g' & Dh & ->). apply sharp_values; auto. }
    assert (Hone : o <> []).
    { intros C. unfold o in C. apply map_eq_nil in C. rewrite C in Lo. cbn in Lo. lia. }
    destruct (elitist_keeps_best maximize (coin i) o p' k_elites Hsharp elites1 Hone) as (_ & _ & Hkb).
    destruct (Hkb (mk_sind c (value w1 c))) as (y & Hy & Hnb).
    { apply in_or_app. left. unfold o. apply (in_map (fun j => mk_sind j (value w1 j))). eapply nth_error_In; eauto. }
    exists (si_id y). rewrite Eq. split; [apply in_map; auto|].
    assert (Hy2 : In y (map (fun j => mk_sind j (value w1 j)) (offspring ++ parents))) by (eapply part_in; eauto).
    apply in_map_iff in Hy2. destruct Hy2 as (j2 & <- & _). unfold nbi in Hnb. cbn [si_fit si_id] in *.
    unfold HeapEa.value at 1 in Hnb. rewrite Eg, Eh in Hnb. exact Hnb.
Qed.

Lemma few_miss T : forall i gc w parents, good w parents -> parents <> [] ->
  (max_generations - gc_curr gc = Z.of_nat T)%Z ->
  length (filter (fun t => missed (loop (from_table (repeat [] i ++ t)) T i gc w [] parents)) (tuples (tuples alphabet size) T))
  <= (length alphabet - s) ^ (size * T).
Proof.
  induction T as [|T IH]; intros i gc w parents HG Hne Hgc.
  { cbn [tuples filter]. destruct (missed _); rewrite Nat.mul_0_r; cbn; lia. }
  destruct (finite_choice (fun k b => (forall x, In x alphabet -> b x = false -> hits i w parents k x) /\
    length (filter b alphabet) <= length alphabet - s) (fun _ => true) (fun k => fails_few i w parents k HG Hne) size) as (b & Hb).
  replace (size * S T) with (size + size * T) by lia. rewrite Nat.pow_add_r.
  change (tuples (tuples alphabet size) (S T)) with
    (flat_map (fun x => map (cons x) (tuples (tuples alphabet size) T)) (tuples alphabet size)).
  apply (filter_cons_le (fun gen => forallb (fun jx => b (fst jx) (snd jx)) (combine (seq 0 size) gen))).
  - intros gen Hgen Hq t Ht. apply tuples_in in Hgen. destruct Hgen as [Lg Hgen].
    destruct (one_step gen T i gc w parents Hgen Lg HG Hne Hgc) as (w1 & surv & Gs & Ns & Em & Hh).
    rewrite Em. apply good_forever; auto.
    + apply in_alphabet_app; [apply in_alphabet_none|]. apply tuples_in in Ht. destruct Ht as [_ Ht].
      eapply Forall_impl; [|exact Ht]. intros g Hg. apply tuples_in in Hg. apply Hg.
    + cbn [gc_increment snd gc_curr]. lia.
    + assert (Hk : exists k x, nth_error gen k = Some x /\ k < size /\ b k x = false).
      { clear - Hq Lg. revert Hq. assert (Hgl : forall k g, length g = size - k -> k <= size -> (forall j, nth_error g j = nth_error gen (k + j)) ->
          forallb (fun jx => b (fst jx) (snd jx)) (combine (seq k (size - k)) g) = false ->
          exists k x, nth_error gen k = Some x /\ k < size /\ b k x = false).
        { intros k g. revert k. induction g as [|x g IHg]; intros k L Hk Hn Hf; [destruct (size - k); discriminate|].
          cbn [length] in L. destruct (size - k) as [|m] eqn:Em; [lia|]. cbn [seq combine forallb fst snd] in Hf.
          apply Bool.andb_false_iff in Hf. destruct Hf as [Hf|Hf].
          - exists k, x. specialize (Hn 0). rewrite Nat.add_0_r in Hn. cbn in Hn. split; auto. split; [lia|auto].
          - apply (IHg (S k)); try lia.
            + intros j. specialize (Hn (S j)). cbn in Hn. rewrite Hn. f_equal. lia.
            + replace (size - S k) with m by lia. exact Hf. }
        intros Hq. apply (Hgl 0 gen); try lia; auto. rewrite Nat.sub_0_r. exact Hq. }
      destruct Hk as (k & x & Ek & Hks & Ebk). destruct (Hb k Hks) as [Hb1 _]. apply (Hh k x Ek).
      apply Hb1; auto. rewrite Forall_forall in Hgen. apply Hgen. eapply nth_error_In; eauto.
  - intros gen Hgen _. apply tuples_in in Hgen. destruct Hgen as [Lg Hgen].
    destruct (one_step gen T i gc w parents Hgen Lg HG Hne Hgc) as (w1 & surv & Gs & Ns & Em & _).
    erewrite filter_ext_len; [apply (IH (S i) (snd (gc_increment [] gc)) w1 surv Gs Ns)|intros t _; cbn beta; apply Em].
    cbn [gc_increment snd gc_curr]. lia.
  - apply filter_prod_le. intros j Hj. apply (Hb j). lia.
Qed.

Lemma search_bound initialize pop_size start w T l :
  NoDup alphabet -> (forall k, D (initialize k)) -> 1 <= pop_size ->
  (max_generations = start + Z.of_nat T)%Z -> all_tables alphabet size T l ->
  exists c, counts (fun t => ~ found (decoder_of decoder) (problem_of problem) maximize h
      (heap_ea decoder_of problem_of maximize coin max_generations k_elites size (from_table t) pick never
         initialize problem decoder robust pop_size start w)) l c /\
    c <= (length alphabet - s) ^ (size * T) /\ length l = length alphabet ^ (size * T).
Proof.
  intros Hnd HD Hp Hm Hl. pose proof (tables_perm alphabet size T l Hnd Hl) as HP.
  destruct (create_all initialize problem decoder robust pop_size 0 w) as [l0 w1] eqn:EC.
  pose proof (create_all_spec problem decoder robust _ _ _ _ _ _ EC) as (L & HGc & N1 & N2 & HA).
  destruct (population_works decoder_of problem_of D problem decoder robust scored l0 w1) as (u & w2 & EE).
  { intros i Hi. destruct (HA i Hi) as (_ & _ & (m & Em) & K). split; [rewrite Em; auto|exact K]. }
  destruct (initial_good decoder_of problem_of D problem decoder robust _ _ _ _ _ _ _ HD EC EE) as (_ & HGd & _).
  eexists. split; [|split].
  - eexists. split; [|reflexivity]. intros t _. apply missed_spec.
  - rewrite (perm_filter_length _ _ _ HP).
    erewrite filter_ext_len; [apply (few_miss T 0 (inc_generation start) w2 l0 HGd)|].
    + intros ->. cbn in L. lia.
    + cbn [inc_generation gc_curr]. lia.
    + intros t _. cbn beta. unfold heap_ea. rewrite EC, EE. cbn [repeat app]. do 2 f_equal. lia.
  - rewrite (Permutation_length HP), tuples_length, tuples_length, Nat.pow_mul_r. reflexivity.
Qed.


End Search.

(** ** bit strings *)
From Coq Require Import Lqa.
From Verif Require Import Model.Variation Spec.Variation Spec.Chances Proofs.Variation Proofs.Chances.
Local Open Scope nat_scope.
Local Open Scope list_scope.

Lemma draws_nodup N n l : all_draws N n l -> NoDup l.
Proof. intros [H _]. exact H. Qed.

Lemma pow_mix a b m i j : m <= a -> m <= b -> m ^ (i + j) <= a ^ i * b ^ j.
Proof.
  intros H1 H2. rewrite Nat.pow_add_r. apply Nat.mul_le_mono; apply Nat.pow_le_mono_l; auto.
Qed.

Section Bits.
Variable n N c m : nat.
Variable expected probability : option Q.
Variable p : Q.
Hypothesis Hr : rate_is expected probability n p.
Hypothesis H0 : (0 <= p)%Q.
Hypothesis H1 : (p <= 1)%Q.
Hypothesis Hc : counts (fun k => inject_Z (Z.of_nat k) / inject_Z (Z.of_nat N) < p)%Q (seq 0 N) c.
Hypothesis Hm1 : m <= c.
Hypothesis Hm2 : m <= N - c.
Variable alphabet : list (list nat).
Hypothesis Ha : all_draws N n alphabet.

Lemma flip_closed d g : In d alphabet -> bit_string n g ->
  exists r, grid_flip expected probability N d g = Ok r /\ bit_string n (outcome_of r).
Proof.
  intros Hd [Lg Hg]. apply Ha in Hd. destruct Hd as [Ld _]. unfold grid_flip.
  destruct (bitflip_full expected probability (grid N d) g p) as (g' & E & Hb & Hl & _); auto.
  - unfold grid. rewrite map_length. congruence.
  - rewrite Lg. auto.
  - rewrite E. cbn [bind]. eexists. split; [reflexivity|]. unfold outcome_of. cbn [fst snd]. split; [congruence|exact Hb].
Qed.

Lemma differences_le g h : differences g h <= length g.
Proof.
  unfold differences. revert h. induction g as [|x g IH]; intros [|y h]; cbn [combine filter length]; try lia.
  specialize (IH h). destruct (negb _); cbn [length]; lia.
Qed.

Lemma flip_reach g h : bit_string n g -> bit_string n h ->
  exists k, counts (fun d => exists r, grid_flip expected probability N d g = Ok r /\ outcome_of r = h) alphabet k /\ m ^ n <= k.
Proof.
  intros [Lg Hg] [Lh Hh].
  exists (c ^ differences g h * (N - c) ^ (n - differences g h)). split.
  - assert (M := mutant_odds expected probability p N c g h alphabet). rewrite Lg in M.
    eapply counts_equiv; [|apply M; auto].
    intros d _. unfold grid_flip. destruct (genome_mutate_bitflip expected probability (grid N d) g) as [g'|e]; cbn [bind].
    + split; [intros E; injection E as ->; eexists; split; reflexivity|]. intros (r & E & <-). injection E as <-. reflexivity.
    + split; [discriminate|]. intros (r & E & _). discriminate.
  - pose proof (differences_le g h). replace n with (differences g h + (n - differences g h)) at 1 by lia.
    apply pow_mix; auto.
Qed.
End Bits.

(** ** integers *)
From Verif Require Import Spec.HeapRuns Proofs.Reach Proofs.HeapRuns.
Local Open Scope nat_scope.
Local Open Scope list_scope.

Lemma filter_prod_ge {A} (p : nat -> A -> bool) (u : list A) m : forall n k,
  (forall j, k <= j < k + n -> m <= length (filter (p j) u)) ->
  m ^ n <= length (filter (fun l => forallb (fun jx => p (fst jx) (snd jx)) (combine (seq k n) l)) (tuples u n)).
Proof.
  induction n as [|n IH]; intros k Hm; [cbn; lia|]. cbn [tuples seq].
  rewrite filter_flat_map.
  assert (E : forall v, length (filter (p k) v) * m ^ n <=
              length (flat_map (fun i => filter (fun l => forallb (fun jx => p (fst jx) (snd jx)) (combine (k :: seq (S k) n) l))
                (map (cons i) (tuples u n))) v)).
  { intros v. induction v as [|x v IHv]; [cbn; lia|]. cbn [flat_map filter]. rewrite app_length, filter_map_comp, map_length.
    set (rest := length (flat_map _ v)) in *. clearbody rest.
    cbn [combine forallb fst snd]. destruct (p k x) eqn:Ep; cbn [andb].
    - cbn [length Nat.mul]. specialize (IH (S k)).
      assert (m ^ n <= length (filter (fun l => forallb (fun jx => p (fst jx) (snd jx)) (combine (seq (S k) n) l)) (tuples u n))).
      { apply IH. intros j Hj. apply Hm. lia. }
      lia.
    - lia. }
  specialize (E u). cbn [Nat.pow]. assert (m <= length (filter (p k) u)) by (apply Hm; lia). nia.
Qed.

Lemma filter_mono {A} (q b : A -> bool) l : (forall x, In x l -> q x = true -> b x = true) ->
  length (filter q l) <= length (filter b l).
Proof.
  induction l as [|x l IH]; intros H; cbn; auto.
  assert (IH' : length (filter q l) <= length (filter b l)) by (apply IH; intros; apply H; cbn; auto).
  destruct (q x) eqn:E; [rewrite (H x (or_introl eq_refl) E); cbn; lia|]. destruct (b x); cbn; lia.
Qed.

Lemma filter_pairs {A B} (q1 : A -> bool) (q2 : B -> bool) l1 l2 :
  length (filter (fun xy => q1 (fst xy) && q2 (snd xy)) (list_prod l1 l2)) = length (filter q1 l1) * length (filter q2 l2).
Proof.
  induction l1 as [|x l1 IH]; [reflexivity|]. cbn [list_prod filter]. rewrite filter_app, app_length, IH, filter_map_comp, map_length.
  cbn [fst snd]. destruct (q1 x); cbn [andb length Nat.mul]; [reflexivity|].
  assert (E : filter (fun _ : B => false) l2 = []) by (clear; induction l2; auto). rewrite E. reflexivity.
Qed.

Lemma pairs_nodup {A B} (l1 : list A) (l2 : list B) : NoDup l1 -> NoDup l2 -> NoDup (list_prod l1 l2).
Proof.
  intros H1 H2. induction H1 as [|x l1 Hx H1 IH]; cbn; [constructor|]. apply NoDup_app_intro; auto.
  - apply FinFun.Injective_map_NoDup; auto. intros a b E. congruence.
  - intros [a b] Ha Hb. apply in_map_iff in Ha. destruct Ha as (y & E & _). injection E as <- <-.
    apply in_prod_iff in Hb. destruct Hb. auto.
Qed.

Lemma randint_enough low high v M L : (low <= v <= high)%Z -> (Z.of_nat M * (high + 1 - low) <= Z.of_nat L)%Z ->
  M <= length (filter (fun d => Z.eqb (Z.of_nat d mod (high + 1 - low)) (v - low)) (seq 0 L)).
Proof.
  intros Hv HL. destruct (randint_even low high v M Hv) as (b & Hb & E).
  set (R := Z.to_nat (high + 1 - low)) in *.
  assert (HR : M * R <= L) by (unfold R; nia).
  replace L with (M * R + (L - M * R)) by lia. rewrite seq_app, filter_app, app_length.
  rewrite <- E at 1. apply Nat.le_trans with (length (filter (fun d => Z.eqb (Z.of_nat d mod (high + 1 - low)) (v - low)) (seq 0 (M * R)))); [|lia].
  apply filter_mono. intros d Hd Hbd. apply Hb in Hbd; auto. unfold randint_gene in Hbd.
  destruct (Z.leb_spec (high + 1) low); [lia|]. injection Hbd as Hbd. apply Z.eqb_eq. lia.
Qed.

Lemma select_every {A} (mask : list bool) : Forall (fun b => b = true) mask -> forall m : list A, length m = length mask -> select_mask mask m = m.
Proof.
  induction 1 as [|b mask Hb HF IH]; intros [|x m] L; try discriminate; cbn [select_mask]; auto.
  rewrite Hb, IH by (cbn in L; lia). reflexivity.
Qed.
Lemma assign_every {A} (mask : list bool) : Forall (fun b => b = true) mask -> forall m new : list A,
  length m = length mask -> length new = length mask -> assign_mask mask m new = new.
Proof.
  induction 1 as [|b mask Hb HF IH]; intros [|x m] [|y new] L1 L2; try discriminate; cbn [assign_mask]; auto.
  rewrite Hb, IH by (cbn in *; lia). reflexivity.
Qed.

Section Ints.
Variable bs : list (Z * Z).
Variable N c M L : nat.
Variable expected probability : option Q.
Variable p : Q.
Notation n := (length bs).
Hypothesis Hr : rate_is expected probability n p.
Hypothesis H0 : (0 <= p)%Q.
Hypothesis H1 : (p <= 1)%Q.
Hypothesis Hc : counts (fun k => inject_Z (Z.of_nat k) / inject_Z (Z.of_nat N) < p)%Q (seq 0 N) c.
Hypothesis HM : Forall (fun b => fst b <= snd b /\ Z.of_nat M * (snd b + 1 - fst b) <= Z.of_nat L)%Z bs.
Variable coins numbers : list (list nat).
Hypothesis Hcoins : all_draws N n coins.
Hypothesis Hnumbers : all_draws L n numbers.

Lemma randint_closed d g : In d (list_prod coins numbers) -> int_box bs g ->
  exists r, grid_randint bs expected probability N d g = Ok r /\ int_box bs (outcome_of r).
Proof.
  intros Hd Hg. destruct d as [d1 d2]. apply in_prod_iff in Hd. destruct Hd as [Hd1 Hd2].
  apply Hcoins in Hd1. apply Hnumbers in Hd2. destruct Hd1 as [L1 _], Hd2 as [L2 _].
  assert (Lg : length g = n) by (exact (box_length _ _ g Hg)). unfold grid_randint. cbn [fst snd].
  destruct (randint_in_bounds bs expected probability (grid N d1) (map Z.of_nat d2) g p) as (g' & E & Hb & Hch); auto.
  - unfold grid. rewrite map_length. congruence.
  - rewrite map_length. lia.
  - rewrite Lg. auto.
  - eapply Forall_impl; [|exact HM]. intros b Hb. apply Hb.
  - rewrite E. cbn [bind]. eexists. split; [reflexivity|]. unfold outcome_of. cbn [fst snd].
    apply int_box_bounds in Hg. destruct Hg as [_ Hg]. apply int_box_bounds. destruct Hch as [Lg' _]. split; [congruence|auto].
Qed.

Lemma randint_hit h : int_box bs h -> forall g d1 d2, length g = n -> length d1 = n -> length d2 = n ->
  Forall (fun k => inject_Z (Z.of_nat k) / inject_Z (Z.of_nat N) < p)%Q d1 ->
  Forall2 (fun d xb => (Z.of_nat d mod (snd (snd xb) + 1 - fst (snd xb)) = fst xb - fst (snd xb))%Z) d2 (combine h bs) ->
  grid_randint bs expected probability N (d1, d2) g = Ok (h, None).
Proof.
  intros Hh g d1 d2 Lg L1 L2 F1 F2. unfold grid_randint, individual_mutate_randint. cbn [fst snd].
  assert (Hr' : rate_is expected probability (length g) p) by (rewrite Lg; auto).
  destruct (mask_of_rate AssertionError expected probability (grid N d1) (length g) p Hr' H0 H1) as [-> ->].
  cbn [bind]. unfold grid. rewrite !map_length, L1, Nat.eqb_refl, map_map.
  set (mask := map _ d1).
  assert (Lm : length mask = n) by (unfold mask; rewrite map_length; auto).
  assert (HF : Forall (fun b => b = true) mask).
  { unfold mask. apply Forall_map. eapply Forall_impl; [|exact F1]. intros k Hk. apply Qltb_lt. exact Hk. }
  rewrite select_every by (auto; lia).
  assert (E : randint_genes (map Z.of_nat d2) bs = Ok h).
  { clear - Hh F2. unfold int_box in Hh. revert d2 F2. induction Hh as [|x [low high] h bs Hx Hh IH]; intros d2 F2; cbn [combine] in F2.
    - inversion F2. reflexivity.
    - inversion F2 as [|d ? d2' ? Hd F2' ]; subst. cbn [map randint_genes]. cbn [fst snd] in *. unfold randint_gene.
      destruct (Z.leb_spec (high + 1) low); [lia|]. cbn [bind]. rewrite (IH d2' F2'). cbn [bind]. do 2 f_equal. lia. }
  rewrite E. cbn [bind]. rewrite assign_every; auto; try lia. pose proof (box_length _ _ h Hh). congruence.
Qed.

Lemma randint_reach g h : int_box bs g -> int_box bs h ->
  exists k, counts (fun d => exists r, grid_randint bs expected probability N d g = Ok r /\ outcome_of r = h)
              (list_prod coins numbers) k /\ (c * M) ^ n <= k.
Proof.
  intros Hg Hh.
  assert (Lg : length g = n) by (exact (box_length _ _ g Hg)).
  assert (Lh : length h = n) by (exact (box_length _ _ h Hh)).
  eexists. split.
  - exists (fun d => match grid_randint bs expected probability N d g with
              | Ok r => if list_eq_dec Z.eq_dec (outcome_of r) h then true else false | Err _ => false end).
    split; [|reflexivity]. intros d _. destruct (grid_randint bs expected probability N d g) as [r|e].
    + destruct (list_eq_dec Z.eq_dec (outcome_of r) h) as [E|E]; split; auto; try discriminate; eauto.
      intros (r' & Er & E'). injection Er as <-. contradiction.
    + split; [discriminate|]. intros (r & E & _). discriminate.
  - set (q1 := fun d1 => forallb (fun k => Qltb (inject_Z (Z.of_nat k) / inject_Z (Z.of_nat N)) p) d1).
    set (q2 := fun d2 => forallb (fun jx => let '(x, b) := nth (fst jx) (combine h bs) (0%Z, (0%Z, 0%Z)) in
                 Z.eqb (Z.of_nat (snd jx) mod (snd b + 1 - fst b)) (x - fst b)) (combine (seq 0 n) d2)).
    apply Nat.le_trans with (length (filter (fun xy => q1 (fst xy) && q2 (snd xy)) (list_prod coins numbers))).
    + rewrite filter_pairs, Nat.pow_mul_l. apply Nat.mul_le_mono.
      * unfold q1. rewrite (perm_filter_length _ _ _ (draws_perm N n coins Hcoins)), tuples_filter, tuples_length.
        destruct Hc as (b & Hb & <-). apply Nat.pow_le_mono_l, filter_mono. intros k Hk Hbk. apply Qltb_lt, Hb; auto.
      * unfold q2. rewrite (perm_filter_length _ _ _ (draws_perm L n numbers Hnumbers)).
        apply (filter_prod_ge (fun j d => let '(x, b) := nth j (combine h bs) (0%Z, (0%Z, 0%Z)) in
                 Z.eqb (Z.of_nat d mod (snd b + 1 - fst b)) (x - fst b))).
        intros j Hj. assert (Hin : In (nth j (combine h bs) (0%Z, (0%Z, 0%Z))) (combine h bs)).
        { apply nth_In. rewrite combine_length. lia. }
        destruct (nth j (combine h bs) (0%Z, (0%Z, 0%Z))) as [x [low high]]. cbn [fst snd].
        apply randint_enough.
        -- clear - Hh Hin. unfold int_box in Hh. induction Hh as [|y b h bs Hy Hh IH]; cbn in Hin; [destruct Hin|].
           destruct Hin as [E|Hin]; auto. injection E as -> ->. exact Hy.
        -- rewrite Forall_forall in HM. apply in_combine_r in Hin. apply (HM _ Hin).
    + apply filter_mono. intros [d1 d2] Hd Hq. cbn [fst snd] in Hq. apply andb_prop in Hq. destruct Hq as [Hq1 Hq2].
      apply in_prod_iff in Hd. destruct Hd as [Hd1 Hd2]. apply Hcoins in Hd1. apply Hnumbers in Hd2.
      rewrite (randint_hit h Hh g d1 d2); auto; try tauto.
      * unfold outcome_of. cbn [fst snd]. destruct (list_eq_dec Z.eq_dec h h); auto.
      * unfold q1 in Hq1. rewrite forallb_forall in Hq1. apply Forall_forall. intros k Hk. apply Qltb_lt, Hq1, Hk.
      * unfold q2 in Hq2. destruct Hd2 as [L2 _].
        assert (Hgen : forall k (l : list nat) (m : list (Z * (Z * Z))), length l = length m ->
          (forall j, nth j m (0, (0, 0))%Z = nth (k + j) (combine h bs) (0, (0, 0))%Z) ->
          forallb (fun jx => let '(x, b) := nth (fst jx) (combine h bs) (0%Z, (0%Z, 0%Z)) in
                 Z.eqb (Z.of_nat (snd jx) mod (snd b + 1 - fst b)) (x - fst b)) (combine (seq k (length m)) l) = true ->
          Forall2 (fun d xb => (Z.of_nat d mod (snd (snd xb) + 1 - fst (snd xb)) = fst xb - fst (snd xb))%Z) l m).
        { intros k l. revert k. induction l as [|d l IHl]; intros k [|xb m] Ll Hn Hf; try discriminate; constructor.
          - cbn [length seq combine forallb fst snd] in Hf. apply andb_prop in Hf. destruct Hf as [Hf _].
            specialize (Hn 0). rewrite Nat.add_0_r in Hn. cbn [nth] in Hn. rewrite <- Hn in Hf. destruct xb as [x b].
            cbn [fst snd]. apply Z.eqb_eq. exact Hf.
          - cbn [length seq combine forallb] in Hf. apply andb_prop in Hf. destruct Hf as [_ Hf].
            apply (IHl (S k)); auto. intros j. specialize (Hn (S j)). cbn [nth] in Hn. rewrite Hn. f_equal. lia. }
        apply (Hgen 0); auto.
        -- rewrite combine_length. lia.
        -- rewrite combine_length, Lh, Nat.min_id. exact Hq2.
Qed.
End Ints.
(** ** packaged *)
Lemma search :
  forall G P X (decoder_of : nat -> option (list G -> result P)) (problem_of : nat -> phen_value G P -> result num)
    (D : list G -> Prop) problem decoder robust (mutator : X -> list G -> result (list G * option (list G))) x0
    maximize coin k_elites size pick h alphabet s,
  NoDup alphabet -> In x0 alphabet ->
  (forall x g, In x alphabet -> D g -> exists r, mutator x g = Ok r /\ D (outcome_of r)) ->
  (forall g, D g -> exists c, counts (fun x => exists r, mutator x g = Ok r /\ outcome_of r = h) alphabet c /\ s <= c) ->
  robust = true \/ (forall g, D g -> exists f, score (decoder_of decoder) (problem_of problem) g = Ok f) ->
  (forall g g' m, D g -> D g' ->
     let f := outcome NNan (score (decoder_of decoder) (problem_of problem) g) in
     let f' := outcome NNan (score (decoder_of decoder) (problem_of problem) g') in
     blurred f f' -> ~ better m f f') ->
  (forall i w l k, l <> [] -> pick i w l k < length l) -> 1 <= k_elites -> 1 <= size ->
  forall initialize pop_size start (w : world G P num) T l,
  (forall k, D (initialize k)) -> 1 <= pop_size -> all_tables alphabet size T l ->
  exists c, counts (fun t => ~ found (decoder_of decoder) (problem_of problem) maximize h
      (heap_ea decoder_of problem_of maximize coin (start + Z.of_nat T) k_elites size
         (fun i => search_pipeline mutator x0 (nth i t [])) pick (fun _ _ _ => false)
         initialize problem decoder robust pop_size start w)) l c /\
    c <= (length alphabet - s) ^ (size * T) /\ length l = length alphabet ^ (size * T).
Proof.
  intros G P X decoder_of problem_of D problem decoder robust mutator x0 maximize coin k_elites size pick h alphabet s
    Hnd Hx0 Hcl Hre Hsc Hsh Hpk Hk Hsz initialize pop_size start w T l HD Hp Hl.
  exact (search_bound decoder_of problem_of D problem decoder robust mutator x0 maximize coin (start + Z.of_nat T) k_elites size pick h alphabet s
    Hx0 Hcl Hre Hsc Hsh Hpk Hk Hsz initialize pop_size start w T l Hnd HD Hp eq_refl Hl).
Qed.

Lemma search_eventually :
  forall G P X (decoder_of : nat -> option (list G -> result P)) (problem_of : nat -> phen_value G P -> result num)
    (D : list G -> Prop) problem decoder robust (mutator : X -> list G -> result (list G * option (list G))) x0
    maximize coin k_elites size pick h alphabet s,
  1 <= s -> NoDup alphabet -> In x0 alphabet ->
  (forall x g, In x alphabet -> D g -> exists r, mutator x g = Ok r /\ D (outcome_of r)) ->
  (forall g, D g -> exists c, counts (fun x => exists r, mutator x g = Ok r /\ outcome_of r = h) alphabet c /\ s <= c) ->
  robust = true \/ (forall g, D g -> exists f, score (decoder_of decoder) (problem_of problem) g = Ok f) ->
  (forall g g' m, D g -> D g' ->
     let f := outcome NNan (score (decoder_of decoder) (problem_of problem) g) in
     let f' := outcome NNan (score (decoder_of decoder) (problem_of problem) g') in
     blurred f f' -> ~ better m f f') ->
  (forall i w l k, l <> [] -> pick i w l k < length l) -> 1 <= k_elites -> 1 <= size ->
  forall B, exists T0, forall initialize pop_size start (w : world G P num) T l,
  T0 <= T -> (forall k, D (initialize k)) -> 1 <= pop_size -> all_tables alphabet size T l ->
  exists c, counts (fun t => ~ found (decoder_of decoder) (problem_of problem) maximize h
      (heap_ea decoder_of problem_of maximize coin (start + Z.of_nat T) k_elites size
         (fun i => search_pipeline mutator x0 (nth i t [])) pick (fun _ _ _ => false)
         initialize problem decoder robust pop_size start w)) l c /\
    B * c <= length l.
Proof.
  intros G P X decoder_of problem_of D problem decoder robust mutator x0 maximize coin k_elites size pick h alphabet s
    Hs Hnd Hx0 Hcl Hre Hsc Hsh Hpk Hk Hsz B. exists (S (B * length alphabet)).
  intros initialize pop_size start w T l HT HD Hp Hl.
  destruct (search_bound decoder_of problem_of D problem decoder robust mutator x0 maximize coin (start + Z.of_nat T) k_elites size pick h alphabet s
    Hx0 Hcl Hre Hsc Hsh Hpk Hk Hsz initialize pop_size start w T l Hnd HD Hp eq_refl Hl) as (c & Hc & Hle & HL).
  exists c. split; [exact Hc|]. rewrite HL.
  destruct (Hre (initialize 0) (HD 0)) as (c0 & (b & _ & Ec) & Hs0).
  pose proof (filter_split b alphabet) as Hsp.
  assert (Hn : S (B * length alphabet) <= size * T) by nia.
  pose proof (few_left (length alphabet) s B (size * T) Hs ltac:(lia) ltac:(lia) ltac:(lia)). nia.
Qed.

Lemma bit_search :
  forall P (decoder_of : nat -> option (list Z -> result P)) (problem_of : nat -> phen_value Z P -> result num)
    problem decoder robust maximize coin k_elites size pick n N below m expected probability p alphabet x0 h,
  rate_is expected probability n p -> (0 <= p)%Q -> (p <= 1)%Q ->
  counts (fun k => inject_Z (Z.of_nat k) / inject_Z (Z.of_nat N) < p)%Q (seq 0 N) below -> m <= below -> m <= N - below ->
  all_draws N n alphabet -> In x0 alphabet -> bit_string n h ->
  robust = true \/ (forall g, bit_string n g -> exists f, score (decoder_of decoder) (problem_of problem) g = Ok f) ->
  (forall g g' m, bit_string n g -> bit_string n g' ->
     let f := outcome NNan (score (decoder_of decoder) (problem_of problem) g) in
     let f' := outcome NNan (score (decoder_of decoder) (problem_of problem) g') in
     blurred f f' -> ~ better m f f') ->
  (forall i w l k, l <> [] -> pick i w l k < length l) -> 1 <= k_elites -> 1 <= size ->
  forall initialize pop_size start (w : world Z P num) T l,
  (forall k, bit_string n (initialize k)) -> 1 <= pop_size -> all_tables alphabet size T l ->
  exists c, counts (fun t => ~ found (decoder_of decoder) (problem_of problem) maximize h
      (heap_ea decoder_of problem_of maximize coin (start + Z.of_nat T) k_elites size
         (fun i => search_pipeline (grid_flip expected probability N) x0 (nth i t [])) pick (fun _ _ _ => false)
         initialize problem decoder robust pop_size start w)) l c /\
    c <= (N ^ n - m ^ n) ^ (size * T) /\ length l = (N ^ n) ^ (size * T).
Proof.
  intros P decoder_of problem_of problem decoder robust maximize coin k_elites size pick n N below m expected probability p alphabet x0 h
    Hr H0 H1 Hb Hm1 Hm2 Ha Hx0 Hh Hsc Hsh Hpk Hk Hsz.
  rewrite <- (draws_total N n alphabet Ha).
  apply (search Z P (list nat) decoder_of problem_of (bit_string n) problem decoder robust (grid_flip expected probability N) x0
    maximize coin k_elites size pick h alphabet (m ^ n) (draws_nodup _ _ _ Ha) Hx0); auto.
  - intros x g. apply (flip_closed n N expected probability p Hr H0 H1 alphabet Ha).
  - intros g Hg. apply (flip_reach n N below m expected probability p Hr H0 H1 Hb Hm1 Hm2 alphabet Ha g h Hg Hh).
Qed.

Lemma bit_search_eventually :
  forall P (decoder_of : nat -> option (list Z -> result P)) (problem_of : nat -> phen_value Z P -> result num)
    problem decoder robust maximize coin k_elites size pick n N below m expected probability p alphabet x0 h,
  1 <= m -> rate_is expected probability n p -> (0 <= p)%Q -> (p <= 1)%Q ->
  counts (fun k => inject_Z (Z.of_nat k) / inject_Z (Z.of_nat N) < p)%Q (seq 0 N) below -> m <= below -> m <= N - below ->
  all_draws N n alphabet -> In x0 alphabet -> bit_string n h ->
  robust = true \/ (forall g, bit_string n g -> exists f, score (decoder_of decoder) (problem_of problem) g = Ok f) ->
  (forall g g' m, bit_string n g -> bit_string n g' ->
     let f := outcome NNan (score (decoder_of decoder) (problem_of problem) g) in
     let f' := outcome NNan (score (decoder_of decoder) (problem_of problem) g') in
     blurred f f' -> ~ better m f f') ->
  (forall i w l k, l <> [] -> pick i w l k < length l) -> 1 <= k_elites -> 1 <= size ->
  forall B, exists T0, forall initialize pop_size start (w : world Z P num) T l,
  T0 <= T -> (forall k, bit_string n (initialize k)) -> 1 <= pop_size -> all_tables alphabet size T l ->
  exists c, counts (fun t => ~ found (decoder_of decoder) (problem_of problem) maximize h
      (heap_ea decoder_of problem_of maximize coin (start + Z.of_nat T) k_elites size
         (fun i => search_pipeline (grid_flip expected probability N) x0 (nth i t [])) pick (fun _ _ _ => false)
         initialize problem decoder robust pop_size start w)) l c /\
    B * c <= length l.
Proof.
  intros P decoder_of problem_of problem decoder robust maximize coin k_elites size pick n N below m expected probability p alphabet x0 h
    Hm Hr H0 H1 Hb Hm1 Hm2 Ha Hx0 Hh Hsc Hsh Hpk Hk Hsz.
  assert (Hs : 1 <= m ^ n) by (pose proof (Nat.pow_nonzero m n); lia).
  apply (search_eventually Z P (list nat) decoder_of problem_of (bit_string n) problem decoder robust (grid_flip expected probability N) x0
    maximize coin k_elites size pick h alphabet (m ^ n) Hs (draws_nodup _ _ _ Ha) Hx0); auto.
  - intros x g. apply (flip_closed n N expected probability p Hr H0 H1 alphabet Ha).
  - intros g Hg. apply (flip_reach n N below m expected probability p Hr H0 H1 Hb Hm1 Hm2 alphabet Ha g h Hg Hh).
Qed.

Lemma int_search :
  forall P (decoder_of : nat -> option (list Z -> result P)) (problem_of : nat -> phen_value Z P -> result num)
    problem decoder robust maximize coin k_elites size pick bs N below M L expected probability p coins numbers x0 h,
  rate_is expected probability (length bs) p -> (0 <= p)%Q -> (p <= 1)%Q ->
  counts (fun k => inject_Z (Z.of_nat k) / inject_Z (Z.of_nat N) < p)%Q (seq 0 N) below ->
  Forall (fun b => fst b <= snd b /\ Z.of_nat M * (snd b + 1 - fst b) <= Z.of_nat L)%Z bs ->
  all_draws N (length bs) coins -> all_draws L (length bs) numbers -> In x0 (list_prod coins numbers) -> int_box bs h ->
  robust = true \/ (forall g, int_box bs g -> exists f, score (decoder_of decoder) (problem_of problem) g = Ok f) ->
  (forall g g' m, int_box bs g -> int_box bs g' ->
     let f := outcome NNan (score (decoder_of decoder) (problem_of problem) g) in
     let f' := outcome NNan (score (decoder_of decoder) (problem_of problem) g') in
     blurred f f' -> ~ better m f f') ->
  (forall i w l k, l <> [] -> pick i w l k < length l) -> 1 <= k_elites -> 1 <= size ->
  forall initialize pop_size start (w : world Z P num) T l,
  (forall k, int_box bs (initialize k)) -> 1 <= pop_size -> all_tables (list_prod coins numbers) size T l ->
  exists c, counts (fun t => ~ found (decoder_of decoder) (problem_of problem) maximize h
      (heap_ea decoder_of problem_of maximize coin (start + Z.of_nat T) k_elites size
         (fun i => search_pipeline (grid_randint bs expected probability N) x0 (nth i t [])) pick (fun _ _ _ => false)
         initialize problem decoder robust pop_size start w)) l c /\
    c <= ((N * L) ^ length bs - (below * M) ^ length bs) ^ (size * T) /\ length l = ((N * L) ^ length bs) ^ (size * T).
Proof.
  intros P decoder_of problem_of problem decoder robust maximize coin k_elites size pick bs N below M L expected probability p coins numbers x0 h
    Hr H0 H1 Hb HM Hco Hnu Hx0 Hh Hsc Hsh Hpk Hk Hsz.
  rewrite Nat.pow_mul_l with (a := N), <- (draws_total N _ coins Hco), <- (draws_total L _ numbers Hnu), <- prod_length.
  apply (search Z P (list nat * list nat) decoder_of problem_of (int_box bs) problem decoder robust (grid_randint bs expected probability N) x0
    maximize coin k_elites size pick h (list_prod coins numbers) ((below * M) ^ length bs)
    (pairs_nodup _ _ (draws_nodup _ _ _ Hco) (draws_nodup _ _ _ Hnu)) Hx0); auto.
  - intros x g. apply (randint_closed bs N M L expected probability p Hr H0 H1 HM coins numbers Hco Hnu).
  - intros g Hg. apply (randint_reach bs N below M L expected probability p Hr H0 H1 Hb HM coins numbers Hco Hnu g h Hg Hh).
Qed.

Lemma int_search_eventually :
  forall P (decoder_of : nat -> option (list Z -> result P)) (problem_of : nat -> phen_value Z P -> result num)
    problem decoder robust maximize coin k_elites size pick bs N below M L expected probability p coins numbers x0 h,
  1 <= below * M -> rate_is expected probability (length bs) p -> (0 <= p)%Q -> (p <= 1)%Q ->
  counts (fun k => inject_Z (Z.of_nat k) / inject_Z (Z.of_nat N) < p)%Q (seq 0 N) below ->
  Forall (fun b => fst b <= snd b /\ Z.of_nat M * (snd b + 1 - fst b) <= Z.of_nat L)%Z bs ->
  all_draws N (length bs) coins -> all_draws L (length bs) numbers -> In x0 (list_prod coins numbers) -> int_box bs h ->
  robust = true \/ (forall g, int_box bs g -> exists f, score (decoder_of decoder) (problem_of problem) g = Ok f) ->
  (forall g g' m, int_box bs g -> int_box bs g' ->
     let f := outcome NNan (score (decoder_of decoder) (problem_of problem) g) in
     let f' := outcome NNan (score (decoder_of decoder) (problem_of problem) g') in
     blurred f f' -> ~ better m f f') ->
  (forall i w l k, l <> [] -> pick i w l k < length l) -> 1 <= k_elites -> 1 <= size ->
  forall B, exists T0, forall initialize pop_size start (w : world Z P num) T l,
  T0 <= T -> (forall k, int_box bs (initialize k)) -> 1 <= pop_size -> all_tables (list_prod coins numbers) size T l ->
  exists c, counts (fun t => ~ found (decoder_of decoder) (problem_of problem) maximize h
      (heap_ea decoder_of problem_of maximize coin (start + Z.of_nat T) k_elites size
         (fun i => search_pipeline (grid_randint bs expected probability N) x0 (nth i t [])) pick (fun _ _ _ => false)
         initialize problem decoder robust pop_size start w)) l c /\
    B * c <= length l.
Proof.
  intros P decoder_of problem_of problem decoder robust maximize coin k_elites size pick bs N below M L expected probability p coins numbers x0 h
    Hm Hr H0 H1 Hb HM Hco Hnu Hx0 Hh Hsc Hsh Hpk Hk Hsz.
  assert (Hs : 1 <= (below * M) ^ length bs) by (pose proof (Nat.pow_nonzero (below * M) (length bs)); lia).
  apply (search_eventually Z P (list nat * list nat) decoder_of problem_of (int_box bs) problem decoder robust (grid_randint bs expected probability N) x0
    maximize coin k_elites size pick h (list_prod coins numbers) ((below * M) ^ length bs) Hs
    (pairs_nodup _ _ (draws_nodup _ _ _ Hco) (draws_nodup _ _ _ Hnu)) Hx0); auto.
  - intros x g. apply (randint_closed bs N M L expected probability p Hr H0 H1 HM coins numbers Hco Hnu).
  - intros g Hg. apply (randint_reach bs N below M L expected probability p Hr H0 H1 Hb HM coins numbers Hco Hnu g h Hg Hh).
Qed.

Lemma ex_tables_all : all_tables ex_coins 1 2 ex_tables2.
Proof.
  assert (E : ex_tables2 = tuples (tuples ex_coins 1) 2) by (vm_compute; reflexivity).
  assert (Hn : NoDup ex_coins) by (repeat constructor; cbn; intuition discriminate).
  rewrite E. split; [apply tuples_nodup, tuples_nodup, Hn|].
  intros t. rewrite tuples_in. split; intros [L H]; (split; [auto|]); revert H; apply Forall_impl; intros gen;
    rewrite tuples_in; auto.
Qed.

Lemma no_elites :
  exists l c, all_tables ex_coins 1 2 l /\
    counts (fun t => ~ found (no_decoder 0) (max_ones_problem 0) true [1; 1]%Z (ex_search 0 [1; 1]%Z t)) l c /\
    (2 ^ 2 - 1 ^ 2) ^ (1 * 2) < c.
Proof.
  exists ex_tables2, 12. split; [exact ex_tables_all|]. split; [|vm_compute; lia].
  exists (fun t => missed no_decoder max_ones_problem 0 0 true [1; 1]%Z (ex_search 0 [1; 1]%Z t)). split.
  - intros t _. apply (missed_spec no_decoder max_ones_problem 0 0 true [1; 1]%Z).
  - assert (B : forall k, better true (NInt 2) (NInt k) <-> (k < 2)%Z).
    { intros k. unfold better. cbn. unfold Qlt. cbn. lia. }
    vm_compute.
    destruct (better_dec true (NInt 2) (NInt 2)) as [B2|_]; [apply B in B2; discriminate B2|].
    destruct (better_dec true (NInt 2) (NInt 1)) as [_|B1]; [|destruct B1; apply B; reflexivity].
    destruct (better_dec true (NInt 2) (NInt 0)) as [_|B0]; [|destruct B0; apply B; reflexivity].
    reflexivity.
Qed.

Lemma coins_fit :
  rate_is None (Some (1 # 2)%Q) 2 (1 # 2) /\ all_draws 2 2 ex_coins /\ In [0; 0] ex_coins /\ bit_string 2 [1; 1]%Z /\
  counts (fun k => inject_Z (Z.of_nat k) / inject_Z (Z.of_nat 2) < 1 # 2)%Q (seq 0 2) 1.
Proof.
  split; [left; auto|]. split.
  - assert (E : ex_coins = tuples (seq 0 2) 2) by (vm_compute; reflexivity). rewrite E.
    split; [apply tuples_nodup, seq_NoDup|]. intros d. rewrite tuples_in.
    split; intros [? H]; (split; [auto|]); revert H; apply Forall_impl; intros i; rewrite in_seq; lia.
  - split; [cbn; auto|]. split; [split; [reflexivity|constructor; auto; constructor; auto]|].
    exists (fun k => Nat.eqb k 0). split; [|reflexivity]. intros k [<-|[<-|[]]];
      (split; [intros E; try discriminate E; vm_compute; reflexivity|intros E; try reflexivity; vm_compute in E; discriminate E]).
Qed.
