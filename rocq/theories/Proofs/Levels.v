From Coq Require Import Lia Lqa Permutation QArith.
From Verif Require Import Model.Base Model.PyList Model.Scalar Model.Selection Model.Counters Model.Heap Model.Pipeline Model.HeapEa
  Spec.Order Spec.Selection Spec.Heap Spec.HeapEa Spec.Odds Spec.Search Spec.Levels
  Proofs.Order Proofs.PyList Proofs.ScalarSel Proofs.Algorithm Proofs.Heap Proofs.Pipeline Proofs.HeapEa Proofs.Odds Proofs.Search.
Local Open Scope nat_scope.
Local Open Scope list_scope.

Notation qn n := (inject_Z (Z.of_nat n%nat)).

(** ** sums *)
Definition nsum (l : list nat) : nat := fold_right Nat.add 0 l.
Lemma nsum_app a b : nsum (a ++ b) = nsum a + nsum b.
Proof. induction a as [|x a IH]; cbn [app nsum fold_right]; auto. fold (nsum (a ++ b)). fold (nsum a). lia. Qed.
Lemma nsum_perm a b : Permutation a b -> nsum a = nsum b.
Proof. induction 1; cbn [nsum fold_right] in *; unfold nsum in *; cbn; lia. Qed.
Lemma qn_add a b : (qn (a + b) == qn a + qn b)%Q.
Proof. rewrite Nat2Z.inj_add, inject_Z_plus. reflexivity. Qed.
Lemma qn_mul a b : (qn (a * b) == qn a * qn b)%Q.
Proof. rewrite Nat2Z.inj_mul, inject_Z_mult. reflexivity. Qed.
Lemma qn_nonneg a : (0 <= qn a)%Q.
Proof. change 0%Q with (inject_Z 0). rewrite <- Zle_Qle. lia. Qed.
Lemma qn_pos a : 1 <= a -> (0 < qn a)%Q.
Proof. intros H. change 0%Q with (inject_Z 0). rewrite <- Zlt_Qlt. lia. Qed.
Lemma qn_le a b : a <= b -> (qn a <= qn b)%Q.
Proof. intros H. rewrite <- Zle_Qle. lia. Qed.

Lemma nsum_flat {A B} (f : B -> nat) (q : A -> list B) u :
  nsum (map f (flat_map q u)) = nsum (map (fun x => nsum (map f (q x))) u).
Proof. induction u as [|x u IH]; cbn [flat_map map]; auto. rewrite map_app, nsum_app, IH. reflexivity. Qed.

(** [b] marks at least [c] of [u], where the bound is smaller by [d] *)
Lemma sum_drop {A} (f : A -> nat) (b : A -> bool) (big d M : Q) u c : (0 <= d)%Q -> (0 <= M)%Q ->
  (forall x, In x u -> qn (f x) <= M * (if b x then big - d else big))%Q -> c <= length (filter b u) ->
  (qn (nsum (map f u)) <= M * (qn (length u) * big - qn c * d))%Q.
Proof.
  intros Hd HM Hf Hc.
  assert (H : (qn (nsum (map f u)) <= M * (qn (length u) * big - qn (length (filter b u)) * d))%Q).
  { clear Hc. induction u as [|x u IH]; [cbn; change (inject_Z 0) with 0%Q; lra|].
    assert (IH' := IH (fun y Hy => Hf y (or_intror Hy))). clear IH.
    specialize (Hf x (or_introl eq_refl)). cbn [map nsum fold_right filter]. fold (nsum (map f u)).
    rewrite qn_add. cbn [length]. change (S (length u)) with (1 + length u). rewrite qn_add.
    set (S0 := qn (nsum (map f u))) in *. set (L := qn (length u)) in *. set (F := qn (f x)) in *.
    change (qn 1) with 1%Q.
    destruct (b x).
    - cbn [length]. change (S (length (filter b u))) with (1 + length (filter b u)). rewrite qn_add. change (qn 1) with 1%Q.
      set (C := qn (length (filter b u))) in *. clearbody S0 L F C.
      assert (E : (M * ((1 + L) * big - (1 + C) * d) == M * (big - d) + M * (L * big - C * d))%Q) by ring.
      rewrite E. lra.
    - set (C := qn (length (filter b u))) in *. clearbody S0 L F C.
      assert (E : (M * ((1 + L) * big - C * d) == M * big + M * (L * big - C * d))%Q) by ring.
      rewrite E. lra. }
  apply (Qle_trans _ _ _ H). rewrite !(Qmult_comm M). apply Qmult_le_compat_r; auto.
  assert (H2 : (qn c * d <= qn (length (filter b u)) * d)%Q) by (apply Qmult_le_compat_r; auto; apply qn_le; auto).
  lra.
Qed.

(** ** level sums *)
Lemma level_sum_step K s i m : i < m -> level_sum K s i m = (qn K / qn (s i) + level_sum K s (S i) m)%Q.
Proof.
  intros H. unfold level_sum. replace (m - i) with (S (m - S i)) by lia. reflexivity.
Qed.
Lemma level_sum_none K s i m : m <= i -> level_sum K s i m = 0%Q.
Proof. intros H. unfold level_sum. replace (m - i) with 0 by lia. reflexivity. Qed.
Lemma share_nonneg K a : (0 <= qn K / qn a)%Q.
Proof.
  unfold Qdiv. apply Qmult_le_0_compat; [apply qn_nonneg|]. apply Qinv_le_0_compat, qn_nonneg.
Qed.
Lemma level_sum_nonneg K s m : forall d i, d = m - i -> (0 <= level_sum K s i m)%Q.
Proof.
  induction d as [|d IH]; intros i Hd.
  - rewrite level_sum_none by lia. lra.
  - rewrite level_sum_step by lia. pose proof (share_nonneg K (s i)). specialize (IH (S i) ltac:(lia)). lra.
Qed.
Lemma level_sum_mono K s m i j : i <= j -> (level_sum K s j m <= level_sum K s i m)%Q.
Proof.
  intros H. induction H as [|j H IH]; [lra|].
  destruct (Nat.lt_ge_cases j m) as [Hj|Hj].
  - rewrite (level_sum_step K s j m Hj) in IH. pose proof (share_nonneg K (s j)). lra.
  - rewrite (level_sum_none K s (S j) m) by lia. rewrite (level_sum_none K s j m Hj) in IH. exact IH.
Qed.

(** ** one generation *)
Section Levels.
Context {G P X : Type}.
Variable decoder_of : nat -> option (list G -> result P).
Variable problem_of : nat -> phen_value G P -> result num.
Implicit Types w : world G P num.
Variable D : list G -> Prop.
Variable problem decoder : nat.
Variable robust : bool.
Variable mutator : X -> list G -> result (list G * option (list G)).
Variable x0 : X.
Notation pool := (pool NNan decoder_of problem_of).
Notation good := (good decoder_of problem_of D problem decoder robust).
Notation value := (value decoder_of problem_of problem decoder).
Variable maximize : bool.
Variable coin : nat -> sind -> sind -> bool.
Variable k_elites : nat.
Variable size : nat.
Variable pop_size : nat.
Variable pick : nat -> world G P num -> list nat -> nat -> nat.
Notation never := (fun (_ : nat) (_ : world G P num) (_ : list nat) => false).
Notation loop max_generations operators :=
  (ea_loop decoder_of problem_of maximize coin max_generations k_elites size operators pick never).
Variable alphabet : list X.
Variable level : list G -> nat.
Variable m : nat.
Variable s : nat -> nat.
Notation K := (length alphabet).
Notation worth g := (outcome NNan (score (decoder_of decoder) (problem_of problem) g)).
Hypothesis nodup : NoDup alphabet.
Hypothesis x0_in : In x0 alphabet.
Hypothesis closed : forall x g, In x alphabet -> D g -> exists r, mutator x g = Ok r /\ D (outcome_of r).
Hypothesis climb : forall g, D g -> level g < m -> 1 <= s (level g) /\
  exists c, counts (fun x => exists r, mutator x g = Ok r /\ level g < level (outcome_of r)) alphabet c /\ s (level g) <= c.
Hypothesis scored : robust = true \/ forall g, D g -> exists f, score (decoder_of decoder) (problem_of problem) g = Ok f.
Hypothesis ranked : forall g g', D g -> D g' -> level g < level g' -> better maximize (worth g') (worth g).
Hypothesis sharp_values : forall g g' m, D g -> D g' ->
  let f := worth g in let f' := worth g' in blurred f f' -> ~ better m f f'.
Hypothesis picks : forall i w l k, l <> [] -> pick i w l k < length l.
Hypothesis greedy : forall i w l p q, length l = pop_size \/ length l = size ->
  nth_error l (pick i w l 0) = Some p -> In q l -> level (genes w q) <= level (genes w p).
Hypothesis elites1 : 1 <= k_elites.
Hypothesis size1 : 1 <= size.

Notation table_ops t := (fun i => search_pipeline mutator x0 (nth i t [])).

Lemma gen_alphabet (gen : list X) k : Forall (fun x => In x alphabet) gen -> In (nth k gen x0) alphabet.
Proof.
  intros H. destruct (nth_in_or_default k gen x0) as [Hk|Hk]; [|rewrite Hk; auto]. rewrite Forall_forall in H. auto.
Qed.

Lemma gen_fine gen : Forall (fun x => In x alphabet) gen ->
  (clone_vary_evaluate (search_pipeline mutator x0 gen) /\ Forall (stays_within D) (search_pipeline mutator x0 gen)) /\
  Forall (works_on D) (search_pipeline mutator x0 gen).
Proof.
  intros H. split; [split|].
  - exists [OpMutate (fun k g => mutator (nth k gen x0) g) false]. split; [reflexivity|repeat constructor].
  - repeat constructor. intros k g ip fr Hg E. destruct (closed _ g (gen_alphabet gen k H) Hg) as (r & E2 & HD).
    rewrite E in E2. injection E2 as <-. exact HD.
  - repeat constructor. intros k g Hg. destruct (closed _ g (gen_alphabet gen k H) Hg) as (r & E2 & HD). eauto.
Qed.

Definition step (i : nat) w (parents : list nat) (gen : list X) : world G P num * list nat :=
  let stack := search_pipeline mutator x0 gen ++ [OpSelect parents (pick i w parents)] in
  match pool size stack (start stack) w with
  | Ok (offspring, _, w1) =>
      match survive maximize coin k_elites i w1 offspring parents with
      | Ok survivors => (w1, survivors)
      | Err _ => (w, [])
      end
  | Err _ => (w, [])
  end.

Definition plevel w (l : list nat) : nat := fold_right (fun y a => Nat.max (level (genes w y)) a) 0 l.
Lemma plevel_ge w l y : In y l -> level (genes w y) <= plevel w l.
Proof. induction l as [|x l IH]; cbn; [tauto|]. intros [->|H]; [lia|]. specialize (IH H). unfold plevel in IH. lia. Qed.
Lemma plevel_in w l : l <> [] -> exists y, In y l /\ level (genes w y) = plevel w l.
Proof.
  induction l as [|x l IH]; [tauto|]. intros _. cbn [plevel fold_right]. fold (plevel w l).
  destruct (list_eq_dec Nat.eq_dec l []) as [->|Hl].
  - exists x. cbn. split; auto. lia.
  - destruct (IH Hl) as (y & Hy & E). destruct (Nat.max_spec (level (genes w x)) (plevel w l)) as [[_ ->]|[_ ->]].
    + exists y. cbn. auto.
    + exists x. cbn. auto.
Qed.

Lemma good_D w l y : good w l -> In y l -> D (genes w y).
Proof. intros (_ & _ & H) Hy. destruct (H y Hy) as (_ & _ & (K0 & _) & _). exact K0. Qed.

(** what a generation leads to *)
Lemma step_spec i w parents gen : good w parents -> parents <> [] -> Forall (fun x => In x alphabet) gen -> length gen = size ->
  let w1 := fst (step i w parents gen) in let surv := snd (step i w parents gen) in
  good w1 surv /\ length surv = size /\ plevel w parents <= plevel w1 surv /\
  (forall p r, nth_error parents (pick i w parents 0) = Some p -> mutator (nth 0 gen x0) (genes w p) = Ok r ->
     level (outcome_of r) <= plevel w1 surv) /\
  (exists offspring sts, let stack := search_pipeline mutator x0 gen ++ [OpSelect parents (pick i w parents)] in
     pool size stack (start stack) w = Ok (offspring, sts, w1) /\ survive maximize coin k_elites i w1 offspring parents = Ok surv).
Proof.
  intros HG Hne Hgen Lg.
  destruct (gen_fine gen Hgen) as [Hcs Hw].
  destruct (loop_works decoder_of problem_of D problem decoder robust maximize coin k_elites 1%Z size
    (fun _ => search_pipeline mutator x0 gen) pick never (fun _ => Hcs) scored (fun _ => Hw) picks size1 1 i (inc_generation 0%Z) w [] parents HG Hne)
    as (final & w' & pops & gc' & E & _); [cbn; lia|].
  cbn [ea_loop inc_generation gc_generation gc_curr] in E. cbn [Z.ltb Z.compare] in E.
  unfold step. set (stack := search_pipeline mutator x0 gen ++ [OpSelect parents (pick i w parents)]) in *.
  destruct (pool size stack (start stack) w) as [[[offspring sts] w1]|e] eqn:EP; [|discriminate]. clear E.
  destruct Hcs as [Hc Hs].
  destruct (generation_good decoder_of problem_of D problem decoder robust maximize coin k_elites i w parents _ _ _ _ _ _ HG Hc Hs EP)
    as (Hgr & Lo & surv & Es & Ls & Gs & Go & Gp & Eq & Hpart).
  rewrite Es. cbn [fst snd]. split; [auto|]. split; [auto|].
  set (o := map (fun j => mk_sind j (value w1 j)) offspring) in *.
  set (p' := map (fun j => mk_sind j (value w1 j)) parents) in *.
  assert (HD : forall j, In j (offspring ++ parents) -> D (genes w1 j)).
  { intros j Hj. apply in_app_or in Hj. destruct Hj as [Hj|Hj]; [apply (good_D w1 offspring)|apply (good_D w1 parents)]; auto. }
  assert (Hsharp : sharp (map si_fit (o ++ p'))).
  { intros f f' b Hf Hf'. unfold o, p' in Hf, Hf'. rewrite <- map_app, map_map in Hf, Hf'. cbn in Hf, Hf'.
    apply in_map_iff in Hf, Hf'. destruct Hf as (j1 & <- & Hj1), Hf' as (j2 & <- & Hj2). apply sharp_values; auto. }
  assert (Hone : o <> []).
  { intros C. unfold o in C. apply map_eq_nil in C. rewrite C in Lo. cbn in Lo. lia. }
  destruct (elitist_keeps_best maximize (coin i) o p' k_elites Hsharp elites1 Hone) as (_ & _ & Hkb).
  assert (Hkeep : forall j, In j (offspring ++ parents) -> level (genes w1 j) <= plevel w1 surv).
  { intros j Hj. destruct (Hkb (mk_sind j (value w1 j))) as (y & Hy & Hnb).
    { unfold o, p'. rewrite <- map_app. apply (in_map (fun j => mk_sind j (value w1 j))). auto. }
    assert (Hy1 : In (si_id y) surv) by (rewrite Eq; apply in_map; auto).
    assert (Hy2 : In y (map (fun j => mk_sind j (value w1 j)) (offspring ++ parents))) by (eapply part_in; eauto).
    apply in_map_iff in Hy2. destruct Hy2 as (j2 & <- & Hj2). unfold nbi in Hnb. cbn [si_fit si_id] in *.
    pose proof (plevel_ge w1 surv j2 Hy1). destruct (Nat.lt_ge_cases (level (genes w1 j2)) (level (genes w1 j))) as [Hlt|]; [|lia].
    exfalso. apply Hnb. apply ranked; auto. }
  split; [|split].
  - destruct (plevel_in w parents Hne) as (y & Hy & <-).
    assert (Eg : genes w1 y = genes w y).
    { destruct HG as (_ & _ & HG). destruct (HG y Hy) as (A & B & _). destruct (grows_same w w1 y Hgr A B) as [_ Eg]. exact Eg. }
    rewrite <- Eg. apply Hkeep, in_or_app. auto.
  - intros p r Ep Er.
    destruct (nth_error offspring 0) as [c|] eqn:Ec; [|apply nth_error_None in Ec; lia].
    assert (Hpar : forall j, In j parents -> j < w_nind w /\ i_genome (w_ind w j) < w_narr w).
    { intros j Hj. destruct HG as (_ & _ & HG). destruct (HG j Hj) as (A & B & _). auto. }
    assert (I0 : inv w w ([] ++ held (start stack))) by (rewrite held_start; apply inv_init).
    destruct (pool_bred decoder_of problem_of mutator x0 w gen parents (pick i w parents) Hpar size 0 _ _ _ _ _ []
      (start_at_step mutator x0 gen parents _) I0 EP 0 c Ec) as (p2 & r2 & Ep2 & Er2 & Eg). cbn [Nat.add] in Ep2, Er2.
    rewrite Ep in Ep2. injection Ep2 as <-. rewrite Er in Er2. injection Er2 as <-. rewrite <- Eg.
    apply Hkeep, in_or_app. left. eapply nth_error_In; eauto.
  - exists offspring, sts. auto.
Qed.

Fixpoint after (t : list (list X)) (i : nat) w (parents : list nat) : world G P num * list nat :=
  match t with
  | [] => (w, parents)
  | gen :: t' => after t' (S i) (fst (step i w parents gen)) (snd (step i w parents gen))
  end.

Definition valid (t : list (list X)) : Prop := Forall (fun gen => length gen = size /\ Forall (fun x => In x alphabet) gen) t.

(** the loop does what [after] says *)
Lemma loop_after : forall t pre gc w earlier parents, good w parents -> parents <> [] -> valid t ->
  exists pops gc', loop (gc_curr gc + Z.of_nat (length t))%Z (table_ops (pre ++ t)) (length t) (length pre) gc w earlier parents =
    Some (Ok (snd (after t (length pre) w parents), fst (after t (length pre) w parents), pops), gc').
Proof.
  induction t as [|gen t IH]; intros pre gc w earlier parents HG Hne HV; cbn [length ea_loop after].
  - unfold gc_generation. destruct (Z.ltb_spec (gc_curr gc) (gc_curr gc + Z.of_nat 0)); [lia|]. cbn [fst snd]. eauto.
  - unfold gc_generation. destruct (Z.ltb_spec (gc_curr gc) (gc_curr gc + Z.of_nat (S (length t)))); [|lia].
    rewrite app_nth2, Nat.sub_diag by lia. cbn [nth].
    destruct (Forall_inv HV) as [Lg Hgen].
    destruct (step_spec (length pre) w parents gen HG Hne Hgen Lg) as (Gs & Ls & _ & _ & offspring & sts & EP & Es).
    cbn zeta in *. set (w1 := fst (step (length pre) w parents gen)) in *. set (surv := snd (step (length pre) w parents gen)) in *.
    rewrite EP, Es.
    destruct (IH (pre ++ [gen]) (snd (gc_increment [] gc)) w1 (earlier ++ [parents]) surv Gs) as (pops & gc' & E).
    + intros C. rewrite C in Ls. cbn in Ls. lia.
    + exact (Forall_inv_tail HV).
    + rewrite app_length in E. cbn [length] in E. replace (length pre + 1) with (S (length pre)) in E by lia.
      rewrite <- app_assoc in E. cbn [app] in E. exists pops, gc'. rewrite <- E.
      cbn [gc_increment snd gc_curr]. f_equal. lia.
Qed.

Lemma after_good : forall t i w parents, good w parents -> parents <> [] -> valid t ->
  let w' := fst (after t i w parents) in let l := snd (after t i w parents) in
  good w' l /\ l <> [] /\ plevel w parents <= plevel w' l.
Proof.
  induction t as [|gen t IH]; intros i w parents HG Hne HV; cbn [after].
  - cbn [fst snd]. auto.
  - destruct (Forall_inv HV) as [Lg Hgen].
    destruct (step_spec i w parents gen HG Hne Hgen Lg) as (Gs & Ls & Hl & _). cbn zeta in *.
    destruct (IH (S i) (fst (step i w parents gen)) (snd (step i w parents gen)) Gs) as (A & B & C).
    + intros E. rewrite E in Ls. cbn in Ls. lia.
    + exact (Forall_inv_tail HV).
    + cbn zeta in *. split; [auto|split; [auto|lia]].
Qed.

Fixpoint wait (t : list (list X)) (i : nat) w (parents : list nat) : nat :=
  match t with
  | [] => 0
  | gen :: t' => if m <=? plevel w parents then 0 else S (wait t' (S i) (fst (step i w parents gen)) (snd (step i w parents gen)))
  end.

Lemma wait_done t i w parents : m <= plevel w parents -> wait t i w parents = 0.
Proof. intros H. destruct t; cbn [wait]; auto. apply Nat.leb_le in H. rewrite H. auto. Qed.

Lemma wait_spec : forall t i w parents, good w parents -> parents <> [] -> valid t ->
  wait t i w parents <= length t /\
  forall T, T < length t -> (m <= plevel (fst (after (firstn T t) i w parents)) (snd (after (firstn T t) i w parents)) <-> wait t i w parents <= T).
Proof.
  induction t as [|gen t IH]; intros i w parents HG Hne HV; cbn [wait length].
  - split; [lia|]. intros T H. lia.
  - destruct (Forall_inv HV) as [Lg Hgen].
    destruct (step_spec i w parents gen HG Hne Hgen Lg) as (Gs & Ls & Hl & _). cbn zeta in *.
    assert (Hn : snd (step i w parents gen) <> []) by (intros E; rewrite E in Ls; cbn in Ls; lia).
    destruct (IH (S i) _ _ Gs Hn (Forall_inv_tail HV)) as (A & B).
    destruct (Nat.leb_spec m (plevel w parents)) as [Hm|Hm].
    + split; [lia|]. intros T HT. split; [lia|]. intros _.
      assert (HV2 : valid (firstn T (gen :: t))).
      { unfold valid in *. rewrite Forall_forall in *. intros x Hx. apply HV. rewrite <- (firstn_skipn T (gen :: t)). apply in_or_app. auto. }
      destruct (after_good (firstn T (gen :: t)) i w parents HG Hne HV2) as (_ & _ & C). cbn zeta in C. lia.
    + split; [lia|]. intros [|T] HT; cbn [firstn after].
      * cbn [fst snd]. lia.
      * rewrite (B T) by lia. lia.
Qed.

(** ** the mean *)
Notation E := (fun i => level_sum K s i m).
Notation gens := (tuples alphabet size).

Lemma gens_valid gen : In gen gens -> length gen = size /\ Forall (fun x => In x alphabet) gen.
Proof. intros H. apply tuples_in in H. auto. Qed.

Lemma first_count (b : X -> bool) n : length (filter (fun gen => b (nth 0 gen x0)) (tuples alphabet (S n))) = length (filter b alphabet) * K ^ n.
Proof.
  cbn [tuples]. rewrite filter_flat_map.
  assert (H : forall u, length (flat_map (fun x => filter (fun gen => b (nth 0 gen x0)) (map (cons x) (tuples alphabet n))) u) = length (filter b u) * K ^ n).
  { induction u as [|x u IH]; [reflexivity|]. cbn [flat_map filter]. rewrite app_length, IH, filter_map_comp, map_length. cbn [nth].
    destruct (b x); cbn [length Nat.mul].
    - f_equal. rewrite <- (tuples_length alphabet n). f_equal. generalize (tuples alphabet n). intros l. induction l as [|y l IHl]; cbn; auto. f_equal. auto.
    - assert (Ez : filter (fun _ : list X => false) (tuples alphabet n) = []) by (generalize (tuples alphabet n); intros l; induction l; cbn; auto).
      rewrite Ez. reflexivity. }
  apply H.
Qed.

Lemma K_pos : 1 <= K.
Proof. destruct alphabet as [|x l]; [destruct x0_in|cbn; lia]. Qed.

Lemma mean_wait N : forall i w parents, good w parents -> parents <> [] -> length parents = pop_size \/ length parents = size ->
  (qn (nsum (map (fun t => wait t i w parents) (tuples gens N))) <= qn (length (tuples gens N)) * E (plevel w parents))%Q.
Proof.
  induction N as [|N IH]; intros i w parents HG Hne HL.
  { cbn [tuples map nsum fold_right wait length Nat.add]. pose proof (level_sum_nonneg K s m _ (plevel w parents) eq_refl).
    change (inject_Z (Z.of_nat 0)) with 0%Q. change (inject_Z (Z.of_nat 1)) with 1%Q. lra. }
  destruct (Nat.le_gt_cases m (plevel w parents)) as [Hm|Hm].
  { assert (Ez : map (fun t => wait t i w parents) (tuples gens (S N)) = map (fun _ => 0) (tuples gens (S N))).
    { apply map_ext. intros t. apply wait_done. auto. }
    rewrite Ez. assert (Es : forall u : list (list (list X)), nsum (map (fun _ => 0) u) = 0).
    { intros u. induction u as [|x u IHu]; cbn; auto. }
    rewrite Es, level_sum_none by auto. change (qn 0) with 0%Q. lra. }
  destruct (plevel_in w parents Hne) as (y & Hy & Ey).
  assert (Hlt := picks i w parents 0 Hne).
  destruct (nth_error parents (pick i w parents 0)) as [p|] eqn:Ep; [|apply nth_error_None in Ep; lia].
  assert (Hp : level (genes w p) = plevel w parents).
  { pose proof (greedy i w parents p y HL Ep Hy). pose proof (plevel_ge w parents p (nth_error_In _ _ Ep)). lia. }
  assert (Dp : D (genes w p)) by (eapply good_D; eauto; eapply nth_error_In; eauto).
  destruct (climb (genes w p) Dp) as (Hs1 & c & (b & Hb & Ec) & Hc); [lia|]. rewrite Hp in Hs1, Hc.
  set (lv := plevel w parents) in *.
  change (tuples gens (S N)) with (flat_map (fun x => map (cons x) (tuples gens N)) gens).
  rewrite nsum_flat.
  set (M := qn (length (tuples gens N))).
  set (f := fun gen => nsum (map (fun t => wait t i w parents) (map (cons gen) (tuples gens N)))).
  destruct (Nat.eq_dec size 0) as [C|_]; [lia|].
  assert (Hf : forall gen, In gen gens ->
    (qn (f gen) <= M * (if b (nth 0 gen x0) then (1 + E lv) - qn K / qn (s lv) else 1 + E lv))%Q).
  { intros gen Hgen. destruct (gens_valid gen Hgen) as [Lg Hal].
    destruct (step_spec i w parents gen HG Hne Hal Lg) as (Gs & Ls & Hl & Himp & _). cbn zeta in *.
    set (w1 := fst (step i w parents gen)) in *. set (surv := snd (step i w parents gen)) in *.
    assert (Hn : surv <> []) by (intros C; rewrite C in Ls; cbn in Ls; lia).
    specialize (IH (S i) w1 surv Gs Hn (or_intror Ls)). fold M in IH.
    assert (Ef : f gen = length (tuples gens N) + nsum (map (fun t => wait t (S i) w1 surv) (tuples gens N))).
    { unfold f. rewrite map_map. apply Nat.leb_gt in Hm. change ((m <=? plevel w parents) = false) in Hm.
      rewrite (map_ext _ (fun t => S (wait t (S i) w1 surv))) by (intros t; cbn [wait]; rewrite Hm; reflexivity).
      generalize (tuples gens N). intros u. induction u as [|t u IHu]; auto.
      cbn [map nsum fold_right length]. unfold nsum in IHu. rewrite IHu. unfold nsum. lia. }
    rewrite Ef, qn_add. fold M.
    assert (HM : (0 <= M)%Q) by apply qn_nonneg.
    assert (Hlv : (if b (nth 0 gen x0) then S lv else lv) <= plevel w1 surv).
    { destruct (b (nth 0 gen x0)) eqn:Eb; auto.
      assert (Hin := gen_alphabet gen 0 Hal). apply Hb in Eb; auto. destruct Eb as (r & Er & Hr).
      specialize (Himp p r Ep Er). rewrite Hp in Hr. lia. }
    pose proof (level_sum_mono K s m _ _ Hlv) as HE.
    assert (HE2 : (E (plevel w1 surv) <= if b (nth 0 gen x0) then E lv - qn K / qn (s lv) else E lv)%Q).
    { destruct (b (nth 0 gen x0)); auto. rewrite (level_sum_step K s lv m) by lia. lra. }
    clear HE Hlv. set (S0 := qn (nsum _)) in *. set (E1 := level_sum K s (plevel w1 surv) m) in *. set (E0 := level_sum K s lv m) in *.
    set (d := (qn K / qn (s lv))%Q) in *. cbn beta in *. fold E1 in HE2. fold E0 in HE2. fold d in HE2. fold E0. fold d.
    clearbody S0 E1 E0 d M.
    assert (H2 : (M * E1 <= M * (if b (nth 0 gen x0) then E0 - d else E0))%Q) by (rewrite !(Qmult_comm M); apply Qmult_le_compat_r; auto).
    destruct (b (nth 0 gen x0)).
    - assert (E9 : (M * (1 + E0 - d) == M + M * (E0 - d))%Q) by ring. rewrite E9. lra.
    - assert (E9 : (M * (1 + E0) == M + M * E0)%Q) by ring. rewrite E9. lra. }
  assert (Hcount : s lv * K ^ (size - 1) <= length (filter (fun gen => b (nth 0 gen x0)) gens)).
  { pose proof (first_count b (size - 1)) as Hfc. replace (S (size - 1)) with size in Hfc by lia. rewrite Hfc, Ec.
    apply Nat.mul_le_mono_r. auto. }
  assert (Hd := share_nonneg K (s lv)).
  assert (HM : (0 <= M)%Q) by apply qn_nonneg.
  pose proof (sum_drop f (fun gen => b (nth 0 gen x0)) _ _ M gens _ Hd HM Hf Hcount) as HS.
  apply (Qle_trans _ _ _ HS).
  assert (EL : length (flat_map (fun x => map (cons x) (tuples gens N)) gens) = length gens * length (tuples gens N)).
  { generalize gens at 2 3. intros u. induction u as [|x u IHu]; auto. cbn [flat_map length Nat.mul]. rewrite app_length, map_length, IHu. reflexivity. }
  rewrite EL, (qn_mul (length gens)). fold M.
  assert (Esz : (qn (s lv * K ^ (size - 1)) * (qn K / qn (s lv)) == qn (length gens))%Q).
  { rewrite tuples_length. replace size with (S (size - 1)) at 2 by lia. cbn [Nat.pow]. rewrite !qn_mul.
    assert (Hs0 := qn_pos (s lv) Hs1). field. lra. }
  assert (E9 : (M * (qn (length gens) * (1 + E lv) - qn (s lv * K ^ (size - 1)) * (qn K / qn (s lv))) == qn (length gens) * M * E lv)%Q).
  { rewrite Esz. ring. }
  apply Qle_lteq. right. exact E9.
Qed.

Lemma waiting_run initialize start w N l i0 :
  (forall k, D (initialize k)) -> (forall k, i0 <= level (initialize k)) -> 1 <= pop_size -> all_tables alphabet size N l ->
  mean_at_most (waiting_time (fun T t => reaches level m
      (heap_ea decoder_of problem_of maximize coin (start + Z.of_nat T) k_elites size (table_ops t) pick never
         initialize problem decoder robust pop_size start w))) l (level_sum K s i0 m).
Proof.
  intros HD Hi0 Hp Hl. pose proof (tables_perm alphabet size N l nodup Hl) as HP.
  destruct (create_all initialize problem decoder robust pop_size 0 w) as [l0 w1] eqn:EC.
  pose proof (create_all_spec problem decoder robust _ _ _ _ _ _ EC) as (L & HGc & N1 & N2 & HA).
  destruct (population_works decoder_of problem_of D problem decoder robust scored l0 w1) as (u & w2 & EE).
  { intros i Hi. destruct (HA i Hi) as (_ & _ & (k & Em) & K0). split; [rewrite Em; auto|exact K0]. }
  destruct (initial_good decoder_of problem_of D problem decoder robust _ _ _ _ _ _ _ HD EC EE) as (_ & HGd & _).
  assert (Hne : l0 <> []) by (intros ->; cbn in L; lia).
  assert (Hstart : i0 <= plevel w2 l0).
  { destruct l0 as [|y l0]; [tauto|]. clear Hne. pose proof (plevel_ge w2 (y :: l0) y (or_introl eq_refl)) as Hge.
    assert (Eg : genes w2 y = genes w1 y).
    { apply evaluate_population_spec in EE. destruct EE as (E1 & E2 & E3 & E4). unfold genes. rewrite E1. destruct (E3 y) as (-> & _). auto. }
    destruct (HA y (or_introl eq_refl)) as (_ & _ & (k & Em) & _). rewrite Eg, Em in Hge. specialize (Hi0 k). lia. }
  exists (map (fun t => wait t 0 w2 l0) l). split.
  - assert (HF : Forall (fun t => length t = N /\ valid t) l) by (apply Forall_forall; intros t Ht; apply Hl; auto).
    clear - HF HGd Hne EC EE nodup x0_in closed climb scored ranked sharp_values picks greedy elites1 size1.
    induction HF as [|t l [Lt Ht] HF IH]; cbn [map]; constructor; auto.
    destruct (wait_spec t 0 w2 l0 HGd Hne Ht) as (A & B). split; [auto|]. intros T HT. rewrite <- (B T HT).
    assert (HV2 : valid (firstn T t)).
    { unfold valid in *. rewrite Forall_forall in *. intros x Hx. apply Ht. rewrite <- (firstn_skipn T t). apply in_or_app. auto. }
    assert (LT : length (firstn T t) = T) by (rewrite firstn_length; lia).
    destruct (loop_after (firstn T t) [] (inc_generation start) w2 [] l0 HGd Hne HV2) as (pops & gc' & E). cbn [length app] in E.
    rewrite LT in E. unfold heap_ea. rewrite EC, EE.
    replace (Z.to_nat (start + Z.of_nat T - start)) with T by lia. cbn [inc_generation gc_curr] in E.
    destruct (after_good (firstn T t) 0 w2 l0 HGd Hne HV2) as (Ga & Na & _). cbn zeta in *.
    split.
    + intros (final & w' & ea & g' & E' & y & Hy & Hm). rewrite E in E'. injection E' as <- <- _ _.
      pose proof (plevel_ge (fst (after (firstn T t) 0 w2 l0)) _ _ Hy). lia.
    + intros Hm. eexists _, _, _, _. split; [exact E|]. destruct (plevel_in (fst (after (firstn T t) 0 w2 l0)) _ Na) as (y & Hy & Ey).
      exists y. split; [exact Hy|]. lia.
  - fold (nsum (map (fun t => wait t 0 w2 l0) l)).
    rewrite (nsum_perm _ _ (Permutation_map (fun t => wait t 0 w2 l0) HP)), (Permutation_length HP).
    eapply Qle_trans; [apply (mean_wait N 0 w2 l0 HGd Hne (or_introl L))|].
    rewrite !(Qmult_comm (inject_Z (Z.of_nat (length _)))). apply Qmult_le_compat_r; [|apply qn_nonneg]. apply level_sum_mono. auto.
Qed.
End Levels.

(** ** bits *)
From Verif Require Import Model.Variation Model.Problems Spec.Variation Spec.Problems Spec.Chances Proofs.Variation Proofs.Problems Proofs.Chances.
Local Open Scope nat_scope.
Local Open Scope list_scope.

Fixpoint flip_by (b : nat -> bool) (d : list nat) (g : list Z) : list Z :=
  match d, g with
  | k :: d', x :: g' => (if b k then 1 - x else x)%Z :: flip_by b d' g'
  | _, _ => []
  end.
Fixpoint one_up (b : nat -> bool) (d : list nat) (g : list Z) : bool :=
  match d, g with
  | k :: d', x :: g' => if b k then Z.eqb x 0 && forallb (fun k => negb (b k)) d' else one_up b d' g'
  | _, _ => false
  end.
Fixpoint first_up (b : nat -> bool) (d : list nat) (g : list Z) : bool :=
  match d, g with
  | k :: d', x :: g' => if b k then Z.eqb x 0 else Z.eqb x 1 && first_up b d' g'
  | _, _ => false
  end.

Lemma filter_none {A} (l : list A) : filter (fun _ => false) l = [].
Proof. induction l; auto. Qed.
Lemma filter_all {A} (l : list A) : filter (fun _ => true) l = l.
Proof. induction l as [|x l IH]; cbn; auto. rewrite IH. auto. Qed.

Lemma cons_split {A} (b : A -> bool) (P P1 P2 : list A -> bool) t u :
  (forall k d, P (k :: d) = if b k then P1 d else P2 d) ->
  length (filter P (flat_map (fun k => map (cons k) t) u)) =
  length (filter b u) * length (filter P1 t) + length (filter (fun k => negb (b k)) u) * length (filter P2 t).
Proof.
  intros H. rewrite filter_flat_map. induction u as [|k u IH]; auto. cbn [flat_map filter]. rewrite app_length, IH, filter_map_comp, map_length.
  assert (E : length (filter (fun x => P (k :: x)) t) = if b k then length (filter P1 t) else length (filter P2 t)).
  { destruct (b k) eqn:Eb; f_equal; apply filter_ext; intros d; rewrite H, Eb; reflexivity. }
  rewrite E. destruct (b k); cbn [negb length Nat.mul]; lia.
Qed.

Section Bits.
Variable b : nat -> bool.
Variable N c : nat.
Hypothesis Hc : length (filter b (seq 0 N)) = c.
Lemma others : length (filter (fun k => negb (b k)) (seq 0 N)) = N - c.
Proof. pose proof (filter_split b (seq 0 N)) as H. rewrite seq_length in H. lia. Qed.

Lemma none_count n : length (filter (forallb (fun k => negb (b k))) (tuples (seq 0 N) n)) = (N - c) ^ n.
Proof. rewrite tuples_filter, tuples_length, others. reflexivity. Qed.

Lemma one_up_count g : binary g -> length (filter (fun d => one_up b d g) (tuples (seq 0 N) (length g))) = (length g - ones g) * (c * (N - c) ^ (length g - 1)).
Proof.
  induction g as [|x g IH]; intros Hb; [reflexivity|]. specialize (IH (Forall_inv_tail Hb)).
  assert (Ho : ones g <= length g) by (unfold ones; apply count_occ_bound).
  cbn [length tuples].
  rewrite (cons_split b _ (fun d => Z.eqb x 0 && forallb (fun k => negb (b k)) d) (fun d => one_up b d g)) by reflexivity.
  rewrite IH, Hc, others. replace (S (length g) - 1) with (length g) by lia. set (k := N - c).
  assert (Es : k * ((length g - ones g) * (c * k ^ (length g - 1))) = (length g - ones g) * (c * k ^ length g)).
  { destruct (length g) as [|n] eqn:E; [cbn; lia|]. replace (S n - 1) with n by lia. cbn [Nat.pow]. lia. }
  rewrite Es. destruct (Forall_inv Hb) as [-> | ->]; cbn [Z.eqb Pos.eqb andb].
  - rewrite none_count. fold k. change (ones (0%Z :: g)) with (ones g). replace (S (length g) - ones g) with (S (length g - ones g)) by lia. lia.
  - rewrite filter_none. change (ones (1%Z :: g)) with (S (ones g)). cbn [length]. replace (S (length g) - S (ones g)) with (length g - ones g) by lia. lia.
Qed.

Lemma first_up_count g : binary g -> leads g < length g ->
  length (filter (fun d => first_up b d g) (tuples (seq 0 N) (length g))) = c * (N - c) ^ leads g * N ^ (length g - 1 - leads g).
Proof.
  induction g as [|x g IH]; intros Hb Hl; [cbn in Hl; lia|].
  cbn [length tuples].
  rewrite (cons_split b _ (fun d => Z.eqb x 0) (fun d => Z.eqb x 1 && first_up b d g)) by reflexivity.
  rewrite Hc, others. destruct (Forall_inv Hb) as [-> | ->]; cbn [Z.eqb Pos.eqb andb leads length] in *.
  - rewrite filter_none, filter_all, tuples_length, seq_length. cbn [length Nat.pow]. replace (S (length g) - 1 - 0) with (length g) by lia. lia.
  - rewrite filter_none. rewrite IH; [|exact (Forall_inv_tail Hb)|lia]. cbn [length Nat.pow].
    replace (S (length g) - 1 - S (leads g)) with (length g - 1 - leads g) by lia. lia.
Qed.

End Bits.
Section Up.
Variable b : nat -> bool.
Lemma none_same d : forall g, length d = length g -> forallb (fun k => negb (b k)) d = true -> flip_by b d g = g.
Proof.
  induction d as [|k d IH]; intros [|x g] L H; try discriminate; auto. cbn in *. apply andb_prop in H. destruct H as [H1 H2].
  apply Bool.negb_true_iff in H1. rewrite H1, IH; auto.
Qed.
Lemma one_up_ones d : forall g, length d = length g -> one_up b d g = true -> ones (flip_by b d g) = S (ones g).
Proof.
  induction d as [|k d IH]; intros [|x g] L H; try discriminate. cbn [one_up flip_by] in *. destruct (b k).
  - apply andb_prop in H. destruct H as [H1 H2]. apply Z.eqb_eq in H1. subst x. rewrite none_same by (auto; cbn in L; lia). reflexivity.
  - unfold ones in *. cbn [count_occ]. rewrite IH by (auto; cbn in L; lia). destruct (Z.eq_dec x 1); reflexivity.
Qed.
Lemma first_up_leads d : forall g, length d = length g -> binary g -> first_up b d g = true -> leads g < leads (flip_by b d g).
Proof.
  induction d as [|k d IH]; intros [|x g] L Hb H; try discriminate. cbn [first_up flip_by] in *. destruct (b k).
  - apply Z.eqb_eq in H. subst x. cbn. lia.
  - apply andb_prop in H. destruct H as [H1 H2]. apply Z.eqb_eq in H1. subst x. cbn [leads Z.eqb Pos.eqb].
    specialize (IH g ltac:(cbn in L; lia) (Forall_inv_tail Hb) H2). lia.
Qed.
End Up.

Section Flips.
Variable n N c : nat.
Variable expected probability : option Q.
Variable p : Q.
Hypothesis Hr : rate_is expected probability n p.
Hypothesis H0 : (0 <= p)%Q.
Hypothesis H1 : (p <= 1)%Q.
Hypothesis Hc : counts (fun k => inject_Z (Z.of_nat k) / inject_Z (Z.of_nat N) < p)%Q (seq 0 N) c.
Variable alphabet : list (list nat).
Hypothesis Ha : all_draws N n alphabet.

Definition below (k : nat) : bool := Qltb (inject_Z (Z.of_nat k) / inject_Z (Z.of_nat N)) p.
Lemma below_count : length (filter below (seq 0 N)) = c.
Proof.
  destruct Hc as (b & Hb & <-). apply filter_ext_len. intros k Hk. apply bool_iff. rewrite (Hb k Hk). unfold below. apply Qltb_lt.
Qed.

Lemma flipped d g : length d = n -> bit_string n g -> grid_flip expected probability N d g = Ok (flip_by below d g, None).
Proof.
  intros Ld [Lg Hg]. unfold grid_flip, genome_mutate_bitflip.
  assert (Hr' : rate_is expected probability (length g) p) by (rewrite Lg; auto).
  destruct (@mask_of_rate AssertionError expected probability (grid N d) (length g) p Hr' H0 H1) as [-> ->]. cbn [bind].
  do 3 f_equal. unfold grid. rewrite map_map. change (map (fun x => Qltb (inject_Z (Z.of_nat x) / inject_Z (Z.of_nat N)) p) d) with (map below d).
  assert (L : length d = length g) by congruence. clear Hr' Lg Ld. revert g Hg L.
  induction d as [|k d IH]; intros [|x g] Hg L; try discriminate; auto. cbn [map flip_by select_mask]. assert (Hx := Forall_inv Hg). assert (Hg2 := Forall_inv_tail Hg).
  specialize (IH g Hg2 ltac:(cbn in L; lia)).
  destruct (below k); cbn [map assign_mask select_mask]; rewrite IH; auto.
  f_equal. destruct Hx as [-> | ->]; reflexivity.
Qed.

Lemma climb_by (up : list nat -> list Z -> bool) (level : list Z -> nat) g k : bit_string n g ->
  (forall d, length d = length g -> up d g = true -> level g < level (flip_by below d g)) ->
  k <= length (filter (fun d => up d g) (tuples (seq 0 N) n)) ->
  exists a, counts (fun d => exists r, grid_flip expected probability N d g = Ok r /\ level g < level (outcome_of r)) alphabet a /\ k <= a.
Proof.
  intros Hg Hup Hk.
  exists (length (filter (fun d => level g <? level (flip_by below d g)) alphabet)). split.
  - eexists. split; [|reflexivity]. intros d Hd. apply Ha in Hd. destruct Hd as [Ld _]. rewrite (flipped d g Ld Hg), Nat.ltb_lt.
    split; [intros H; eexists; split; [reflexivity|exact H]|]. intros (r & E & H). injection E as <-. exact H.
  - apply (Nat.le_trans _ _ _ Hk). rewrite (perm_filter_length _ _ _ (draws_perm _ _ _ Ha)). apply filter_mono.
    intros d Hd Hu. apply Nat.ltb_lt. apply tuples_in in Hd. destruct Hd as [Ld _]. apply Hup; auto. destruct Hg as [Lg _]. congruence.
Qed.

Lemma ones_climb g : bit_string n g ->
  exists a, counts (fun d => exists r, grid_flip expected probability N d g = Ok r /\ ones g < ones (outcome_of r)) alphabet a /\
    (n - ones g) * (c * (N - c) ^ (n - 1)) <= a.
Proof.
  intros Hg. apply (climb_by (one_up below)); auto.
  - intros d L H. rewrite (one_up_ones below d g L H). lia.
  - destruct Hg as [<- Hb]. rewrite (one_up_count below N c below_count g Hb). auto.
Qed.
Lemma leads_climb g : bit_string n g -> leads g < n ->
  exists a, counts (fun d => exists r, grid_flip expected probability N d g = Ok r /\ leads g < leads (outcome_of r)) alphabet a /\
    c * (N - c) ^ leads g * N ^ (n - 1 - leads g) <= a.
Proof.
  intros Hg Hl. apply (climb_by (first_up below)); auto.
  - intros d L H. apply first_up_leads; auto. apply Hg.
  - destruct Hg as [<- Hb]. rewrite (first_up_count below N c below_count g Hb Hl). auto.
Qed.
End Flips.

Lemma int_sharp a b m : blurred (NInt a) (NInt b) -> ~ better m (NInt a) (NInt b).
Proof. intros ((e & C) & _). discriminate C. Qed.
Lemma int_better a b : a < b -> better true (NInt (Z.of_nat b)) (NInt (Z.of_nat a)).
Proof. intros H. cbn. unfold ext_lt. rewrite <- Zlt_Qlt. lia. Qed.

Lemma same_all l : count_true (take_same true l) = Z.of_nat (length (take_same true l)).
Proof.
  unfold count_true. f_equal. f_equal. induction l as [|x l IH]; auto. cbn [take_same]. destruct x; cbn; auto. rewrite IH. auto.
Qed.
Lemma leads_same g : length (take_same true (map (fun x => (x =? 1)%Z) g)) = leads g.
Proof. induction g as [|x g IH]; auto. cbn [map take_same leads]. destruct (x =? 1)%Z; cbn; auto. Qed.
Lemma same_none l : count_true (take_same false l) = 0%Z.
Proof. unfold count_true. induction l as [|x l IH]; auto. cbn [take_same]. destruct x; cbn; auto. Qed.

Lemma leading_score g : g <> [] -> score (no_decoder 0) (leading_ones_problem 0) g = Ok (NInt (Z.of_nat (leads g))).
Proof.
  intros Hg. unfold score, no_decoder, leading_ones_problem, leading_ones, matches. cbn [bind].
  destruct g as [|x g]; [tauto|]. cbn [map]. destruct (x =? 1)%Z eqn:E.
  - cbn [bind]. rewrite same_all. cbn [take_same Bool.eqb leads length]. rewrite leads_same, E. reflexivity.
  - cbn [bind]. rewrite same_none. cbn [leads]. rewrite E. reflexivity.
Qed.

Lemma one_parent {G P} (level : list G -> nat) (pick : nat -> world G P num -> list nat -> nat -> nat) :
  forall i w l p q, length l = 1 \/ length l = 1 -> nth_error l (pick i w l 0) = Some p -> In q l -> level (genes w q) <= level (genes w p).
Proof.
  intros i w [|x [|y l]] p q [L|L] E Hq; try discriminate L; destruct Hq as [<-|[]];
  (destruct (pick i w [x] 0) as [|[|k]]; cbn in E; [injection E as <-; auto|discriminate|discriminate]).
Qed.

Lemma harmonic_step d : (harmonic (S d) == 1 / qn (S d) + harmonic d)%Q.
Proof.
  unfold harmonic. rewrite seq_S, map_app, qsum_app. cbn [map qsum fold_right]. replace (1 + d) with (S d) by lia. ring.
Qed.
Lemma level_harmonic K a n : 1 <= a -> forall d i0, d = n - i0 ->
  (level_sum K (fun i => (n - i) * a)%nat i0 n == qn K / qn a * harmonic d)%Q.
Proof.
  intros Ha. induction d as [|d IH]; intros i0 Hd.
  - rewrite level_sum_none by lia. unfold harmonic. cbn [seq map qsum fold_right]. ring.
  - rewrite level_sum_step by lia. rewrite (IH (S i0)) by lia. rewrite harmonic_step. replace (n - i0) with (S d) by lia.
    rewrite qn_mul. assert (H1 := qn_pos a Ha). assert (H2 := qn_pos (S d) ltac:(lia)). set (x := qn (S d)) in *. set (y := qn a) in *.
    set (z := harmonic d). set (k := qn K). clearbody x y z k. field. split; lra.
Qed.

(** ** packaged *)
Lemma fitness_levels :
  forall G P X (decoder_of : nat -> option (list G -> result P)) (problem_of : nat -> phen_value G P -> result num)
    (D : list G -> Prop) problem decoder robust (mutator : X -> list G -> result (list G * option (list G))) x0
    maximize coin k_elites size pop_size pick alphabet (level : list G -> nat) m (s : nat -> nat),
  NoDup alphabet -> In x0 alphabet ->
  (forall x g, In x alphabet -> D g -> exists r, mutator x g = Ok r /\ D (outcome_of r)) ->
  (forall g, D g -> level g < m -> 1 <= s (level g) /\
     exists c, counts (fun x => exists r, mutator x g = Ok r /\ level g < level (outcome_of r)) alphabet c /\ s (level g) <= c) ->
  robust = true \/ (forall g, D g -> exists f, score (decoder_of decoder) (problem_of problem) g = Ok f) ->
  (forall g g', D g -> D g' -> level g < level g' ->
     better maximize (outcome NNan (score (decoder_of decoder) (problem_of problem) g'))
       (outcome NNan (score (decoder_of decoder) (problem_of problem) g))) ->
  (forall g g' m, D g -> D g' ->
     let f := outcome NNan (score (decoder_of decoder) (problem_of problem) g) in
     let f' := outcome NNan (score (decoder_of decoder) (problem_of problem) g') in
     blurred f f' -> ~ better m f f') ->
  (forall i w l k, l <> [] -> pick i w l k < length l) ->
  (forall i w l p q, length l = pop_size \/ length l = size ->
     nth_error l (pick i w l 0) = Some p -> In q l -> level (genes w q) <= level (genes w p)) ->
  1 <= k_elites -> 1 <= size -> 1 <= pop_size ->
  forall initialize start (w : world G P num) T l i0,
  (forall k, D (initialize k)) -> (forall k, i0 <= level (initialize k)) -> all_tables alphabet size T l ->
  mean_at_most (waiting_time (fun T t => reaches level m
      (heap_ea decoder_of problem_of maximize coin (start + Z.of_nat T) k_elites size
         (fun i => search_pipeline mutator x0 (nth i t [])) pick (fun _ _ _ => false)
         initialize problem decoder robust pop_size start w))) l (level_sum (length alphabet) s i0 m).
Proof.
  intros. eapply waiting_run; eauto.
Qed.

Lemma max_ones_time :
  forall coin k_elites pick n N c expected probability p alphabet x0,
  rate_is expected probability n p -> (0 <= p)%Q -> (p <= 1)%Q ->
  counts (fun k => inject_Z (Z.of_nat k) / inject_Z (Z.of_nat N) < p)%Q (seq 0 N) c -> 1 <= c -> c < N ->
  all_draws N n alphabet -> In x0 alphabet ->
  (forall i w l k, l <> [] -> pick i w l k < length l) -> 1 <= k_elites ->
  forall initialize start (w : world Z unit num) T l i0,
  (forall k, bit_string n (initialize k)) -> (forall k, i0 <= ones (initialize k)) -> all_tables alphabet 1 T l ->
  mean_at_most (waiting_time (fun T t => reaches ones n
      (heap_ea no_decoder max_ones_problem true coin (start + Z.of_nat T) k_elites 1
         (fun i => search_pipeline (grid_flip expected probability N) x0 (nth i t [])) pick (fun _ _ _ => false)
         initialize 0 0 false 1 start w))) l
    (inject_Z (Z.of_nat (N ^ n)) / inject_Z (Z.of_nat (c * (N - c) ^ (n - 1))) * harmonic (n - i0)).
Proof.
  intros coin k_elites pick n N c expected probability p alphabet x0 Hr H0 H1 Hc Hc1 HcN Ha Hx Hpick Hk initialize start w T l i0 HD Hi Hl.
  assert (Hpos : 1 <= c * (N - c) ^ (n - 1)).
  { assert ((N - c) ^ (n - 1) <> 0) by (apply Nat.pow_nonzero; lia). nia. }
  destruct (fitness_levels Z unit (list nat) no_decoder max_ones_problem (bit_string n) 0 0 false (grid_flip expected probability N) x0
    true coin k_elites 1 1 pick alphabet ones n (fun i => (n - i) * (c * (N - c) ^ (n - 1)))
    (draws_nodup _ _ _ Ha) Hx) with (initialize := initialize) (start := start) (w := w) (T := T) (l := l) (i0 := i0) as (ns & F & E); auto.
  - intros d g Hd Hg. exact (flip_closed n N expected probability p Hr H0 H1 alphabet Ha d g Hd Hg).
  - intros g Hg Hlt. split; [nia|]. exact (ones_climb n N c expected probability p Hr H0 H1 Hc alphabet Ha g Hg).
  - right. intros g _. rewrite max_ones_score. eauto.
  - intros g g' _ _ Hlt. rewrite !max_ones_score. cbn [outcome]. apply int_better. auto.
  - intros g g' b _ _. cbn zeta. rewrite !max_ones_score. apply int_sharp.
  - apply one_parent.
  - exists ns. split; [exact F|]. rewrite (level_harmonic _ _ n Hpos (n - i0) i0 eq_refl), (draws_total _ _ _ Ha) in E. exact E.
Qed.

Lemma leading_ones_time :
  forall coin k_elites pick n N c expected probability p alphabet x0,
  1 <= n -> rate_is expected probability n p -> (0 <= p)%Q -> (p <= 1)%Q ->
  counts (fun k => inject_Z (Z.of_nat k) / inject_Z (Z.of_nat N) < p)%Q (seq 0 N) c -> 1 <= c -> c < N ->
  all_draws N n alphabet -> In x0 alphabet ->
  (forall i w l k, l <> [] -> pick i w l k < length l) -> 1 <= k_elites ->
  forall initialize start (w : world Z unit num) T l i0,
  (forall k, bit_string n (initialize k)) -> (forall k, i0 <= leads (initialize k)) -> all_tables alphabet 1 T l ->
  mean_at_most (waiting_time (fun T t => reaches leads n
      (heap_ea no_decoder leading_ones_problem true coin (start + Z.of_nat T) k_elites 1
         (fun i => search_pipeline (grid_flip expected probability N) x0 (nth i t [])) pick (fun _ _ _ => false)
         initialize 0 0 false 1 start w))) l
    (level_sum (N ^ n) (fun i => c * (N - c) ^ i * N ^ (n - 1 - i)) i0 n).
Proof.
  intros coin k_elites pick n N c expected probability p alphabet x0 Hn Hr H0 H1 Hc Hc1 HcN Ha Hx Hpick Hk initialize start w T l i0 HD Hi Hl.
  assert (Hne : forall g, bit_string n g -> g <> []) by (intros g [L _] ->; cbn in L; lia).
  rewrite <- (draws_total _ _ _ Ha).
  apply (fitness_levels Z unit (list nat) no_decoder leading_ones_problem (bit_string n) 0 0 false (grid_flip expected probability N) x0
    true coin k_elites 1 1 pick alphabet leads n (fun i => c * (N - c) ^ i * N ^ (n - 1 - i))
    (draws_nodup _ _ _ Ha) Hx) with (T := T); auto.
  - intros d g Hd Hg. exact (flip_closed n N expected probability p Hr H0 H1 alphabet Ha d g Hd Hg).
  - intros g Hg Hlt. split; [|exact (leads_climb n N c expected probability p Hr H0 H1 Hc alphabet Ha g Hg Hlt)].
    assert ((N - c) ^ leads g <> 0) by (apply Nat.pow_nonzero; lia). assert (N ^ (n - 1 - leads g) <> 0) by (apply Nat.pow_nonzero; lia). nia.
  - right. intros g Hg. rewrite leading_score by auto. eauto.
  - intros g g' Hg Hg' Hlt. rewrite !leading_score by auto. cbn [outcome]. apply int_better. auto.
  - intros g g' b Hg Hg'. cbn zeta. rewrite !leading_score by auto. apply int_sharp.
  - apply one_parent.
Qed.

(** ** examples *)
Definition reached {G P} (level : list G -> nat) (m : nat)
    (run : option (result (list nat * world G P num * list (list nat)) * gen_counter)) : bool :=
  match run with
  | Some (Ok (final, w', _), _) => existsb (fun y => m <=? level (genes w' y)) final
  | _ => false
  end.
Lemma reached_spec {G P} (level : list G -> nat) m (run : option (result (list nat * world G P num * list (list nat)) * gen_counter)) :
  reached level m run = true <-> reaches level m run.
Proof.
  unfold reached, reaches. destruct run as [[[[[final w'] pops]|e] gc']|].
  - rewrite existsb_exists. split.
    + intros (y & Hy & H). apply Nat.leb_le in H. eexists _, _, _, _. split; [reflexivity|]. eauto.
    + intros (f & w1 & ea & g1 & E & y & Hy & H). injection E as <- <- <- <-. exists y. split; auto. apply Nat.leb_le. auto.
  - split; [discriminate|]. intros (f & w1 & ea & g1 & E & _). discriminate.
  - split; [discriminate|]. intros (f & w1 & ea & g1 & E & _). discriminate.
Qed.

Lemma coins_nodup : NoDup ex_coins.
Proof. repeat constructor; cbn; intuition discriminate. Qed.

Lemma no_elites_no_time :
  exists l, all_tables ex_coins 1 3 l /\
    forall q, ~ mean_at_most (waiting_time (fun _ t => reaches ones 2 (ex_search 0 [0; 0]%Z t))) l q.
Proof.
  destruct (tables_exist ex_coins 1 3 coins_nodup) as (l & Hl). exists l. split; [exact Hl|].
  intros q (ns & F & _).
  set (t := [[[0; 0]]; [[0; 0]]; [[0; 0]]]).
  assert (Ht : In t l).
  { apply Hl. split; [reflexivity|]. repeat constructor. }
  assert (Hw : exists k, waiting_time (fun _ t => reaches ones 2 (ex_search 0 [0; 0]%Z t)) t k).
  { clear Hl. induction F as [|a k l' ns' Hk F IH]; [destruct Ht|]. destruct Ht as [->|Ht]; eauto. }
  destruct Hw as (k & _ & Hk).
  assert (E1 : reached ones 2 (ex_search 0 [0; 0]%Z (firstn 1 t)) = true) by (vm_compute; reflexivity).
  assert (E2 : reached ones 2 (ex_search 0 [0; 0]%Z (firstn 2 t)) = false) by (vm_compute; reflexivity).
  assert (A1 := proj1 (Hk 1 ltac:(cbn; lia)) (proj1 (reached_spec _ _ _) E1)).
  assert (A2 := proj2 (Hk 2 ltac:(cbn; lia)) ltac:(lia)). apply reached_spec in A2. congruence.
Qed.

Lemma level_conditions : rate_is None (Some (1 # 2)%Q) 2 (1 # 2) /\ all_draws 2 2 ex_coins /\ In [0; 0] ex_coins /\ bit_string 2 [0; 0]%Z /\
  counts (fun k => inject_Z (Z.of_nat k) / inject_Z (Z.of_nat 2) < 1 # 2)%Q (seq 0 2) 1.
Proof. destruct coins_fit as (A & B & C & _ & E). repeat split; try apply A; try apply B; auto. repeat constructor; auto. Qed.
