(** Proofs about whole runs of cooperative coevolution. *)
From Coq Require Import Lia QArith Lqa.
From Verif Require Import Model.Base Model.PyList Model.Selection Model.Problems Model.Counters Model.Algorithm Model.CoopRun
  Spec.Problems Spec.Algorithm Spec.CoopRun Proofs.Problems Proofs.ScalarSel Proofs.Algorithm.
Local Open Scope nat_scope.
Local Open Scope list_scope.

(** ** teams *)
Section Teams.
Context {G : Type}.

Lemma combination_team (shown : list (list (member G))) i x cs : i < length shown ->
  combination (map (map m_ind) shown) i x cs -> team (fun j => nth j shown []) (length shown) i x cs.
Proof.
  intros Hi [L H]. rewrite map_length in L. split; [exact L|]. split.
  - destruct (nth_error cs i) as [c|] eqn:E; [|apply nth_error_None in E; lia]. f_equal. exact (proj1 (H i c E) eq_refl).
  - intros j c Hne Hj. destruct (proj2 (H j c Hj) Hne) as (pop & Hp & Hin). rewrite nth_error_map in Hp.
    destruct (nth_error shown j) as [p|] eqn:Ep; cbn in Hp; [|discriminate]. injection Hp as <-.
    apply in_map_iff in Hin as (y & <- & Hy). exists y. split; [|reflexivity]. erewrite nth_error_nth by exact Ep. exact Hy.
Qed.

Lemma fairly_ext scores nt (m m' : nat -> list (member G)) species i x : (forall j, m j = m' j) ->
  fairly_scored scores nt m species i x -> fairly_scored scores nt m' species i x.
Proof.
  intros E (css & fs & f & H1 & H2 & H3 & H4). exists css, fs, f. split; [exact H1|]. split; [exact H2|]. split; [|exact H4].
  eapply Forall_impl; [|exact H3]. intros cs (A & B & C). split; [exact A|]. split; [exact B|]. intros j c Hne Hj.
  rewrite <- E. exact (C j c Hne Hj).
Qed.
End Teams.

(** ** from the generations of the loop to the generations of the specification *)
Section History.
Context {G : Type}.
Variable step : nat -> list G -> list G -> Prop.
Variable scores : list (cind G) -> num -> Prop.
Variables num_trials size : nat.
Variable max_generations : Z.
Variable ops : list (@mop (member G)).
Variable stop : nat -> Z -> list (list (member G)) -> bool.
Variable Hrun : forall g gen i shown parents out, i < length shown ->
  run_ops ops g (mk_view gen i shown) parents = Ok out ->
  length out = size /\ forall x, In x out ->
    (exists p, In p parents /\ step i (c_genome (m_ind p)) (c_genome (m_ind x)) /\ c_score (m_ind x) = c_score (m_ind p)) /\
    fairly_scored scores num_trials (fun j => nth j shown []) (length shown) i x.

Lemma generation_coevolved g gen before after evs :
  mp_generation (fun j g v parents => bind (operators ops [] j) (fun o => run_ops o g v parents)) g gen before after evs ->
  coevolved step scores num_trials size before after.
Proof.
  intros (L1 & L2 & H). split; [exact L1|]. intros i Hi. destruct (H i Hi) as (parents & shown & out & _ & Hp & Ls & Hs & Hr & Ho).
  cbn [operators bind] in Hr. destruct (Hrun g gen i shown parents out ltac:(lia) Hr) as [Lo Hx].
  rewrite (nth_error_nth _ _ [] Ho). split; [exact Lo|]. intros x Hin. rewrite (nth_error_nth _ _ [] Hp).
  destruct (Hx x Hin) as [Hbred Hfair]. split; [exact Hbred|]. rewrite <- Ls. eapply fairly_ext; [|exact Hfair].
  intros j. unfold partners. rewrite <- (nth_default_eq j shown), <- (nth_default_eq j (if j <? i then after else before)).
  unfold nth_default. rewrite Hs. destruct (j <? i); reflexivity.
Qed.

Lemma run_history init final gc evss :
  multi_population_ea max_generations ops [] stop init = Some (Ok final, gc, evss) ->
  coevolution step scores num_trials size (length evss) init final /\
  gc_curr gc = Z.of_nat (length evss) /\
  ((max_generations <= Z.of_nat (length evss))%Z \/ stop (length evss) (Z.of_nat (length evss)) final = true).
Proof.
  intros E. destruct (multi_population_ok max_generations ops [] stop init) as (r & gc' & evss' & E' & Hh).
  rewrite E in E'. injection E' as <- <- <-. destruct (Hh final eq_refl) as (states & n & L & Le & H0 & Hn & Hst & Hend & Hg & Hc).
  rewrite Le. split; [|split; [rewrite Hg; lia|exact Hend]].
  assert (Ht : forall m s, m <= n -> nth_error states m = Some s -> coevolution step scores num_trials size m init s).
  { induction m as [|m IH]; intros s Hm Hs.
    - rewrite H0 in Hs. injection Hs as <-. constructor.
    - destruct (nth_error states m) as [s'|] eqn:Es'; [|apply nth_error_None in Es'; lia].
      eapply coev_step; [apply IH; [lia|reflexivity]|]. destruct (Hst m s' s Es' Hs) as (_ & _ & evs & _ & Hgen).
      eapply generation_coevolved, Hgen. }
  apply (Ht n); [lia|exact Hn].
Qed.
End History.

(** ** the operator *)
Section Runs.
Context {G : Type}.
Variable pick : nat -> nat -> nat -> list (member G) -> nat.
Variable mutate : nat -> nat -> nat -> list G -> result (list G).
Variable uuid : nat -> nat -> nat -> nat.
Variable sel : nat -> nat -> nat -> list (list (option num)) -> nat -> nat -> list (cind G) -> nat -> result (cind G).
Variables num_trials size : nat.

Definition may (i : nat) (a b : list G) : Prop := exists g k, mutate g i k a = Ok b.

Lemma child_spec g i k parents x : child pick mutate uuid g i k parents = Ok x ->
  exists p, In p parents /\ may i (c_genome (m_ind p)) (c_genome x) /\ c_score x = c_score (m_ind p).
Proof.
  unfold child. destruct (nth_error parents _) as [p|] eqn:Ep; [|discriminate].
  destruct (mutate g i k (c_genome (m_ind p))) as [b|] eqn:Em; cbn [bind Pipeline.in_generator]; [|discriminate]. intros [= <-].
  exists p. split; [eapply nth_error_In, Ep|]. split; [exists g, k; exact Em|reflexivity].
Qed.

Lemma operator_children_spec g gen i shown parents : choosers sel -> i < length shown -> forall todo k out,
  coop_children pick mutate uuid sel num_trials todo k g (mk_view gen i shown) parents = Ok out ->
  length out = todo /\ forall x, In x out ->
    (exists p, In p parents /\ may i (c_genome (m_ind p)) (c_genome (m_ind x)) /\ c_score (m_ind x) = c_score (m_ind p)) /\
    fairly_scored joined_score num_trials (fun j => nth j shown []) (length shown) i x.
Proof.
  intros Hsel Hi. induction todo as [|todo IH]; intros k out; cbn [coop_children v_current v_pops].
  - intros [= <-]. split; [reflexivity|]. intros x [].
  - destruct (child pick mutate uuid g i k parents) as [x|] eqn:Ex; cbn [bind Pipeline.in_generator]; [|discriminate].
    destruct (coop_op _ _ _ _ _ _) as [f|] eqn:Ef; cbn [bind Pipeline.in_generator]; [|discriminate].
    destruct (coop_children pick mutate uuid sel num_trials todo (S k) g _ parents) as [r|] eqn:Er; cbn [bind Pipeline.in_generator]; [|discriminate].
    intros [= <-]. destruct (IH (S k) r Er) as [Lr Hr]. split; [cbn; congruence|]. intros y [<-|Hy]; [|exact (Hr y Hy)].
    cbn [m_ind]. split; [exact (child_spec g i k parents x Ex)|].
    destruct (coop_concat_spec _ _ _ _ _ _ (Hsel _ _ _ _) Ef) as (css & fs & L & C & F & M & _).
    exists css, fs, f. split; [reflexivity|]. split; [exact L|]. split.
    + eapply Forall_impl; [|exact C]. intros cs. apply combination_team, Hi.
    + split; [|exact M]. eapply Forall2_impl'; [|exact F]. intros cs v (c & r' & E & Hv). exists c, r'. split; [exact E|].
      rewrite flat_map_concat_map. exact Hv.
Qed.

Lemma operator_run max_generations stop value created final gc evss : choosers sel ->
  coop_run pick mutate uuid sel num_trials size max_generations stop value created = Some (Ok final, gc, evss) ->
  coevolution may joined_score num_trials size (length evss) (given value created) final /\
  gc_curr gc = Z.of_nat (length evss) /\
  ((max_generations <= Z.of_nat (length evss))%Z \/ stop (length evss) (Z.of_nat (length evss)) final = true).
Proof.
  intros Hsel E. unfold coop_run in E. eapply run_history; [|exact E].
  intros g gen i shown parents out Hi. cbn [run_ops]. unfold operator_pipeline.
  destruct (coop_children _ _ _ _ _ _ _ _ _ _) as [o|] eqn:Eo; cbn [bind Pipeline.in_generator]; [|discriminate]. intros [= <-].
  eapply operator_children_spec; eassumption.
Qed.

(** ** the problem *)
Variable combine : list (list G) -> result (list G).
Variable score : list G -> result num.
Variable chunk : option nat.

Lemma made_spec g v parents : forall todo k out, made pick mutate uuid todo k g v parents = Ok out ->
  length out = todo /\ forall x, In x out -> m_fit x = None /\
    exists p, In p parents /\ may (v_current v) (c_genome (m_ind p)) (c_genome (m_ind x)) /\ c_score (m_ind x) = c_score (m_ind p).
Proof.
  induction todo as [|todo IH]; intros k out; cbn [made].
  - intros [= <-]. split; [reflexivity|]. intros x [].
  - destruct (child _ _ _ _ _ _ _) as [x|] eqn:Ex; cbn [bind Pipeline.in_generator]; [|discriminate].
    destruct (made _ _ _ _ _ _ _ _) as [r|] eqn:Er; cbn [bind Pipeline.in_generator]; [|discriminate]. intros [= <-].
    destruct (IH _ _ Er) as [Lr Hr]. split; [cbn; congruence|]. intros y [<-|Hy]; [|exact (Hr y Hy)].
    split; [reflexivity|]. exact (child_spec _ _ _ _ _ Ex).
Qed.

Definition fair_value (v : view (member G)) (m : member G) (f : num) : Prop :=
  exists css fs, length css = num_trials /\ Forall (combination (map (map m_ind) (v_pops v)) (v_current v) (m_ind m)) css /\
    Forall2 (problem_score combine score) css fs /\ mean_of fs f.

Lemma multiple_spec g v : choosers sel -> forall l k fs,
  evaluate_multiple sel num_trials combine score k g v l = Ok fs -> Forall2 (fair_value v) l fs.
Proof.
  intros Hsel. induction l as [|m l IH]; intros k fs; cbn [evaluate_multiple].
  - intros [= <-]. constructor.
  - destruct (coop_evaluate _ _ _ _ _ _ _ _) as [f|] eqn:Ef; cbn [bind Pipeline.in_generator]; [|discriminate].
    destruct (evaluate_multiple _ _ _ _ _ _ _ _) as [r|] eqn:Er; cbn [bind Pipeline.in_generator]; [|discriminate]. intros [= <-].
    constructor; [|eapply IH, Er]. exact (coop_problem_spec _ _ _ _ _ _ _ _ (Hsel _ _ _ _) Ef).
Qed.

Lemma chunks_spec g v n : 0 < n -> choosers sel -> forall fuel l k fs, length l <= fuel ->
  evaluate_chunks sel num_trials combine score fuel n k g v l = Ok fs -> Forall2 (fair_value v) l fs.
Proof.
  intros Hn Hsel. induction fuel as [|fuel IH]; intros l k fs Hl.
  - destruct l; [|cbn in Hl; lia]. cbn [evaluate_chunks]. intros [= <-]. constructor.
  - destruct l as [|m l]; cbn [evaluate_chunks]; [intros [= <-]; constructor|].
    destruct (evaluate_multiple _ _ _ _ _ _ _ _) as [a|] eqn:Ea; cbn [bind Pipeline.in_generator]; [|discriminate].
    destruct (evaluate_chunks _ _ _ _ _ _ _ _ _ _) as [b|] eqn:Eb; cbn [bind Pipeline.in_generator]; [|discriminate]. intros [= <-].
    rewrite <- (firstn_skipn n (m :: l)). apply Forall2_app; [eapply multiple_spec; eassumption|].
    eapply IH; [|exact Eb]. rewrite skipn_length. cbn [length] in Hl |- *. lia.
Qed.

Lemma assign_spec v : forall l fs, Forall2 (fair_value v) l fs ->
  Forall2 (fun m m' => m_ind m' = m_ind m /\ exists f, m_fit m' = Some f /\ fair_value v m f) l (assign fs l).
Proof. induction 1 as [|m f l fs H F IH]; cbn [assign]; constructor; [|exact IH]. split; [reflexivity|]. exists f. split; [reflexivity|exact H]. Qed.

Lemma problem_ops_spec g gen i shown parents out : choosers sel -> i < length shown ->
  run_ops [make_offspring pick mutate uuid size; grouped_coop sel num_trials combine score chunk] g (mk_view gen i shown) parents = Ok out ->
  length out = size /\ forall x, In x out ->
    (exists p, In p parents /\ may i (c_genome (m_ind p)) (c_genome (m_ind x)) /\ c_score (m_ind x) = c_score (m_ind p)) /\
    fairly_scored (problem_score combine score) num_trials (fun j => nth j shown []) (length shown) i x.
Proof.
  intros Hsel Hi. cbn [run_ops]. unfold make_offspring. set (v := mk_view gen i shown).
  destruct (made _ _ _ _ _ _ _ _) as [pop|] eqn:Em; cbn [bind Pipeline.in_generator]; [|discriminate].
  destruct (made_spec _ _ _ _ _ _ Em) as [Lp Hp]. unfold grouped_coop at 1.
  destruct pop as [|m0 l0]; [discriminate|]. set (pop := m0 :: l0) in *.
  set (n := match chunk with Some n => n | None => length pop end). destruct (n =? 0) eqn:En; [discriminate|]. apply Nat.eqb_neq in En.
  destruct (evaluate_chunks _ _ _ _ _ _ _ _ _ _) as [fs|] eqn:Ec; cbn [bind Pipeline.in_generator]; [|discriminate]. intros [= <-].
  pose proof (assign_spec v pop fs (chunks_spec g v n ltac:(lia) Hsel _ _ _ _ (Nat.le_refl _) Ec)) as F.
  split. { rewrite <- Lp. clear -F. induction F; cbn; congruence. }
  assert (Hb : forall x, In x (assign fs pop) -> exists m, In m pop /\ m_ind x = m_ind m /\ exists f, m_fit x = Some f /\ fair_value v m f).
  { clear -F. induction F as [|m m' l l' (E & H) F IH]; intros x []; [subst; exists m; split; [left; reflexivity|split; assumption]|].
    destruct (IH x) as (m2 & Hm & H2); [assumption|]. exists m2. split; [right; exact Hm|exact H2]. }
  intros x Hx. destruct (Hb x Hx) as (m & Hm & E & f & Ef & css & gs & L & C & F' & M). destruct (Hp m Hm) as [_ Hpar].
  rewrite E. split; [exact Hpar|]. exists css, gs, f. split; [exact Ef|]. split; [exact L|]. split; [|split; [exact F'|exact M]].
  rewrite E. eapply Forall_impl; [|exact C]. intros cs. apply combination_team, Hi.
Qed.

Lemma problem_run max_generations stop value created final gc evss : choosers sel ->
  coop_problem_run pick mutate uuid sel num_trials size combine score chunk max_generations stop value created = Some (Ok final, gc, evss) ->
  coevolution may (problem_score combine score) num_trials size (length evss) (given value created) final /\
  gc_curr gc = Z.of_nat (length evss) /\
  ((max_generations <= Z.of_nat (length evss))%Z \/ stop (length evss) (Z.of_nat (length evss)) final = true).
Proof.
  intros Hsel E. unfold coop_problem_run in E. eapply run_history; [|exact E].
  intros g gen i shown parents out Hi Hr. eapply problem_ops_spec; eassumption.
Qed.
End Runs.

(** ** consequences *)
Section Consequences.
Context {G : Type}.
Variable step : nat -> list G -> list G -> Prop.
Variable scores : list (cind G) -> num -> Prop.
Variables num_trials size : nat.
Let coev := coevolution step scores num_trials size.

Lemma coevolution_length n s t : coev n s t -> length t = length s.
Proof. induction 1 as [|n s s' s'' H IH [L _]]; congruence. Qed.

Lemma coevolution_kinds (D : nat -> list G -> Prop) n s t : (forall i a b, D i a -> step i a b -> D i b) -> kinds D s -> coev n s t -> kinds D t.
Proof.
  intros Hd Hs H. revert Hs. induction H as [|n s s' s'' H IH [L Hc]]; intros Hs; [exact Hs|]. specialize (IH Hs).
  intros i pop x Hp Hx. assert (Hi : i < length s') by (rewrite <- L; apply nth_error_Some; congruence).
  destruct (Hc i Hi) as [_ Hx']. rewrite (nth_error_nth _ _ [] Hp) in Hx'. destruct (Hx' x Hx) as [(p & Hpin & Hst & _) _].
  eapply Hd; [|exact Hst]. destruct (nth_error s' i) as [q|] eqn:Eq; [|apply nth_error_None in Eq; lia].
  rewrite (nth_error_nth _ _ [] Eq) in Hpin. exact (IH i q p Eq Hpin).
Qed.

(** the last generation *)
Lemma coevolution_last n s t : coev (S n) s t -> exists s', coev n s s' /\ coevolved step scores num_trials size s' t.
Proof. intros H. inversion H; subst. eauto. Qed.

Lemma sum_bounds (l : list Q) (lo hi : Q) : Forall (fun q => lo <= q /\ q <= hi)%Q l ->
  (lo * inject_Z (Z.of_nat (length l)) <= Qsum l /\ Qsum l <= hi * inject_Z (Z.of_nat (length l)))%Q.
Proof.
  induction 1 as [|q l [H1 H2] F [IH1 IH2]]; [unfold Qsum; cbn [fold_right length]; change (inject_Z (Z.of_nat 0)) with 0%Q; lra|]. unfold Qsum in *. cbn [fold_right length]. rewrite Nat2Z.inj_succ, <- Z.add_1_r, inject_Z_plus.
  change (inject_Z 1) with 1%Q. split; lra.
Qed.

Lemma mean_bounds vs f qs lo hi : mean_of vs f -> vs <> [] -> Forall2 (fun x q => num_val x = Some (Fin q)) vs qs ->
  Forall (fun q => lo <= q /\ q <= hi)%Q qs -> exists m, num_val f = Some (Fin m) /\ (lo <= m /\ m <= hi)%Q.
Proof.
  intros (_ & _ & _ & H) Hne F B. destruct (H qs Hne F) as (m & E & Em). exists m. split; [exact E|].
  assert (L : length qs = length vs) by (clear -F; induction F; cbn; congruence).
  destruct (sum_bounds qs lo hi B) as [H1 H2]. rewrite L in H1, H2.
  assert (Hn : (0 < inject_Z (Z.of_nat (length vs)))%Q).
  { destruct vs; [congruence|]. change 0%Q with (inject_Z 0). rewrite <- Zlt_Qlt. cbn [length]. lia. }
  split; apply Qmult_le_r with (z := inject_Z (Z.of_nat (length vs))); try exact Hn; lra.
Qed.

Lemma fair_bounds meet species i x lo hi : 0 < num_trials ->
  (forall cs v, length cs = species -> scores cs v -> exists q, num_val v = Some (Fin q) /\ (lo <= q /\ q <= hi)%Q) ->
  fairly_scored scores num_trials meet species i x ->
  exists f m, m_fit x = Some f /\ num_val f = Some (Fin m) /\ (lo <= m /\ m <= hi)%Q.
Proof.
  intros Hn Hb (css & fs & f & Ef & L & T & F & M). exists f.
  assert (Hq : exists qs, Forall2 (fun x q => num_val x = Some (Fin q)) fs qs /\ Forall (fun q => lo <= q /\ q <= hi)%Q qs).
  { clear -Hb T F. revert T. induction F as [|cs v css fs H F IH]; intros T; [exists []; split; constructor|].
    destruct IH as (qs & F1 & F2); [exact (Forall_inv_tail T)|]. destruct (Forall_inv T) as [Lc _].
    destruct (Hb cs v Lc H) as (q & E & B). exists (q :: qs). split; constructor; assumption. }
  destruct Hq as (qs & F1 & F2).
  destruct (mean_bounds fs f qs lo hi M) as (m & E & B); [|exact F1|exact F2|exists m; split; [exact Ef|split; [exact E|exact B]]].
  intros ->. inversion F; subst. cbn in Hn. lia.
Qed.

Lemma coevolution_bounds n s t lo hi : 0 < num_trials -> coev (S n) s t ->
  (forall cs v, length cs = length s -> scores cs v -> exists q, num_val v = Some (Fin q) /\ (lo <= q /\ q <= hi)%Q) ->
  forall pop x, In pop t -> In x pop -> exists f m, m_fit x = Some f /\ num_val f = Some (Fin m) /\ (lo <= m /\ m <= hi)%Q.
Proof.
  intros Hn H Hb pop x Hp Hx. destruct (coevolution_last _ _ _ H) as (s' & H' & L & Hc).
  apply In_nth_error in Hp as (i & Hi). assert (Hlt : i < length s') by (rewrite <- L; apply nth_error_Some; congruence).
  destruct (Hc i Hlt) as [_ Hx']. rewrite (nth_error_nth _ _ [] Hi) in Hx'. destruct (Hx' x Hx) as [_ Hf].
  apply (fair_bounds _ _ _ _ lo hi Hn) in Hf; [exact Hf|]. intros cs v Lc Hs. apply (Hb cs v); [|exact Hs].
  rewrite Lc. eapply coevolution_length, H'.
Qed.

(** some team scored at least the mean, and some at most *)
Lemma mean_reached (vs : list num) f qs : mean_of vs f -> vs <> [] -> Forall2 (fun x q => num_val x = Some (Fin q)) vs qs ->
  exists m, num_val f = Some (Fin m) /\ (exists q, In q qs /\ m <= q)%Q /\ (exists q, In q qs /\ q <= m)%Q.
Proof.
  intros (_ & _ & _ & H) Hne F. destruct (H qs Hne F) as (m & E & Em). exists m. split; [exact E|].
  assert (L : length qs = length vs) by (clear -F; induction F; cbn; congruence). rewrite <- L in Em.
  assert (Hq : qs <> []) by (destruct qs; [destruct vs; [congruence|inversion F]|discriminate]).
  clear -Em Hq. revert Em Hq. generalize m. clear m. induction qs as [|q qs IH]; intros m Em Hq; [congruence|]. clear Hq.
  assert (Hs : (m * inject_Z (Z.of_nat (S (length qs))) == m * inject_Z (Z.of_nat (length qs)) + m)%Q).
  { rewrite Nat2Z.inj_succ, <- Z.add_1_r, inject_Z_plus. change (inject_Z 1) with 1%Q. ring. }
  cbn [length] in Em. rewrite Hs in Em. unfold Qsum in Em. cbn [fold_right] in Em. fold (Qsum qs) in Em.
  split.
  - destruct (Qlt_le_dec q m) as [Hlt|Hle]; [|exists q; split; [left; reflexivity|exact Hle]].
    destruct (Forall_Exists_dec (fun q => q < m)%Q (fun q => match Qlt_le_dec q m with left a => left a | right b => right (Qle_not_lt _ _ b) end) qs) as [Ha|He].
    + exfalso. assert (B : (Qsum qs <= m * inject_Z (Z.of_nat (length qs)))%Q).
      { clear -Ha. induction Ha as [|a l H F IH]; [unfold Qsum; cbn [fold_right length]; change (inject_Z (Z.of_nat 0)) with 0%Q; lra|]. unfold Qsum in *. cbn [fold_right length]. rewrite Nat2Z.inj_succ, <- Z.add_1_r, inject_Z_plus. change (inject_Z 1) with 1%Q. lra. }
      lra.
    + apply Exists_exists in He as (q' & Hin & Hn). exists q'. split; [right; exact Hin|]. apply Qnot_lt_le, Hn.
  - destruct (Qlt_le_dec m q) as [Hlt|Hle]; [|exists q; split; [left; reflexivity|exact Hle]].
    destruct (Forall_Exists_dec (fun q => m < q)%Q (fun q => match Qlt_le_dec m q with left a => left a | right b => right (Qle_not_lt _ _ b) end) qs) as [Ha|He].
    + exfalso. assert (B : (m * inject_Z (Z.of_nat (length qs)) <= Qsum qs)%Q).
      { clear -Ha. induction Ha as [|a l H F IH]; [unfold Qsum; cbn [fold_right length]; change (inject_Z (Z.of_nat 0)) with 0%Q; lra|]. unfold Qsum in *. cbn [fold_right length]. rewrite Nat2Z.inj_succ, <- Z.add_1_r, inject_Z_plus. change (inject_Z 1) with 1%Q. lra. }
      lra.
    + apply Exists_exists in He as (q' & Hin & Hn). exists q'. split; [right; exact Hin|]. apply Qnot_lt_le, Hn.
Qed.

Lemma Forall2_In_r {A B} (R : A -> B -> Prop) l m y : Forall2 R l m -> In y m -> exists x, In x l /\ R x y.
Proof. induction 1 as [|a b l m H F IH]; intros []; [subst; eauto using in_eq|]. destruct IH as (x & Hx & Hr); [assumption|]. exists x. split; [right; exact Hx|exact Hr]. Qed.

Lemma fair_reached meet species i x : 0 < num_trials ->
  (forall cs v, scores cs v -> exists q, num_val v = Some (Fin q)) ->
  fairly_scored scores num_trials meet species i x ->
  exists f m, m_fit x = Some f /\ num_val f = Some (Fin m) /\
    (exists cs v q, team meet species i (m_ind x) cs /\ scores cs v /\ num_val v = Some (Fin q) /\ m <= q)%Q /\
    (exists cs v q, team meet species i (m_ind x) cs /\ scores cs v /\ num_val v = Some (Fin q) /\ q <= m)%Q.
Proof.
  intros Hn Hfin (css & fs & f & Ef & L & T & F & M). exists f.
  assert (Hq : exists qs, Forall2 (fun x q => num_val x = Some (Fin q)) fs qs).
  { clear -Hfin F. induction F as [|cs v css fs H F (qs & IH)]; [exists []; constructor|].
    destruct (Hfin cs v H) as (q & E). exists (q :: qs). constructor; assumption. }
  destruct Hq as (qs & Fq).
  destruct (mean_reached fs f qs M) as (m & E & (q1 & I1 & B1) & (q2 & I2 & B2)); [|exact Fq|].
  { intros ->. inversion F; subst. cbn in Hn. lia. }
  assert (Hteam : forall q, In q qs -> exists cs v, team meet species i (m_ind x) cs /\ scores cs v /\ num_val v = Some (Fin q)).
  { intros q Hin. destruct (Forall2_In_r _ _ _ _ Fq Hin) as (v & Hv & Ev). destruct (Forall2_In_r _ _ _ _ F Hv) as (cs & Hcs & Hs).
    exists cs, v. split; [|split; assumption]. rewrite Forall_forall in T. exact (T cs Hcs). }
  exists m. split; [exact Ef|]. split; [exact E|]. split.
  - destruct (Hteam q1 I1) as (cs & v & A & B & C). exists cs, v, q1. auto.
  - destruct (Hteam q2 I2) as (cs & v & A & B & C). exists cs, v, q2. auto.
Qed.

(** what the last generation says about the result *)
Lemma coevolution_result n s t : coev (S n) s t ->
  exists s', coev n s s' /\ length t = length s /\ forall i pop x, nth_error t i = Some pop -> length pop = size /\
    (In x pop -> fairly_scored scores num_trials (partners s' t i) (length t) i x).
Proof.
  intros H. pose proof (coevolution_length _ _ _ H) as Lt. destruct (coevolution_last _ _ _ H) as (s' & H' & L & Hc).
  exists s'. split; [exact H'|]. split; [exact Lt|]. intros i pop x Hi.
  assert (Hlt : i < length s') by (rewrite <- L; apply nth_error_Some; congruence). destruct (Hc i Hlt) as [Hz Hx'].
  rewrite (nth_error_nth _ _ [] Hi) in Hz, Hx'. split; [exact Hz|]. intros Hx. rewrite L. exact (proj2 (Hx' x Hx)).
Qed.

Lemma team_ext (m m' : nat -> list (member G)) species i x cs : (forall j, j < species -> j <> i -> m j = m' j) ->
  team m species i x cs -> team m' species i x cs.
Proof.
  intros E (A & B & C). split; [exact A|]. split; [exact B|]. intros j c Hne Hj. rewrite <- E; [exact (C j c Hne Hj)| |exact Hne].
  rewrite <- A. apply nth_error_Some. congruence.
Qed.

Lemma coevolution_last_species n s t pop x : coev (S n) s t -> nth_error t (length t - 1) = Some pop -> In x pop ->
  fairly_scored scores num_trials (fun j => nth j t []) (length t) (length t - 1) x.
Proof.
  intros H Hp Hx. destruct (coevolution_result _ _ _ H) as (s' & _ & _ & Hr). destruct (Hr _ pop x Hp) as [_ Hf].
  destruct (Hf Hx) as (css & fs & f & A & B & C & D). exists css, fs, f. split; [exact A|]. split; [exact B|]. split; [|exact D].
  eapply Forall_impl; [|exact C]. intros cs. apply team_ext. intros j Hj Hne. unfold partners.
  destruct (Nat.ltb_spec j (length t - 1)); [reflexivity|lia].
Qed.
End Consequences.

(** ** runs complete *)
Section Loop.
Context {A : Type}.
Variable max_generations : Z.
Variable ops : list (@mop A).
Variable stop : nat -> Z -> list (list A) -> bool.
Variable Inv : list (list A) -> Prop.
Variable Hstep : forall g gen i pops parents, Inv pops -> nth_error pops i = Some parents ->
  exists out, run_ops ops g (mk_view gen i pops) parents = Ok out /\ Inv (set_nth i out pops).

Lemma island_loop_completes g gen : forall todo i pops, Inv pops ->
  exists pops' evs, island_loop ops [] todo i g gen pops = (Ok pops', evs) /\ Inv pops'.
Proof.
  induction todo as [|todo IH]; intros i pops H; cbn [island_loop]; [eauto|].
  destruct (nth_error pops i) as [parents|] eqn:Ep; [|eauto]. cbn [operators bind].
  destruct (Hstep g gen i pops parents H Ep) as (out & -> & H'). destruct (IH (S i) _ H') as (pops' & evs & -> & Hi). eauto.
Qed.

Lemma mp_loop_completes : forall fuel g gc pops r gc' evss, Inv pops ->
  mp_loop max_generations ops [] stop fuel g gc pops = Some (r, gc', evss) -> exists final, r = Ok final.
Proof.
  induction fuel as [|fuel IH]; intros g gc pops r gc' evss H; cbn [mp_loop]; destruct (gc_generation gc <? max_generations)%Z;
    try (intros [= <- <- <-]; eauto); destruct (stop g (gc_ctx gc) pops); try discriminate; try (intros [= <- <- <-]; eauto).
  destruct (island_loop_completes g (gc_ctx gc) (length pops) 0 pops H) as (pops' & evs & -> & H').
  destruct (mp_loop _ _ _ _ fuel _ _ pops') as [[[r' gc2] evss']|] eqn:E; [|discriminate]. intros [= <- <- <-]. eapply IH; eassumption.
Qed.

Lemma multi_completes init : Inv init ->
  exists final gc evss, multi_population_ea max_generations ops [] stop init = Some (Ok final, gc, evss).
Proof.
  intros H. destruct (multi_population_ok max_generations ops [] stop init) as (r & gc & evss & E & _).
  destruct (mp_loop_completes _ _ _ _ _ _ _ H E) as (final & ->). eauto.
Qed.
End Loop.

Section Completion.
Context {G : Type}.
Variable D : nat -> list G -> Prop.
Variable S : (cind G) -> Prop.
Variable pick : nat -> nat -> nat -> list (member G) -> nat.
Variable mutate : nat -> nat -> nat -> list G -> result (list G).
Variable uuid : nat -> nat -> nat -> nat.
Variable sel : nat -> nat -> nat -> list (list (option num)) -> nat -> nat -> list (cind G) -> nat -> result (cind G).
Variables num_trials size species : nat.
Variable Hops : operators_work D pick mutate sel.
Variable Hsel : choosers sel.
Variable HS : forall x y, S x -> c_score y = c_score x -> S y.
Variable Hsize : 0 < size.

Definition healthy (s : list (list (member G))) : Prop :=
  length s = species /\ kinds D s /\ Forall (fun p => p <> []) s /\ Forall (Forall (fun m => S (m_ind m))) s.

Lemma healthy_set s i out : healthy s -> i < length s -> out <> [] -> (forall x, In x out -> D i (c_genome (m_ind x)) /\ S (m_ind x)) ->
  healthy (set_nth i out s).
Proof.
  intros (L & K & N & C) Hi Ho Hx. split; [rewrite set_nth_length; exact L|]. split.
  - intros j pop x Hj Hin. rewrite nth_error_set_nth in Hj by exact Hi. destruct (Nat.eqb_spec j i) as [->|Hne].
    + injection Hj as <-. exact (proj1 (Hx x Hin)).
    + exact (K j pop x Hj Hin).
  - rewrite Forall_forall in N, C. split; apply Forall_forall; intros p Hp; apply In_nth_error in Hp as (j & Hj);
      rewrite nth_error_set_nth in Hj by exact Hi; destruct (j =? i).
    + congruence.
    + apply N. eapply nth_error_In, Hj.
    + injection Hj as <-. apply Forall_forall. intros x Hin. exact (proj2 (Hx x Hin)).
    + apply C. eapply nth_error_In, Hj.
Qed.

Lemma child_ok s i parents g k : healthy s -> nth_error s i = Some parents ->
  exists x, child pick mutate uuid g i k parents = Ok x /\ D i (c_genome x) /\ S x.
Proof.
  intros (L & K & N & C) Hi. destruct Hops as (Hp & Hm & _). rewrite Forall_forall in N, C.
  assert (Hin : In parents s) by (eapply nth_error_In, Hi). specialize (Hp g i k parents (N _ Hin)). unfold child.
  destruct (nth_error parents (pick g i k parents)) as [p|] eqn:Ep; [|apply nth_error_None in Ep; lia].
  apply nth_error_In in Ep. destruct (Hm g i k _ (K i parents p Hi Ep)) as (b & -> & Hb). cbn [bind Pipeline.in_generator].
  eexists. split; [reflexivity|]. split; [exact Hb|]. pose proof (C _ Hin) as Cp. rewrite Forall_forall in Cp.
  eapply HS; [exact (Cp p Ep)|reflexivity].
Qed.

Lemma choose_ok s i x (pk : nat -> list (cind G) -> result (cind G)) : healthy s -> i < length s -> D i (c_genome x) -> S x ->
  (forall j pop, pop <> [] -> exists z, pk j pop = Ok z) -> (forall j pop z, pk j pop = Ok z -> In z pop) ->
  exists cs, choose x i 0 (map (map m_ind) s) pk = Ok cs /\ length cs = species /\
    forall j c, nth_error cs j = Some c -> D j (c_genome c) /\ S c.
Proof.
  intros (L & K & N & C) Hi Hx Hsx Ht Hm. rewrite Forall_forall in N, C.
  destruct (choose_total x i (map (map m_ind) s) pk 0) as (cs & E).
  { intros j pop Hj _. apply Ht. rewrite nth_error_map in Hj. destruct (nth_error s j) as [q|] eqn:Eq; cbn in Hj; [|discriminate].
    injection Hj as <-. intros Hn. apply map_eq_nil in Hn. exact (N q (nth_error_In _ _ Eq) Hn). }
  exists cs. split; [exact E|]. destruct (choose_spec x i _ pk Hm 0 cs E) as [Lc Hc]. rewrite map_length in Lc. split; [congruence|].
  intros j c Hj. destruct (Hc j c Hj) as [H1 H2]. destruct (Nat.eq_dec j i) as [->|Hne].
  - rewrite (H1 eq_refl). split; assumption.
  - destruct (H2 Hne) as (pop & Hp & Hin). rewrite nth_error_map in Hp. destruct (nth_error s j) as [q|] eqn:Eq; cbn in Hp; [|discriminate].
    injection Hp as <-. apply in_map_iff in Hin as (y & <- & Hy). split; [exact (K j q y Eq Hy)|].
    pose proof (C q (nth_error_In _ _ Eq)) as Cq. rewrite Forall_forall in Cq. exact (Cq y Hy).
Qed.

Section Op.
Variable Hscore : forall cs, 0 < length cs -> length cs = species -> (forall j c, nth_error cs j = Some c -> D j (c_genome c) /\ S c) ->
  exists v, concat_combine_score cs = Ok v.
Variable Htrials : 0 < num_trials.

Lemma coop_op_ok s i x g k : healthy s -> i < length s -> D i (c_genome x) -> S x ->
  exists f, coop_op (sel g i k (map (map m_fit) s)) concat_combine_score num_trials x i (map (map m_ind) s) = Ok f.
Proof.
  intros H Hi Hx Hsx. unfold coop_op. destruct (trials_total (coop_op_trial (sel g i k (map (map m_fit) s)) concat_combine_score x i (map (map m_ind) s)) num_trials 0) as (fs & E).
  - intros t. unfold coop_op_trial. destruct (choose_ok s i x (fun i0 pop => sel g i k (map (map m_fit) s) 0 i0 pop t) H Hi Hx Hsx) as (cs & -> & Lc & Hc).
    + intros j pop Hne. apply Hops, Hne.
    + intros j pop z. apply Hsel.
    + cbn [bind Pipeline.in_generator]. apply Hscore; [|exact Lc|exact Hc]. destruct H as (Ls & _). lia.
  - rewrite E. cbn [bind Pipeline.in_generator]. apply trials_spec in E as [El _]. destruct fs; [cbn in El; lia|eauto].
Qed.

Lemma coop_children_ok s i parents g gen : healthy s -> nth_error s i = Some parents -> forall todo k,
  exists out, coop_children pick mutate uuid sel num_trials todo k g (mk_view gen i s) parents = Ok out /\ length out = todo /\
    forall x, In x out -> D i (c_genome (m_ind x)) /\ S (m_ind x).
Proof.
  intros H Hi. assert (Hlt : i < length s) by (apply nth_error_Some; congruence).
  induction todo as [|todo IH]; intros k; cbn [coop_children v_current v_pops].
  - exists []. split; [reflexivity|]. split; [reflexivity|]. intros x [].
  - destruct (child_ok s i parents g k H Hi) as (x & -> & Hx & Hsx). cbn [bind Pipeline.in_generator].
    destruct (coop_op_ok s i x g k H Hlt Hx Hsx) as (f & ->). cbn [bind Pipeline.in_generator]. destruct (IH (Datatypes.S k)) as (r & -> & Lr & Hr). cbn [bind Pipeline.in_generator].
    eexists. split; [reflexivity|]. split; [cbn; congruence|]. intros y [<-|Hy]; [split; assumption|exact (Hr y Hy)].
Qed.

Lemma operator_completes max_generations stop value created : healthy (given value created) ->
  exists final gc evss, coop_run pick mutate uuid sel num_trials size max_generations stop value created = Some (Ok final, gc, evss).
Proof.
  intros H. apply (multi_completes _ _ _ healthy); [|exact H]. clear H. intros g gen i s parents H Hi. cbn [run_ops]. unfold operator_pipeline.
  destruct (coop_children_ok s i parents g gen H Hi size 0) as (out & -> & L & Hx). cbn [bind Pipeline.in_generator]. exists out. split; [reflexivity|].
  apply healthy_set; [exact H|apply nth_error_Some; congruence|destruct out; [cbn in L; lia|discriminate]|exact Hx].
Qed.
End Op.

Section Prob.
Variable combine : list (list G) -> result (list G).
Variable score : list G -> result num.
Variable chunk : option nat.
Variable Hchunk : chunk <> Some 0.
Variable Hscore : forall gs, length gs = species -> (forall j g, nth_error gs j = Some g -> D j g) ->
  exists g v, combine gs = Ok g /\ score g = Ok v.

Lemma coop_evaluate_ok s i x g k : healthy s -> i < length s -> D i (c_genome x) -> S x ->
  exists f, coop_evaluate (sel g i k (map (map m_fit) s)) combine score false num_trials x i (map (map m_ind) s) = Ok f.
Proof.
  intros H Hi Hx Hsx. unfold coop_evaluate.
  destruct (trials_total (coop_trial (sel g i k (map (map m_fit) s)) combine score false x i (map (map m_ind) s)) num_trials 0) as (fs & ->); [|cbn [bind Pipeline.in_generator]; eauto].
  intros t. unfold coop_trial. destruct (choose_ok s i x (fun i0 pop => sel g i k (map (map m_fit) s) t i0 pop 0) H Hi Hx Hsx) as (cs & -> & Lc & Hc).
  - intros j pop Hne. apply Hops, Hne.
  - intros j pop z. apply Hsel.
  - cbn [bind Pipeline.in_generator]. destruct (Hscore (map c_genome cs)) as (l & v & -> & Ev); [rewrite map_length; exact Lc| |cbn [bind Pipeline.in_generator]; rewrite Ev; cbn; eauto].
    intros j a Ha. rewrite nth_error_map in Ha. destruct (nth_error cs j) as [c|] eqn:Ej; cbn in Ha; [|discriminate]. injection Ha as <-. exact (proj1 (Hc j c Ej)).
Qed.

Lemma made_ok s i parents g gen : healthy s -> nth_error s i = Some parents -> forall todo k,
  exists out, made pick mutate uuid todo k g (mk_view gen i s) parents = Ok out /\ length out = todo /\
    forall x, In x out -> D i (c_genome (m_ind x)) /\ S (m_ind x).
Proof.
  intros H Hi. induction todo as [|todo IH]; intros k; cbn [made v_current].
  - exists []. split; [reflexivity|]. split; [reflexivity|]. intros x [].
  - destruct (child_ok s i parents g k H Hi) as (x & -> & Hx & Hsx). cbn [bind Pipeline.in_generator]. destruct (IH (Datatypes.S k)) as (r & -> & Lr & Hr). cbn [bind Pipeline.in_generator].
    eexists. split; [reflexivity|]. split; [cbn; congruence|]. intros y [<-|Hy]; [split; assumption|exact (Hr y Hy)].
Qed.

Lemma multiple_ok s i g gen : healthy s -> i < length s -> forall l k, (forall x, In x l -> D i (c_genome (m_ind x)) /\ S (m_ind x)) ->
  exists fs, evaluate_multiple sel num_trials combine score k g (mk_view gen i s) l = Ok fs.
Proof.
  intros H Hi. induction l as [|m l IH]; intros k Hl; cbn [evaluate_multiple v_current v_pops]; [eauto|].
  destruct (Hl m (or_introl eq_refl)) as [H1 H2]. destruct (coop_evaluate_ok s i (m_ind m) g k H Hi H1 H2) as (f & ->). cbn [bind Pipeline.in_generator].
  destruct (IH (Datatypes.S k)) as (fs & ->); [intros x Hx; apply Hl; right; exact Hx|]. cbn [bind Pipeline.in_generator]. eauto.
Qed.

Lemma In_skipn {A} n (l : list A) x : In x (skipn n l) -> In x l.
Proof. intros H. rewrite <- (firstn_skipn n l). apply in_or_app. right. exact H. Qed.
Lemma In_firstn {A} n (l : list A) x : In x (firstn n l) -> In x l.
Proof. intros H. rewrite <- (firstn_skipn n l). apply in_or_app. left. exact H. Qed.

Lemma chunks_ok s i g gen n : healthy s -> i < length s -> forall fuel l k, (forall x, In x l -> D i (c_genome (m_ind x)) /\ S (m_ind x)) ->
  exists fs, evaluate_chunks sel num_trials combine score fuel n k g (mk_view gen i s) l = Ok fs.
Proof.
  intros H Hi. induction fuel as [|fuel IH]; intros l k Hl; [destruct l; cbn [evaluate_chunks]; eauto|].
  destruct l as [|m l]; cbn [evaluate_chunks]; [eauto|].
  destruct (multiple_ok s i g gen H Hi (firstn n (m :: l)) k) as (a & ->); [intros x Hx; apply Hl; eapply In_firstn, Hx|]. cbn [bind Pipeline.in_generator].
  destruct (IH (skipn n (m :: l)) (k + n)) as (b & ->); [intros x Hx; apply Hl; eapply In_skipn, Hx|]. cbn [bind Pipeline.in_generator]. eauto.
Qed.

Lemma assign_ind (fs : list num) : forall (l : list (member G)), map m_ind (assign fs l) = map m_ind l.
Proof. induction fs as [|f fs IH]; intros [|m l]; cbn; try reflexivity. rewrite IH. reflexivity. Qed.

Lemma problem_completes max_generations stop value created : healthy (given value created) ->
  exists final gc evss, coop_problem_run pick mutate uuid sel num_trials size combine score chunk max_generations stop value created = Some (Ok final, gc, evss).
Proof.
  intros H. apply (multi_completes _ _ _ healthy); [|exact H]. clear H. intros g gen i s parents H Hi. cbn [run_ops]. unfold make_offspring.
  assert (Hlt : i < length s) by (apply nth_error_Some; congruence).
  destruct (made_ok s i parents g gen H Hi size 0) as (out & -> & L & Hx). cbn [bind Pipeline.in_generator]. unfold grouped_coop.
  destruct out as [|m0 l0]; [cbn in L; lia|]. set (out := m0 :: l0) in *.
  destruct ((match chunk with Some n => n | None => length out end) =? 0) eqn:En.
  { apply Nat.eqb_eq in En. destruct chunk; [congruence|discriminate]. }
  destruct (chunks_ok s i g gen (match chunk with Some n => n | None => length out end) H Hlt (length out) out 0 Hx) as (fs & ->). cbn [bind Pipeline.in_generator].
  exists (assign fs out). split; [reflexivity|].
  apply healthy_set; [exact H|exact Hlt| |].
  - intros E. apply (f_equal (map m_ind)) in E. rewrite assign_ind in E. discriminate.
  - intros x Hin. assert (Hm : In (m_ind x) (map m_ind out)) by (rewrite <- (assign_ind fs); apply in_map, Hin).
    apply in_map_iff in Hm as (y & <- & Hy). exact (Hx y Hy).
Qed.
End Prob.
End Completion.

Lemma given_kinds {G} (D : nat -> list G -> Prop) value created : kinds D created <-> kinds D (given value created).
Proof.
  unfold kinds, given. split; intros H i pop x Hi Hx.
  - rewrite nth_error_map in Hi. destruct (nth_error created i) as [q|] eqn:Eq; cbn in Hi; [|discriminate]. injection Hi as <-.
    apply in_map_iff in Hx as (y & <- & Hy). exact (H i q y Eq Hy).
  - apply (H i (map (fun m => mk_member (m_ind m) (Some value)) pop) (mk_member (m_ind x) (Some value))).
    + rewrite nth_error_map, Hi. reflexivity.
    + apply in_map_iff. exists x. split; [reflexivity|exact Hx].
Qed.

Lemma given_healthy {G} D (S : cind G -> Prop) value created : kinds D created -> Forall (fun p => p <> []) created ->
  (forall pop x, In pop created -> In x pop -> S (m_ind x)) -> healthy D S (length created) (given value created).
Proof.
  intros K N H. split; [apply map_length|]. split; [apply given_kinds, K|]. unfold given. split.
  - apply Forall_map. eapply Forall_impl; [|exact N]. intros p Hp E. apply map_eq_nil in E. exact (Hp E).
  - apply Forall_map, Forall_forall. intros p Hp. apply Forall_map, Forall_forall. intros m Hm. cbn [m_ind]. exact (H p m Hp Hm).
Qed.

Lemma operator_run_completes {G} (D : nat -> list G -> Prop) pick mutate uuid sel num_trials size max_generations stop value created :
  operators_work D pick mutate sel -> choosers sel -> 0 < num_trials -> 0 < size ->
  kinds D created -> Forall (fun p => p <> []) created ->
  (forall pop x l, In pop created -> In x pop -> complete D (length created) l -> exists v, c_score (m_ind x) l = Ok v) ->
  exists final gc evss, coop_run pick mutate uuid sel num_trials size max_generations stop value created = Some (Ok final, gc, evss).
Proof.
  intros Ho Hs Hn Hz K N H.
  apply (operator_completes D (fun x => forall l, complete D (length created) l -> exists v, c_score x l = Ok v) pick mutate uuid sel num_trials size (length created)); try assumption.
  - intros x y Hx E l Hl. rewrite E. exact (Hx l Hl).
  - intros cs Hpos Lc Hc. destruct cs as [|c r]; [cbn in Hpos; lia|]. cbn [concat_combine_score].
    apply (proj2 (Hc 0 c eq_refl)). exists (map c_genome (c :: r)). split; [rewrite map_length; exact Lc|]. split; [reflexivity|].
    intros i p Hp. rewrite nth_error_map in Hp. destruct (nth_error (c :: r) i) as [d|] eqn:Ed; cbn [option_map] in Hp; [|discriminate]. injection Hp as <-.
    exact (proj1 (Hc i d Ed)).
  - apply given_healthy; [exact K|exact N|]. intros pop x Hp Hx l Hl. exact (H pop x l Hp Hx Hl).
Qed.

Lemma problem_run_completes {G} (D : nat -> list G -> Prop) pick mutate uuid sel num_trials size combine score chunk max_generations stop value created :
  operators_work D pick mutate sel -> choosers sel -> 0 < size -> chunk <> Some 0 ->
  kinds D created -> Forall (fun p => p <> []) created ->
  (forall gs, length gs = length created -> (forall j g, nth_error gs j = Some g -> D j g) -> exists g v, combine gs = Ok g /\ score g = Ok v) ->
  exists final gc evss, coop_problem_run pick mutate uuid sel num_trials size combine score chunk max_generations stop value created = Some (Ok final, gc, evss).
Proof.
  intros Ho Hs Hz Hc K N H.
  apply (problem_completes D (fun _ => True) pick mutate uuid sel num_trials size (length created)); try assumption.
  - trivial.
  - apply given_healthy; [exact K|exact N|]. trivial.
Qed.

(** ** the default init_evaluate *)
Lemma default_first_run {G} pick mutate uuid sel num_trials size combine score chunk max_generations stop (created : list (list (member G))) :
  concat created <> [] ->
  coop_problem_run_default pick mutate uuid sel num_trials size combine score chunk max_generations stop None created =
    Some (Err KeyError, inc_generation 0, []).
Proof.
  intros H. unfold coop_problem_run_default.
  assert (E : forall i, initial_pops sel num_trials combine score None i created = Err KeyError).
  { induction created as [|p r IH]; [exfalso; apply H; reflexivity|]. intros i. cbn [initial_pops]. destruct p as [|m p]; cbn [initial_pop bind].
    - cbn [concat app] in H. rewrite (IH H). reflexivity.
    - reflexivity. }
  rewrite E. reflexivity.
Qed.

Lemma species_stay_apart {G} (step : nat -> list G -> list G -> Prop) scores num_trials size (D : nat -> list G -> Prop) n created final :
  coevolution step scores num_trials size n created final ->
  length final = length created /\
  ((forall i a b, D i a -> step i a b -> D i b) -> kinds D created -> kinds D final).
Proof.
  intros H. split; [eapply coevolution_length, H|]. intros Hd K. eapply coevolution_kinds; eassumption.
Qed.

Lemma fitness_was_reached {G} (step : nat -> list G -> list G -> Prop) scores num_trials size n created final :
  0 < num_trials -> coevolution step scores num_trials size (S n) created final ->
  (forall cs v, scores cs v -> exists q, num_val v = Some (Fin q)) ->
  exists last, coevolution step scores num_trials size n created last /\
  forall i pop x, nth_error final i = Some pop -> In x pop ->
  exists f m, m_fit x = Some f /\ num_val f = Some (Fin m) /\
    (exists cs v q, team (partners last final i) (length final) i (m_ind x) cs /\ scores cs v /\ num_val v = Some (Fin q) /\ m <= q)%Q /\
    (exists cs v q, team (partners last final i) (length final) i (m_ind x) cs /\ scores cs v /\ num_val v = Some (Fin q) /\ q <= m)%Q.
Proof.
  intros Hn H Hf. destruct (coevolution_result _ _ _ _ _ _ _ H) as (s' & H' & _ & Hr). exists s'. split; [exact H'|].
  intros i pop x Hi Hx. apply (fair_reached step scores num_trials size); [exact Hn|exact Hf|]. exact (proj2 (Hr i pop x Hi) Hx).
Qed.

(** ** examples and refutations *)
Lemma demo_choosers : choosers demo_sel.
Proof.
  intros g i k fits t j pop n z. unfold demo_sel. destruct (rev pop) as [|x r] eqn:E; [discriminate|]. intros [= <-].
  apply in_rev. rewrite E. left. reflexivity.
Qed.

Lemma demo_operators_work : operators_work demo_kind demo_pick demo_mutate demo_sel.
Proof.
  split; [|split].
  - intros g i k parents H. apply Nat.mod_upper_bound. destruct parents; [congruence|discriminate].
  - intros g i k [|a l] H; cbn [demo_mutate]; eexists; (split; [reflexivity|]); exact H.
  - intros g i k fits t j pop n H. unfold demo_sel. destruct (rev pop) as [|x r] eqn:E; [|eauto].
    apply (f_equal (@rev _)) in E. rewrite rev_involutive in E. contradiction.
Qed.

Lemma demo_kinds : kinds demo_kind demo_created.
Proof.
  intros [|[|i]] pop x H; cbn in H; try (injection H as <-); cbn; [intuition (subst; reflexivity)|intuition (subst; reflexivity)|].
  destruct i; discriminate.
Qed.

Lemma one_trial scores meet species i (x : member Z) f : fairly_scored scores 1 meet species i x -> m_fit x = Some f ->
  exists cs v, team meet species i (m_ind x) cs /\ scores cs v /\ mean_of [v] f.
Proof.
  intros (css & fs & f' & E & L & T & F & M) Ef. rewrite E in Ef. injection Ef as ->. destruct css as [|cs [|]]; try discriminate.
  inversion F as [|? v ? fs' Hs F']; subst. inversion F'; subst. exists cs, v. split; [exact (Forall_inv T)|]. split; assumption.
Qed.

Lemma mean_single v f q : mean_of [v] f -> num_val v = Some (Fin q) -> exists m, num_val f = Some (Fin m) /\ (m == q)%Q.
Proof.
  intros (_ & _ & _ & H) Ev. destruct (H [q]) as (m & E & Em); [discriminate|repeat constructor; exact Ev|]. exists m. split; [exact E|].
  unfold Qsum in Em. cbn [length fold_right] in Em. change (inject_Z (Z.of_nat 1)) with 1%Q in Em. lra.
Qed.

Lemma stale_fitness :
  exists pick (mutate : nat -> nat -> nat -> list Z -> result (list Z)) uuid sel stop value created final gc evss pop x,
  choosers sel /\ coop_run pick mutate uuid sel 1 2 1 stop value created = Some (Ok final, gc, evss) /\
  nth_error final 0 = Some pop /\ In x pop /\
  ~ fairly_scored joined_score 1 (fun j => nth j final []) (length final) 0 x.
Proof.
  exists demo_pick, demo_mutate, demo_uuid, demo_sel, (fun _ _ _ => false), (NInt (-100)), demo_created.
  do 5 eexists. split; [exact demo_choosers|]. split; [vm_compute; reflexivity|]. split; [reflexivity|]. split; [left; reflexivity|].
  intros H. eapply one_trial in H; [|reflexivity]. destruct H as (cs & v & (L & H0 & Hj) & (c & r & -> & Hv) & M).
  cbn in L, H0. injection H0 as ->. destruct r as [|d [|]]; try discriminate. destruct (Hj 1 d ltac:(discriminate) eq_refl) as (y & Hy & <-).
  cbn in Hy. destruct Hy as [<-|[<-|[]]]; cbn in Hv; injection Hv as <-; destruct (mean_single _ _ _ M eq_refl) as (m & Em & Hm); cbn in Em; injection Em as <-; discriminate Hm.
Qed.

Lemma left_over_subpopulations :
  exists pick (mutate : nat -> nat -> nat -> list Z -> result (list Z)) uuid sel combine score stop context created final gc evss pop x,
  choosers sel /\
  coop_problem_run_default pick mutate uuid sel 1 2 combine score None 0 stop (Some context) created = Some (Ok final, gc, evss) /\
  nth_error final 0 = Some pop /\ In x pop /\
  ~ fairly_scored (problem_score combine score) 1 (fun j => nth j final []) (length final) 0 x.
Proof.
  exists demo_pick, demo_mutate, demo_uuid, demo_sel, np_concatenate, demo_score, (fun _ _ _ => false),
    ([[demo_member 10 [1; 1]; demo_member 11 [1; 1]]; [demo_member 12 [1]; demo_member 13 [1]]]%Z, 1), demo_created.
  do 5 eexists. split; [exact demo_choosers|]. split; [vm_compute; reflexivity|]. split; [reflexivity|]. split; [left; reflexivity|].
  intros H. eapply one_trial in H; [|reflexivity]. destruct H as (cs & v & (L & H0 & Hj) & (g & Hg & Hv) & M).
  destruct cs as [|c r]; [discriminate|]. cbn in L, H0. injection H0 as ->. destruct r as [|d [|]]; try discriminate. destruct (Hj 1 d ltac:(discriminate) eq_refl) as (y & Hy & <-).
  cbn in Hy. destruct Hy as [<-|[<-|[]]]; cbn in Hg; injection Hg as <-; cbn in Hv; injection Hv as <-; destruct (mean_single _ _ _ M eq_refl) as (m & Em & Hm); cbn in Em; injection Em as <-; discriminate Hm.
Qed.
