(** Proofs about steady_state_nsga_2 and sort_by_dominance. *)
From Coq Require Import Lia  Permutation Sorted.
From Verif Require Import Model.Base Model.PyList Model.Pareto Model.Crowding Model.Enlu Model.Counters Model.Distrib Model.SteadyNsga
  Spec.Order Spec.Pareto Spec.Crowding Spec.SteadyNsga Proofs.Order Proofs.RankOrdinal Proofs.Crowding Proofs.Enlu Proofs.EnluInserter Proofs.Distrib.

(** ** sort_by_dominance *)
Lemma insert_asc_filter {A} (lt : A -> A -> bool) (p : A -> bool) x s :
  (forall y, In y s -> p x = true -> p y = true -> lt y x = false) ->
  filter p (insert_asc lt x s) = if p x then x :: filter p s else filter p s.
Proof.
  induction s as [|y s IH]; intros H; cbn [insert_asc filter]; [destruct (p x); reflexivity|].
  destruct (lt y x) eqn:E.
  - cbn [filter]. rewrite IH by (intros z Hz; apply H; right; exact Hz). destruct (p y) eqn:Py, (p x) eqn:Px; try reflexivity.
    rewrite (H y ltac:(left; reflexivity) eq_refl Py) in E. discriminate.
  - cbn [filter]. destruct (p x), (p y); reflexivity.
Qed.
Lemma sort_asc_filter {A} (lt : A -> A -> bool) (p : A -> bool) l :
  (forall x y, In x l -> In y l -> p x = true -> p y = true -> lt y x = false) -> filter p (sort_asc lt l) = filter p l.
Proof.
  induction l as [|x l IH]; intros H; [reflexivity|]. cbn [sort_asc filter]. rewrite insert_asc_filter.
  - rewrite IH by (intros a b Ha Hb; apply H; right; assumption). reflexivity.
  - intros y Hy. apply H; [left; reflexivity|right]. apply (Permutation_in _ (Permutation_sym (sort_asc_perm lt l)) Hy).
Qed.
Lemma sorted_nth {A} (R : A -> A -> Prop) l : StronglySorted R l -> forall i j x y, i < j -> nth_error l i = Some x -> nth_error l j = Some y -> R x y.
Proof.
  induction 1 as [|a l S IH F]; intros [|i] [|j] x y Hij Hx Hy; try lia; try discriminate; cbn in *.
  - injection Hx as ->. apply (proj1 (Forall_forall _ _) F). eapply nth_error_In, Hy.
  - apply (IH i j); [lia|exact Hx|exact Hy].
Qed.

Lemma before_spec rank dist a b : (exists d, dist (o_id a) = Some d) -> (exists d, dist (o_id b) = Some d) ->
  (before_key rank dist a b = true <-> crowded_before rank dist a b).
Proof.
  intros (d & Ea) (e & Eb). unfold before_key, crowded_before. rewrite Ea, Eb. destruct (Nat.eqb_spec (rank (o_id a)) (rank (o_id b))) as [H|H].
  - cbn [vneg option_map vlt]. rewrite ext_ltb_lt. split.
    + intros L. right. split; [exact H|]. exists d, e. split; [reflexivity|]. split; [reflexivity|].
      destruct d, e; cbn in *; try tauto. apply Qopp_lt_compat in L. rewrite !Qopp_involutive in L. exact L.
    + intros [L|(_ & d' & e' & [= <-] & [= <-] & L)]; [lia|]. destruct d, e; cbn in *; try tauto. apply Qopp_lt_compat. exact L.
  - rewrite Nat.ltb_lt. split; [left; assumption|]. intros [L|(L & _)]; [exact L|contradiction].
Qed.
Lemma crowded_irrefl rank dist a : ~ crowded_before rank dist a a.
Proof. intros [H|(_ & d & e & E1 & E2 & L)]; [lia|]. rewrite E1 in E2. injection E2 as <-. destruct d; cbn in L; try tauto. apply (Qlt_irrefl q L). Qed.
Lemma crowded_trans rank dist a b c : crowded_before rank dist a b -> crowded_before rank dist b c -> crowded_before rank dist a c.
Proof.
  intros [H|(H & d & e & E1 & E2 & L)] [K|(K & d' & e' & E3 & E4 & M)].
  - left; lia. - left; lia. - left; lia.
  - right. split; [lia|]. rewrite E2 in E3. injection E3 as <-. exists d, e'. split; [exact E1|]. split; [exact E4|].
    destruct d, e, e'; cbn in *; try tauto. eapply Qlt_trans; eassumption.
Qed.
Lemma crowded_total rank dist a b c : (forall x, In x [a; b; c] -> exists d, dist (o_id x) = Some d) ->
  crowded_before rank dist a c -> crowded_before rank dist a b \/ crowded_before rank dist b c.
Proof.
  intros T H. destruct (T a) as (da & Ea); [cbn; tauto|]. destruct (T b) as (db & Eb); [cbn; tauto|]. destruct (T c) as (dc & Ec); [cbn; tauto|].
  destruct (Nat.lt_trichotomy (rank (o_id a)) (rank (o_id b))) as [L|[L|L]].
  - left. left. exact L.
  - destruct H as [H|(H & d & e & E1 & E2 & M)]; [right; left; lia|]. rewrite Ea in E1. injection E1 as <-. rewrite Ec in E2. injection E2 as <-.
    assert (ext_lt db da \/ ext_lt dc db) as [K|K].
    { destruct da as [| |], db as [| |], dc as [| |]; cbn in *; try tauto. destruct (Qlt_le_dec q0 q) as [K|K]; [left; exact K|right]. eapply Qlt_le_trans; eassumption. }
    + left. right. split; [exact L|]. exists da, db. auto.
    + right. right. split; [lia|]. exists db, dc. auto.
  - right. left. destruct H as [H|(H & _)]; lia.
Qed.

Lemma sort_by_dominance_spec rank dist pop : (forall x, In x pop -> exists d, dist (o_id x) = Some d) ->
  sorted_stably (crowded_before rank dist) pop (sort_by_dominance rank dist pop).
Proof.
  intros T. unfold sort_by_dominance.
  assert (B : forall x y, In x pop -> In y pop -> (before_key rank dist x y = false <-> ~ crowded_before rank dist x y)).
  { intros x y Hx Hy. rewrite <- (before_spec rank dist x y (T x Hx) (T y Hy)). destruct (before_key rank dist x y); intuition congruence. }
  pose proof (sort_asc_perm (before_key rank dist) pop) as P.
  assert (S : StronglySorted (fun x y => before_key rank dist y x = false) (sort_asc (before_key rank dist) pop)).
  { apply (sort_asc_sorted _ (fun x => In x pop)); [| |apply Forall_forall; auto].
    - intros x y z Hx Hy Hz H1 H2. apply B in H1; auto. apply B in H2; auto. apply B; auto. intros H.
      destruct (crowded_total rank dist z y x) as [K|K]; [|exact H|exact (H2 K)|exact (H1 K)].
      intros w [<-|[<-|[<-|[]]]]; apply T; assumption.
    - intros x y Hx Hy H1. apply B; auto. apply (before_spec rank dist x y (T x Hx) (T y Hy)) in H1.
      intros H2. exact (crowded_irrefl rank dist x (crowded_trans _ _ _ _ _ H1 H2)). }
  split; [exact P|]. split.
  - intros i j x y Hij Hx Hy. apply B; [| |exact (sorted_nth _ _ S i j x y Hij Hx Hy)];
      eapply Permutation_in; try (apply Permutation_sym, P); eapply nth_error_In; eassumption.
  - intros p Hp. apply sort_asc_filter. intros x y Hx Hy Px Py. apply B; auto.
Qed.

(** ** the run *)
Lemma make_tasks_ids {G} (gs : list G) : forall n, map t_id (make_tasks n gs) = seq n (length gs).
Proof. induction gs as [|g gs IH]; intros n; [reflexivity|]. cbn. f_equal. apply IH. Qed.
Lemma remove_at_perm {A} : forall i (l : list A) x, nth_error l i = Some x -> Permutation l (x :: remove_at i l).
Proof.
  induction i as [|i IH]; intros [|y l] x H; try discriminate; cbn in *.
  - injection H as ->. reflexivity.
  - rewrite (IH l x H) at 1. apply perm_swap.
Qed.
Lemma full_finite mx f id r : full_fitness mx r -> r = Ok f -> finite_vectors mx [mk_mo id f].
Proof.
  intros (f' & -> & L & F) [= ->] x [<-|[]]. cbn [o_fit]. split; [exact L|]. intros k Hk. unfold finite_at, fit_at. cbn [o_fit].
  apply (proj1 (Forall_forall _ _) F). apply nth_In. lia.
Qed.

(** the inserted individual is in a changed layer *)
Lemma start_layer_has mx ind layers rank layers' rank' s e :
  enlu_inds_rank mx ind layers rank = Some (layers', rank', (s, e)) -> In ind (concat (firstn (e - s) (skipn s layers'))).
Proof.
  unfold enlu_inds_rank. destruct (find_start_ok mx ind layers) as (s0 & -> & Hs & _). rewrite Nat2Z.id.
  destruct (skipn s0 layers) as [|l rest] eqn:Es.
  - cbn [enlu_loop]. intros [= <- <- <- <-]. rewrite skipn_app, skipn_all2 by (rewrite firstn_length; lia).
    rewrite firstn_length, Nat.min_l by lia. rewrite Nat.sub_diag. cbn [skipn app].
    replace (Datatypes.S s0 - s0) with 1 by lia. left. reflexivity.
  - pose proof (enlu_loop_changed mx (l :: rest) s0 [ind] rank) as C.
    assert (H : exists l' r', In ind l' /\ fst (fst (enlu_loop mx s0 [ind] (l :: rest) rank)) = l' :: r' /\ s0 < snd (enlu_loop mx s0 [ind] (l :: rest) rank)).
    { cbn [enlu_loop]. destruct (split_dominated mx [ind] l) as [nd0 dom]. destruct nd0 as [|n0 nds].
      - exists [ind]. eexists. split; [left; reflexivity|]. split; [reflexivity|cbn; lia].
      - destruct (enlu_loop mx (Datatypes.S s0) _ rest _) as [[r2 rk2] e2] eqn:E2. eexists. eexists. split; [|split; [reflexivity|]].
        + apply in_or_app. left. apply in_or_app. right. left. reflexivity.
        + cbn [snd]. match type of E2 with enlu_loop mx ?d ?m ?r ?k = _ => pose proof (enlu_loop_changed mx r d m k) as C2 end.
          rewrite E2 in C2. destruct C2 as (ch & un & _ & -> & _). lia. }
    destruct H as (l' & r' & Hin & H1 & H2). destruct (enlu_loop mx s0 [ind] (l :: rest) rank) as [[rest' rk'] e']. cbn [fst snd] in *. subst rest'.
    intros [= <- <- <- <-]. rewrite skipn_app, skipn_all2 by (rewrite firstn_length; lia).
    rewrite firstn_length, Nat.min_l by lia. rewrite Nat.sub_diag. cbn [skipn app].
    destruct (e' - s0) as [|k] eqn:Ek; [lia|]. cbn [firstn concat]. apply in_or_app. left. exact Hin.
Qed.

Section Run.
Context {G : Type}.
Variables (mx : list bool) (max_births : Z) (pop_size : nat) (count_nonviable : bool) (choice : nat -> nat)
  (outcome : nat -> G -> result (list num)) (pipeline : nat -> attrs -> list mo -> list G) (a : attrs).
Let body := ns_body mx max_births pop_size count_nonviable choice outcome pipeline.
Let iter := ns_iter mx max_births pop_size count_nonviable choice outcome pipeline.
Let loop := ns_loop mx max_births pop_size count_nonviable choice outcome pipeline.

Definition inv (n : nat) (st : @nstate G) : Prop :=
  (exists ds, insert_all mx pop_size (ns_evaluated st) (mk_ins [] a) = Some (ds, ns_ins st)) /\
  ns_pop st = concat (ins_layers (ns_ins st)) /\
  NoDup (map o_id (ns_evaluated st) ++ map t_id (ns_pending st)) /\
  Forall (fun i => i < ns_next st) (map o_id (ns_evaluated st) ++ map t_id (ns_pending st)) /\
  finite_vectors mx (ns_evaluated st) /\ length (ns_evaluated st) = n.

Lemma inv_init genomes : inv 0 (ns_init a genomes).
Proof.
  split; [exists []; reflexivity|]. split; [reflexivity|]. cbn [ns_init ns_evaluated ns_pending map app ns_next]. rewrite make_tasks_ids.
  split; [apply seq_NoDup|]. split; [apply Forall_forall; intros i Hi; apply in_seq in Hi; lia|]. split; [intros x []|reflexivity].
Qed.

Lemma body_none i st : body i st = None <-> ns_pending st = [].
Proof.
  unfold body, ns_body. destruct (ns_pending st) as [|t ts] eqn:E.
  - split; [reflexivity|]. intros _. destruct (choice i mod length (@nil (task G))); reflexivity.
  - rewrite <- E. destruct (nth_error _ _) eqn:En; [split; [discriminate|congruence]|]. exfalso. apply nth_error_None in En.
    pose proof (Nat.mod_upper_bound (choice i) (length (ns_pending st))) as H. rewrite E in *. cbn [length] in *. specialize (H ltac:(discriminate)). lia.
Qed.

(** a completed evaluation *)
Lemma body_ok n st : inv n st -> ns_pending st <> [] -> (forall g, full_fitness mx (outcome n g)) ->
  exists t f ds dropped ins', In t (ns_pending st) /\ outcome n (t_genome t) = Ok f /\
    let x := mk_mo (t_id t) f in
    insert_all mx pop_size (ns_evaluated st) (mk_ins [] a) = Some (ds, ns_ins st) /\
    NoDup (map o_id (ns_evaluated st ++ [x])) /\ finite_vectors mx (ns_evaluated st ++ [x]) /\
    inserter_call mx pop_size x (ns_ins st) = Some (dropped, ins') /\
    exists st' children, body n st = Some (Ok st') /\ inv (S n) st' /\ ns_ins st' = ins' /\
      ns_evaluated st' = ns_evaluated st ++ [x] /\ ns_submitted st' = ns_submitted st ++ children /\
      Permutation (ns_pending st ++ children) (t :: ns_pending st') /\
      ((bc_curr (ns_births st) < max_births)%Z /\ length children = length (pipeline n (ins_attrs ins') (concat (ins_layers ins'))) /\
         ns_births st' = snd (bc_increment [] (Z.of_nat (length children)) (ns_births st)) \/
       (max_births <= bc_curr (ns_births st))%Z /\ children = [] /\ ns_births st' = ns_births st).
Proof.
  intros ((ds & Eds) & Ep & HN & HL & HF & Hn) Hne Ho.
  assert (Hb : nth_error (ns_pending st) (choice n mod length (ns_pending st)) <> None).
  { intros H. apply nth_error_None in H. pose proof (Nat.mod_upper_bound (choice n) (length (ns_pending st))) as M.
    destruct (ns_pending st); [congruence|]. cbn [length] in *. specialize (M ltac:(discriminate)). lia. }
  destruct (nth_error (ns_pending st) (choice n mod length (ns_pending st))) as [t|] eqn:Et; [|congruence].
  destruct (Ho (t_genome t)) as (f & Ef & Lf & Ff). set (x := mk_mo (t_id t) f).
  pose proof (remove_at_perm _ _ _ Et) as Pt. set (pending := remove_at (choice n mod length (ns_pending st)) (ns_pending st)) in *.
  assert (HN' : NoDup ((map o_id (ns_evaluated st) ++ [t_id t]) ++ map t_id pending)).
  { rewrite <- app_assoc. cbn [app]. eapply Permutation_NoDup; [|exact HN]. apply Permutation_app_head. rewrite (Permutation_map t_id Pt). reflexivity. }
  assert (HL' : Forall (fun i => i < ns_next st) ((map o_id (ns_evaluated st) ++ [t_id t]) ++ map t_id pending)).
  { rewrite <- app_assoc. cbn [app]. eapply Permutation_Forall; [|exact HL]. apply Permutation_app_head. rewrite (Permutation_map t_id Pt). reflexivity. }
  assert (NDx : NoDup (map o_id (ns_evaluated st ++ [x]))).
  { rewrite map_app. cbn [map o_id x]. apply NoDup_app_disjoint in HN'. apply HN'. }
  assert (FVx : finite_vectors mx (ns_evaluated st ++ [x])).
  { intros y Hy. apply in_app_or in Hy. destruct Hy as [Hy|Hy]; [apply HF, Hy|]. apply (full_finite mx f (t_id t) (Ok f)); [exists f; auto|reflexivity|exact Hy]. }
  destruct (next_insertion mx pop_size a (ns_evaluated st) x NDx FVx) as (ds' & st0 & dr & ins' & lay & rk & se & dist & E1 & E2 & E3 & _).
  unfold empty_inserter in E1. rewrite Eds in E1. injection E1 as <- <-.
  exists t, f, ds, dr, ins'. split; [eapply nth_error_In, Et|]. split; [exact Ef|]. cbv zeta. fold x. split; [exact Eds|]. split; [exact NDx|].
  split; [exact FVx|]. split; [exact E2|].
  assert (Ei : nsga_insert mx pop_size (fun id => (id =? t_id t) && false) x (ns_ins st) = Ok (dr, ins')).
  { unfold nsga_insert. rewrite E3. destruct se as [s e]. assert (existsb (fun y => (o_id y =? t_id t) && false) (concat (firstn (e - s) (skipn s lay))) = false) as ->.
    { apply not_true_is_false. intros H. apply existsb_exists in H as (y & _ & H). rewrite andb_false_r in H. discriminate. }
    rewrite E2. reflexivity. }
  assert (IA : insert_all mx pop_size (ns_evaluated st ++ [x]) (mk_ins [] a) = Some (ds ++ [dr], ins')).
  { rewrite insert_all_app, Eds. cbn [insert_all]. rewrite E2. reflexivity. }
  unfold body, ns_body. rewrite Et, Ef. fold pending x. cbn [negb andb]. rewrite Ei. cbn [bind snd].
  destruct (Z.ltb_spec (bc_curr (ns_births st)) max_births) as [B|B].
  - set (children := make_tasks (ns_next st) (pipeline n (ins_attrs ins') (concat (ins_layers ins')))).
    eexists. exists children. split; [reflexivity|]. split; [|split; [reflexivity|split; [reflexivity|split; [reflexivity|split]]]].
    + split; [exists (ds ++ [dr]); exact IA|]. split; [reflexivity|]. cbn [ns_evaluated ns_pending ns_next ns_ins].
      rewrite !map_app. cbn [map o_id x]. rewrite app_assoc. unfold children. rewrite make_tasks_ids, make_tasks_length.
      split; [|split; [|split; [exact FVx|rewrite app_length; cbn; lia]]].
      * set (ids := (map o_id (ns_evaluated st) ++ [t_id t]) ++ map t_id pending) in *. set (m := length (pipeline n (ins_attrs ins') (concat (ins_layers ins')))).
        clear -HN' HL'. induction ids as [|i ids IH]; cbn [app]; [apply seq_NoDup|]. inversion HN'; subst. apply Forall_cons_iff in HL' as [H HL'].
        constructor; [|apply IH; assumption]. intros K. apply in_app_or in K as [K|K]; [contradiction|]. apply in_seq in K. lia.
      * apply Forall_app. split; [eapply Forall_impl; [|exact HL']; cbn; lia|]. apply Forall_forall. intros i Hi. apply in_seq in Hi. lia.
    + cbn [ns_pending]. rewrite Pt at 1. reflexivity.
    + left. split; [exact B|]. split; [apply make_tasks_length|reflexivity].
  - eexists. exists []. split; [reflexivity|]. split; [|split; [reflexivity|split; [reflexivity|split; [cbn [ns_submitted]; rewrite app_nil_r; reflexivity|split]]]].
    + split; [exists (ds ++ [dr]); exact IA|]. split; [reflexivity|]. cbn [ns_evaluated ns_pending ns_next ns_ins]. rewrite map_app. cbn [map o_id x].
      split; [exact HN'|]. split; [exact HL'|]. split; [exact FVx|]. rewrite app_length. cbn. lia.
    + cbn [ns_pending]. rewrite app_nil_r. exact Pt.
    + right. auto.
Qed.

Lemma iter_S n : forall i st, iter (S n) i st = match iter n i st with Err e => Err e | Ok st' =>
   if (match ns_pending st' with [] => true | _ => false end) then Ok st' else match body (i + n) st' with None => Ok st' | Some r => r end end.
Proof.
  unfold iter. induction n as [|n IH]; intros i st.
  - cbn [ns_iter]. rewrite Nat.add_0_r. destruct (ns_pending st) eqn:E.
    + fold body. rewrite (proj2 (body_none i st) E). reflexivity.
    + fold body. destruct (body i st) as [[?|?]|]; reflexivity.
  - change (ns_iter mx max_births pop_size count_nonviable choice outcome pipeline (S (S n)) i st) with
      (match body i st with None => Ok st | Some (Err e) => Err e | Some (Ok st') => iter (S n) (S i) st' end).
    cbn [ns_iter]. fold body. destruct (body i st) as [[st'|e]|] eqn:E; [|reflexivity|].
    + unfold iter. rewrite IH. replace (S i + n) with (i + S n) by lia. reflexivity.
    + apply body_none in E. rewrite E. reflexivity.
Qed.

Lemma iter_ind (P : nat -> nstate -> Prop) genomes N : P 0 (ns_init a genomes) ->
  (forall n st, n < N -> P n st -> ns_pending st <> [] -> exists st', body n st = Some (Ok st') /\ P (S n) st') ->
  forall n, n <= N -> exists st k, iter n 0 (ns_init a genomes) = Ok st /\ P k st /\ k <= n /\ (k < n -> ns_pending st = []).
Proof.
  intros H0 HS. induction n as [|n IH]; intros Hn.
  - exists (ns_init a genomes), 0. split; [reflexivity|]. split; [exact H0|]. lia.
  - destruct IH as (st & k & E & I & Hk & Hd); [lia|]. rewrite iter_S, E. destruct (ns_pending st) eqn:Ep.
    + exists st, k. auto.
    + assert (k = n) as -> by (destruct (Nat.eq_dec k n); [assumption|]; specialize (Hd ltac:(lia)); discriminate).
      destruct (HS n st ltac:(lia) I ltac:(congruence)) as (st' & Eb & I'). cbn [Nat.add]. rewrite Eb.
      exists st', (S n). split; [reflexivity|]. split; [exact I'|]. lia.
Qed.

(** who was evaluated *)
Let fates := SteadyNsga.fates outcome.
Lemma iter_all genomes n : (forall i g, i < n -> full_fitness mx (outcome i g)) ->
  exists st k, iter n 0 (ns_init a genomes) = Ok st /\ (inv k st /\ fates genomes st) /\ k <= n /\ (k < n -> ns_pending st = []).
Proof.
  intros Ho. apply (iter_ind (fun k st => inv k st /\ fates genomes st) genomes n); [| |lia].
  - split; [apply inv_init|]. split; [cbn; rewrite app_nil_r; reflexivity|]. split; [intros t Ht; cbn; rewrite app_nil_r; exact Ht|].
    intros [|i] x H; discriminate.
  - intros k st Hk (I & F1 & F2 & F3) Hp.
    destruct (body_ok k st I Hp (fun g => Ho k g Hk)) as (t & f & ds & dr & ins' & Ht & Ef & _ & _ & _ & _ & st' & ch & Eb & I' & _ & Ee & Es & Pp & _).
    exists st'. split; [exact Eb|]. split; [exact I'|]. unfold fates, SteadyNsga.fates. rewrite Ee, Es.
    assert (Hin : forall u, In u (ns_pending st ++ ch) -> In u (make_tasks 0 genomes ++ ns_submitted st ++ ch)).
    { intros u Hu. rewrite app_assoc. apply in_app_or in Hu. apply in_or_app. destruct Hu as [Hu|Hu]; [left; apply F2, Hu|right; exact Hu]. }
    split; [|split].
    + rewrite app_assoc, map_app, F1, !map_app, <- !app_assoc. apply Permutation_app_head. cbn [map o_id app]. rewrite <- map_app.
      rewrite (Permutation_map t_id Pp). reflexivity.
    + intros u Hu. apply Hin. eapply Permutation_in; [apply Permutation_sym, Pp|]. right. exact Hu.
    + intros i x Hx. destruct (Nat.lt_ge_cases i (length (ns_evaluated st))) as [Hi|Hi].
      * rewrite nth_error_app1 in Hx by assumption. destruct (F3 i x Hx) as (u & Hu & K). exists u. split; [|exact K]. rewrite app_assoc. apply in_or_app. left. exact Hu.
      * rewrite nth_error_app2 in Hx by assumption. destruct I as (_ & _ & _ & _ & _ & Len). rewrite Len in *.
        destruct (i - k) as [|j] eqn:Ei; [|destruct j; discriminate]. cbn in Hx. injection Hx as <-. assert (i = k) as -> by lia.
        exists t. split; [apply Hin, in_or_app; left; exact Ht|]. split; [reflexivity|exact Ef].
Qed.

(** the population *)
Lemma population_of k st : inv k st ->
  exists dropped, survivors pop_size (ns_evaluated st) dropped (ns_pop st) /\
    NoDup (map o_id (ns_evaluated st)) /\ finite_vectors mx (ns_evaluated st) /\
    ns_pop st = concat (ins_layers (ns_ins st)) /\
    (forall l, In l (ins_layers (ns_ins st)) -> l <> []) /\
    (forall k l x, nth_error (ins_layers (ns_ins st)) k = Some l -> In x l -> at_rank (ins_attrs (ns_ins st)) (o_id x) = S k) /\
    (forall l, In l (ins_layers (ns_ins st)) -> crowding fval (length mx) l (fun x => at_dist (ins_attrs (ns_ins st)) (o_id x))) /\
    (length mx <= 2 -> front_numbers (fun v u => dominates mx (o_fit v) (o_fit u)) (ns_pop st) (fun u => at_rank (ins_attrs (ns_ins st)) (o_id u))).
Proof.
  intros ((ds & Eds) & Ep & HN & _ & HF & _). apply NoDup_app_disjoint in HN. destruct HN as (N1 & _ & _).
  destruct (capacity_history mx pop_size a (ns_evaluated st) N1 HF) as (ds' & st' & E & _ & P & L & H1 & H2 & H3).
  unfold empty_inserter in E. rewrite Eds in E. injection E as <- <-.
  exists (dropped_list ds). rewrite Ep. split; [split; assumption|]. repeat (split; [assumption||reflexivity|]).
  intros Hm. apply TL_fronts.
  - eapply (insert_all_TL mx pop_size Hm (ns_evaluated st) (empty_inserter a)); [apply empty_good| |exact HF|exact Logic.I|exact Eds].
    cbn. rewrite app_nil_r. exact N1.
  - intros k0 l x Hl Hx. cbn. exact (H2 k0 l x Hl Hx).
Qed.

Lemma population_run genomes n : (forall i g, i < n -> full_fitness mx (outcome i g)) ->
  exists st dropped, iter n 0 (ns_init a genomes) = Ok st /\
    (length (ns_evaluated st) <= n /\ (length (ns_evaluated st) < n -> ns_pending st = [])) /\
    fates genomes st /\
    survivors pop_size (ns_evaluated st) dropped (ns_pop st) /\
    NoDup (map o_id (ns_evaluated st)) /\
    ns_pop st = concat (ins_layers (ns_ins st)) /\
    (forall l, In l (ins_layers (ns_ins st)) -> l <> []) /\
    (forall k l x, nth_error (ins_layers (ns_ins st)) k = Some l -> In x l -> at_rank (ins_attrs (ns_ins st)) (o_id x) = S k) /\
    (forall l, In l (ins_layers (ns_ins st)) -> crowding fval (length mx) l (fun x => at_dist (ins_attrs (ns_ins st)) (o_id x))) /\
    (length mx <= 2 -> front_numbers (fun v u => dominates mx (o_fit v) (o_fit u)) (ns_pop st) (fun u => at_rank (ins_attrs (ns_ins st)) (o_id u))).
Proof.
  intros Ho. destruct (iter_all genomes n Ho) as (st & k & E & (I & F) & Hk & Hd).
  destruct (population_of k st I) as (dr & S1 & N1 & F1 & R). exists st, dr. split; [exact E|].
  destruct I as (_ & _ & _ & _ & _ & Len). rewrite Len. split; [auto|]. split; [exact F|]. split; [exact S1|]. split; [exact N1|]. exact R.
Qed.

(** one completion *)
Lemma completion genomes n : (forall i g, i <= n -> full_fitness mx (outcome i g)) ->
  exists st st', iter n 0 (ns_init a genomes) = Ok st /\ iter (S n) 0 (ns_init a genomes) = Ok st' /\
    (st' = st /\ ns_pending st = [] \/
     exists x, ns_evaluated st' = ns_evaluated st ++ [x] /\
       let pool := x :: ns_pop st in
       (length (ns_pop st) < pop_size /\ Permutation pool (ns_pop st') \/
        exists z, pop_size <= length (ns_pop st) /\ Permutation pool (z :: ns_pop st') /\
         (length mx <= 2 ->
          (exists rank worst dist, front_numbers (fun v u => dominates mx (o_fit v) (o_fit u)) pool rank /\
             (forall y, In y pool -> rank y <= rank z) /\ (forall y, In y worst <-> In y pool /\ rank y = rank z) /\
             crowding fval (length mx) worst dist /\
             forall y, In y worst -> exists e f, dist z = Some e /\ dist y = Some f /\ ~ ext_lt f e) /\
          ((forall y, In y pool -> ~ dominates mx (o_fit y) (o_fit z)) -> forall u v, In u pool -> In v pool -> ~ dominates mx (o_fit u) (o_fit v))))).
Proof.
  intros Ho. destruct (iter_all genomes n) as (st & k & E & (I & _) & Hk & Hd); [intros i g Hi; apply Ho; lia|].
  exists st. destruct (ns_pending st) eqn:Ep.
  - exists st. split; [exact E|]. split; [rewrite iter_S, E, Ep; reflexivity|]. left. auto.
  - assert (k = n) as -> by (destruct (Nat.eq_dec k n); [assumption|]; specialize (Hd ltac:(lia)); discriminate).
    destruct (body_ok n st I ltac:(congruence) (fun g => Ho n g ltac:(lia))) as (tt & f & ds & dr & ins' & _ & _ & Eds & NDx & FVx & Ei & st' & ch & Eb & I' & Ei' & Ee & _).
    exists st'. split; [exact E|]. split; [rewrite iter_S, E, Ep; cbn [Nat.add]; exact (f_equal (fun o => match o with None => Ok st | Some r => r end) Eb)|]. right.
    eexists. split; [exact Ee|]. set (x := mk_mo (t_id tt) f) in *. cbv zeta.
    pose proof I as (_ & Ep1 & _ & _ & _ & Len). pose proof I' as (_ & Ep2 & _). rewrite Ep1, Ep2, Ei'.
    assert (Lp : length (concat (ins_layers (ns_ins st))) = Nat.min pop_size (length (ns_evaluated st))).
    { destruct (population_of n st I) as (d0 & (_ & L0) & _). rewrite <- Ep1. exact L0. }
    destruct (next_insertion mx pop_size a (ns_evaluated st) x NDx FVx) as (ds1 & s1 & d1 & i1 & lay & rk & se & dist & E1 & E2 & _ & _ & _ & M).
    unfold empty_inserter in E1. rewrite Eds in E1. injection E1 as <- <-. rewrite Ei in E2. injection E2 as <- <-.
    destruct dr as [z|].
    + right. exists z. destruct M as (M1 & M2 & _). split; [lia|]. split; [exact M2|]. intros Hm.
      destruct (two_objectives mx pop_size a (ns_evaluated st) x Hm NDx FVx) as (ds2 & s2 & d2 & i2 & rank & dist2 & E1 & E2 & _ & T).
      unfold empty_inserter in E1. rewrite Eds in E1. injection E1 as <- <-. rewrite Ei in E2. injection E2 as <- <-. cbv zeta in T.
      destruct T as (FN & _ & Hw & worst & W1 & W2 & W3). split.
      * exists rank, worst, dist2. auto.
      * intros Hz u v Hu Hv D. assert (Hzp : In z (x :: concat (ins_layers (ns_ins st)))).
        { eapply Permutation_in; [apply Permutation_sym, M2|left; reflexivity]. }
        destruct (FN z Hzp) as (_ & _ & [Z1|(y & Hy & D' & _)]); [|exact (Hz y Hy D')].
        destruct (FN v Hv) as (_ & V2 & _). specialize (V2 u Hu D). destruct (FN u Hu) as (U1 & _). specialize (Hw v Hv). lia.
    + left. destruct M as (M1 & M2). split; [lia|exact M2].
Qed.

(** the budget *)
Section Budget.
Hypothesis one_child : forall i at_ pop, length (pipeline i at_ pop) = 1.
Hypothesis births_ok : (0 <= max_births)%Z.
Definition ledger (g k : nat) (st : @nstate G) : Prop :=
  bc_curr (ns_births st) = Z.min max_births (Z.of_nat k) /\ bc_ctx (ns_births st) = bc_curr (ns_births st) /\
  Z.of_nat (length (ns_submitted st)) = bc_curr (ns_births st) /\
  length (ns_pending st) + k = g + length (ns_submitted st).

Lemma budget_run genomes N : (forall i g, i < N -> full_fitness mx (outcome i g)) -> forall n, n <= N ->
  exists st k, iter n 0 (ns_init a genomes) = Ok st /\ (inv k st /\ ledger (length genomes) k st) /\ k <= n /\ (k < n -> ns_pending st = []).
Proof.
  intros Ho. apply (iter_ind (fun k st => inv k st /\ ledger (length genomes) k st) genomes N).
  - split; [apply inv_init|]. unfold ledger. cbn. rewrite make_tasks_length. lia.
  - intros k st Hk (I & L1 & L2 & L3 & L4) Hp.
    destruct (body_ok k st I Hp (fun g => Ho k g Hk)) as (t & f & ds & dr & ins' & _ & _ & _ & _ & _ & _ & st' & ch & Eb & I' & _ & _ & Es & Pp & B).
    exists st'. split; [exact Eb|]. split; [exact I'|]. unfold ledger. apply Permutation_length in Pp. cbn [length] in Pp. rewrite app_length in Pp.
    rewrite Es, app_length. destruct B as [(B1 & B2 & B3)|(B1 & B2 & B3)]; rewrite B3.
    + rewrite one_child in B2. rewrite B2 in *. cbn [snd bc_increment bc_curr bc_ctx]. lia.
    + subst ch. cbn [length] in *. lia.
Qed.

Lemma loop_iter : forall fuel i st st', loop fuel i st = Some (Ok st') -> iter fuel i st = Ok st' /\ ns_pending st' = [].
Proof.
  unfold loop, iter. induction fuel as [|fuel IH]; intros i st st' H; cbn [ns_loop] in H; fold body in H.
  - destruct (body i st) as [[|]|] eqn:E; try discriminate. injection H as <-. split; [reflexivity|]. apply (body_none i st), E.
  - cbn [ns_iter]. fold body. destruct (body i st) as [[st1|]|] eqn:E; try discriminate; [apply IH, H|].
    injection H as <-. split; [reflexivity|]. apply (body_none i st), E.
Qed.
Lemma iter_loop : forall n i st st', iter n i st = Ok st' -> ns_pending st' = [] -> loop n i st = Some (Ok st').
Proof.
  unfold loop, iter. induction n as [|n IH]; intros i st st' H Hp; cbn [ns_loop ns_iter] in *; fold body in H |- *.
  - injection H as ->. rewrite (proj2 (body_none i st') Hp). reflexivity.
  - destruct (body i st) as [[st1|]|]; [apply IH; assumption|discriminate|congruence].
Qed.

Lemma exact_budget genomes : genomes <> [] -> (forall i g, full_fitness mx (outcome i g)) ->
  (exists st, loop (length genomes + Z.to_nat max_births) 0 (ns_init a genomes) = Some (Ok st)) /\
  forall fuel st, loop fuel 0 (ns_init a genomes) = Some (Ok st) ->
    bc_curr (ns_births st) = max_births /\ bc_ctx (ns_births st) = max_births /\
    Z.of_nat (length (ns_submitted st)) = max_births /\
    length (ns_evaluated st) = length genomes + length (ns_submitted st).
Proof.
  intros Hg Ho. split.
  - set (N := length genomes + Z.to_nat max_births).
    destruct (budget_run genomes N (fun i g _ => Ho i g) N (Nat.le_refl _)) as (st & k & E & (I & L1 & L2 & L3 & L4) & Hk & Hd).
    exists st. apply iter_loop; [exact E|]. destruct (Nat.lt_ge_cases k N) as [H|H]; [apply Hd, H|].
    assert (length (ns_pending st) = 0) as HL by (subst N; lia). destruct (ns_pending st); [reflexivity|discriminate].
  - intros fuel st H. apply loop_iter in H as (E & Hp).
    destruct (budget_run genomes fuel (fun i g _ => Ho i g) fuel (Nat.le_refl _)) as (st' & k & E' & (I & L1 & L2 & L3 & L4) & _).
    rewrite E in E'. injection E' as <-. rewrite Hp in L4. cbn [length] in L4. destruct I as (_ & _ & _ & _ & _ & Len). rewrite Len.
    assert (0 < length genomes) by (destruct genomes; [congruence|cbn; lia]). lia.
Qed.
End Budget.

(** a failing evaluation *)
Lemma failing_aborts genomes n st t e :
  iter n 0 (ns_init a genomes) = Ok st -> nth_error (ns_pending st) (choice n mod length (ns_pending st)) = Some t ->
  outcome n (t_genome t) = Err e ->
  (forall m, n < m -> iter m 0 (ns_init a genomes) = Err TypeError) /\
  (forall fuel, n <= fuel -> loop fuel 0 (ns_init a genomes) = Some (Err TypeError)).
Proof.
  intros E Et Ee.
  assert (Hp : ns_pending st <> []) by (intros Hp; rewrite Hp in Et; destruct (choice n mod length (@nil (task G))); discriminate).
  assert (B : body n st = Some (Err TypeError)).
  { destruct (body n st) as [r|] eqn:Eb; [|apply body_none in Eb; contradiction]. unfold body, ns_body in Eb.
    rewrite Et, Ee in Eb. cbn [negb andb] in Eb.
    destruct (enlu_inds_rank mx (mk_mo (t_id t) (scalar_nan mx)) (ins_layers (ns_ins st)) (at_rank (ins_attrs (ns_ins st)))) as [[[lay rk] [s e']]|] eqn:En.
    - pose proof (start_layer_has _ _ _ _ _ _ _ _ En) as Hin. unfold nsga_insert in Eb. rewrite En in Eb.
      replace (existsb _ _) with true in Eb; [injection Eb as <-; reflexivity|]. symmetry. apply existsb_exists.
      exists (mk_mo (t_id t) (scalar_nan mx)). split; [exact Hin|]. cbn [o_id]. rewrite Nat.eqb_refl. reflexivity.
    - exfalso. unfold enlu_inds_rank in En. destruct (find_start_ok mx (mk_mo (t_id t) (scalar_nan mx)) (ins_layers (ns_ins st))) as (s0 & Es & _).
      rewrite Es in En. destruct (enlu_loop _ _ _ _ _) as [[? ?] ?]. discriminate. }
  assert (B1 : iter (S n) 0 (ns_init a genomes) = Err TypeError).
  { rewrite iter_S, E. destruct (ns_pending st); [congruence|]. cbn [Nat.add]. exact (f_equal (fun o => match o with None => Ok st | Some r => r end) B). }
  split.
  - intros m Hm. replace m with (S n + (m - S n)) by lia. generalize (m - S n). intros d. induction d as [|d IH]; [rewrite Nat.add_0_r; exact B1|].
    rewrite Nat.add_succ_r, iter_S, IH. reflexivity.
  - intros fuel Hfu. clear B1. unfold loop. revert Hfu.
    assert (Gen : forall n i st0 fuel, n <= fuel -> iter n i st0 = Ok st -> ns_pending st <> [] -> body (i + n) st = Some (Err TypeError) ->
      ns_loop mx max_births pop_size count_nonviable choice outcome pipeline fuel i st0 = Some (Err TypeError)).
    { clear. intros n. induction n as [|n IH]; intros i st0 fuel Hfu E Hp B.
      - unfold iter in E. cbn in E. injection E as ->. rewrite Nat.add_0_r in B. destruct fuel; cbn [ns_loop]; fold body; rewrite B; reflexivity.
      - destruct fuel as [|fuel]; [lia|]. unfold iter in E. cbn [ns_iter] in E. cbn [ns_loop]. fold body in E |- *.
        destruct (body i st0) as [[st1|]|] eqn:E0; [|discriminate|].
        + apply (IH (S i)); [lia|exact E|exact Hp|]. replace (S i + n) with (i + S n) by lia. exact B.
        + injection E as ->. apply body_none in E0. contradiction. }
    intros Hfu. apply (Gen n 0 _ fuel Hfu E Hp). exact B.
Qed.
End Run.

Lemma failures_abort :
  exists (outcome : nat -> nat -> result (list num)) (genomes : list nat) fuel,
    (forall i g, i <> 3 -> full_fitness [true; true] (outcome i g)) /\ (forall g, exists e, outcome 3 g = Err e) /\
    forall count_nonviable,
    ns_loop [true; true] 2 3 count_nonviable (fun i => i) outcome ex_offspring fuel 0 (ns_init (mk_attrs (fun _ => 0) (fun _ => None)) genomes)
    = Some (Err TypeError).
Proof.
  exists (fun i g => if i =? 3 then Err ValueError else ex_fitness g), [1; 2; 4], 9. split; [|split].
  - intros i g Hi. apply Nat.eqb_neq in Hi. rewrite Hi. eexists. split; [reflexivity|]. split; [reflexivity|].
    constructor; [eexists; reflexivity|constructor; [eexists; reflexivity|constructor]].
  - intros g. exists ValueError. reflexivity.
  - intros [|]; vm_compute; reflexivity.
Qed.
