(** Distributed evaluation. *)
From Coq Require Import Lia Permutation.
From Verif Require Import Model.Base Model.PyList Model.Scalar Model.Selection Model.Counters Model.Distrib
  Spec.Order Spec.Distrib Proofs.Order Proofs.PyList Proofs.ScalarSel.

Section Sync.
Variable G : Type.
Variable outcome : G -> result num.

Lemma store_cons tasks finish : forall m0 k, k < length tasks -> (In k finish \/ m0 k = nth_error (map (robust_evaluate outcome) tasks) k) ->
  fold_left (fun m k => match nth_error tasks k with
                        | Some t => fun j => if j =? k then Some (robust_evaluate outcome t) else m j
                        | None => m
                        end) finish m0 k = nth_error (map (robust_evaluate outcome) tasks) k.
Proof.
  induction finish as [|a finish IH]; intros m0 k Hk H; simpl.
  - destruct H as [[]|H]. exact H.
  - apply IH; [exact Hk|]. destruct H as [[->|H]|H]; [right|left; exact H|right].
    + rewrite nth_error_map. destruct (nth_error tasks k) as [t|] eqn:E; [rewrite Nat.eqb_refl; reflexivity|].
      apply nth_error_None in E. lia.
    + destruct (nth_error tasks a) as [t|] eqn:E; [|exact H]. destruct (Nat.eqb_spec k a) as [->|]; [|exact H].
      rewrite nth_error_map, E. reflexivity.
Qed.

Lemma gather_all (m : nat -> option (dind G)) l : forall k,
  (forall j, j < length l -> m (k + j) = nth_error l j) -> gather m k (length l) = Some l.
Proof.
  induction l as [|x l IH]; intros k H; [reflexivity|]. simpl.
  pose proof (H 0 ltac:(simpl; lia)) as H0. rewrite Nat.add_0_r in H0. rewrite H0. simpl.
  rewrite IH; [reflexivity|]. intros j Hj. replace (S k + j) with (k + S j) by lia. apply (H (S j)). simpl. lia.
Qed.

Lemma eval_population_map tasks finish : (forall k, k < length tasks -> In k finish) ->
  eval_population outcome tasks finish = Some (map (robust_evaluate outcome) tasks).
Proof.
  intros H. unfold eval_population. rewrite <- (map_length (robust_evaluate outcome) tasks).
  apply gather_all. intros j Hj. rewrite map_length in Hj. simpl. apply store_cons; [exact Hj|]. left. apply H, Hj.
Qed.

Lemma robust_evaluated_as t : evaluated_as outcome t (robust_evaluate outcome t).
Proof. unfold evaluated_as, robust_evaluate. destruct (outcome (t_genome t)); simpl; auto. Qed.

Lemma map_evaluated_as tasks : Forall2 (evaluated_as outcome) tasks (map (robust_evaluate outcome) tasks).
Proof. induction tasks as [|t tasks IH]; simpl; constructor; [apply robust_evaluated_as|exact IH]. Qed.

Lemma sync_population tasks finish : (forall k, k < length tasks -> In k finish) ->
  exists out, eval_population outcome tasks finish = Some out /\ Forall2 (evaluated_as outcome) tasks out.
Proof. intros H. rewrite (eval_population_map tasks finish H). eauto using map_evaluated_as. Qed.

Lemma sync_pool stream size finish : (forall k, k < size -> In k finish) ->
  (size <= length stream -> exists out, eval_pool outcome stream size finish = Ok (Some out) /\ length out = size /\
     Forall2 (evaluated_as outcome) (firstn size stream) out) /\
  (length stream < size -> eval_pool outcome stream size finish = Err StopIteration).
Proof.
  intros H. unfold eval_pool. split; intros Hs.
  - destruct (Nat.ltb_spec (length stream) size); [lia|]. rewrite eval_population_map.
    + eexists. split; [reflexivity|]. split; [rewrite map_length, firstn_length; lia|apply map_evaluated_as].
    + intros k Hk. apply H. rewrite firstn_length in Hk. lia.
  - destruct (Nat.ltb_spec (length stream) size); [reflexivity|lia].
Qed.
End Sync.

(** ** the counter *)
Lemma counter_sequential_gen : forall ws s, fst (fold_left counter_step (sequential ws) s) = (fst s + Z.of_nat (length ws))%Z.
Proof.
  unfold sequential. induction ws as [|w ws IH]; intros [c m]; [simpl; lia|].
  cbn [map concat app fold_left]. rewrite IH. cbn [counter_step fst snd length]. rewrite Nat.eqb_refl. lia.
Qed.
Lemma counter_sequential start ws : counter_run start (sequential ws) = (start + Z.of_nat (length ws))%Z.
Proof. unfold counter_run. apply counter_sequential_gen. Qed.

Lemma counter_bound start l : reads_first l ->
  (start <= counter_run start l <= start + Z.of_nat (writes l))%Z /\ (0 < writes l -> (start < counter_run start l)%Z).
Proof.
  unfold counter_run. intros H.
  assert (Inv : let s := fold_left counter_step l (start, fun _ => 0%Z) in
    (start <= fst s <= start + Z.of_nat (writes l))%Z /\ (0 < writes l -> (start < fst s)%Z) /\
    forall w, In (ReadCounter w) l -> (start <= snd s w <= start + Z.of_nat (writes l))%Z).
  { induction l as [|a l IH] using rev_ind; simpl.
    - unfold writes. simpl. split; [lia|]. split; [lia|intros w []].
    - assert (H' : reads_first l).
      { intros l1 w l2 E. apply (H l1 w (l2 ++ [a])). rewrite E, <- app_assoc. reflexivity. }
      specialize (IH H'). cbv zeta in *. rewrite fold_left_app. simpl.
      set (s := fold_left counter_step l (start, fun _ => 0%Z)) in *. destruct s as [c m]. simpl in IH.
      destruct IH as (I1 & I2 & I3). unfold writes in *. rewrite filter_app, app_length. destruct a as [v|v]; simpl.
      + rewrite Nat.add_0_r. split; [exact I1|]. split; [exact I2|]. intros w Hw. destruct (Nat.eqb_spec w v); [exact I1|].
        apply in_app_or in Hw. destruct Hw as [Hw|[Hw|[]]]; [apply I3, Hw|congruence].
      + assert (Hv : In (ReadCounter v) l) by (apply (H l v []); reflexivity). specialize (I3 v Hv) as Hm.
        split; [lia|]. split; [lia|]. intros w Hw. apply in_app_or in Hw. destruct Hw as [Hw|[Hw|[]]]; [|discriminate].
        specialize (I3 w Hw). lia. }
  destruct Inv as (I1 & I2 & _). auto.
Qed.

(** ** insertion *)
Section Insert.
Variable G : Type.
Variable mx : bool.
Variable coin : sind -> sind -> bool.
Notation dind := (dind G).

Lemma set_nth_split {A} i (x : A) l old : nth_error l i = Some old ->
  exists l1 l2, l = l1 ++ old :: l2 /\ set_nth i x l = l1 ++ x :: l2.
Proof.
  revert l. induction i as [|i IH]; intros [|a l] H; try discriminate; simpl in *.
  - injection H as ->. exists [], l. auto.
  - destruct (IH l H) as (l1 & l2 & E1 & E2). exists (a :: l1), l2. simpl. rewrite <- E1, E2. auto.
Qed.

Lemma replace_if_arrival pop_size (pop : list dind) x i old : pop_size <= length pop -> nth_error pop i = Some old ->
  exists pop', replace_if mx coin x pop i = Ok pop' /\ arrival mx pop_size pop x pop' /\
    (pop' = pop \/ exists l1 l2, pop = l1 ++ old :: l2 /\ pop' = l1 ++ x :: l2).
Proof.
  intros Hs Hn. unfold replace_if. rewrite Hn. destruct (set_nth_split i x pop old Hn) as (l1 & l2 & E1 & E2).
  destruct (d_viable old) eqn:Ev; simpl.
  - destruct (ind_gt mx coin (d_ind x) (d_ind old)) eqn:Eg.
    + exists (set_nth i x pop). split; [reflexivity|]. split; [|right; eauto]. right. split; [exact Hs|]. right. exists l1, old, l2.
      split; [exact E1|]. split; [exact E2|]. right. apply ind_gt_true in Eg. exact Eg.
    + exists pop. split; [reflexivity|]. split; [|auto]. right. auto.
  - exists (set_nth i x pop). split; [reflexivity|]. split; [|right; eauto]. right. split; [exact Hs|]. right. exists l1, old, l2. auto.
Qed.

Lemma tournament_arrival r x (pop : list dind) pop_size : 0 < pop_size ->
  exists pop', tournament_insert mx coin r x pop pop_size = Ok pop' /\ arrival mx pop_size pop x pop'.
Proof.
  intros Hp. unfold tournament_insert. destruct (Nat.ltb_spec (length pop) pop_size) as [H|H].
  - exists (pop ++ [x]). split; [reflexivity|]. left. auto.
  - destruct pop as [|a pop]; [simpl in H; lia|].
    destruct (nth_error (a :: pop) (r mod length (a :: pop))) as [old|] eqn:E.
    + destruct (replace_if_arrival pop_size (a :: pop) x _ old H E) as (pop' & E1 & E2 & _). eauto.
    + apply nth_error_None in E. pose proof (Nat.mod_upper_bound r (length (a :: pop)) ltac:(discriminate)). lia.
Qed.

Lemma combine_seq_nth {A} k (r' : list A) : forall p, In p (combine (seq k (length r')) r') -> k <= fst p /\ nth_error r' (fst p - k) = Some (snd p).
Proof.
  revert k. induction r' as [|x r' IH]; intros k p Hp; simpl in Hp; [destruct Hp|].
  destruct Hp as [<-|Hp]; [simpl; rewrite Nat.sub_diag; split; [lia|reflexivity]|].
  destruct (IH (S k) p Hp) as [H1 H2]. split; [lia|]. replace (fst p - k) with (S (fst p - S k)) by lia. exact H2.
Qed.

Lemma worst_index_ok (pop : list dind) : pop <> [] ->
  exists i old, worst_index mx coin pop = Some i /\ nth_error pop i = Some old /\
    forall y, In y pop -> ~ better mx (si_fit (d_ind old)) (si_fit (d_ind y)).
Proof.
  intros Hne. destruct pop as [|a r]; [congruence|]. unfold worst_index.
  set (lt := fun a0 b : nat * dind => ind_lt mx coin (d_ind (snd a0)) (d_ind (snd b))).
  set (p := pymin_from lt (0, a) (combine (seq 1 (length r)) r)).
  assert (Hp : nth_error (a :: r) (fst p) = Some (snd p)).
  { pose proof (pymin_from_in lt (combine (seq 1 (length r)) r) (0, a)) as Hi. fold p in Hi. destruct Hi as [<-|Hi]; [reflexivity|].
    apply combine_seq_nth in Hi. destruct Hi as [H1 H2]. destruct (fst p) as [|n]; [lia|]. simpl. replace n with (S n - 1) by lia. exact H2. }
  exists (fst p), (snd p). split; [reflexivity|]. split; [exact Hp|].
  set (f := fun q : nat * dind => d_ind (snd q)).
  assert (E : f p = pymin_from (ind_lt mx coin) (d_ind a) (map d_ind r)).
  { unfold p. pose proof (pymin_from_map f (ind_lt mx coin) (combine (seq 1 (length r)) r) (0, a)) as M.
    change (fun i j : nat * dind => ind_lt mx coin (f i) (f j)) with lt in M. rewrite M. f_equal. unfold f.
    clear. generalize 1. induction r as [|x r IH]; intros k; simpl; [reflexivity|]. f_equal. apply IH. }
  assert (Gm := pymin_from_le (nbi mx) (fun _ => True) (ind_lt mx coin)
      (nbi_trans mx) (nbi_total mx) (fun x y _ _ => ind_lt_true mx coin x y)
      (fun x y _ _ => ind_lt_false mx coin x y) (map d_ind r) (d_ind a) I).
  destruct Gm as [G1 G2]; [apply Forall_forall; auto|]. rewrite Forall_forall in G2. rewrite <- E in G1, G2.
  intros y [<-|Hy]; [exact G1|]. exact (G2 _ (in_map d_ind _ _ Hy)).
Qed.

Lemma greedy_arrival x (pop : list dind) pop_size : 0 < pop_size ->
  exists pop', greedy_insert mx coin x pop pop_size = Ok pop' /\ arrival mx pop_size pop x pop' /\
    (pop_size <= length pop -> pop' = pop \/ exists l1 old l2, pop = l1 ++ old :: l2 /\ pop' = l1 ++ x :: l2 /\
       forall y, In y pop -> ~ better mx (si_fit (d_ind old)) (si_fit (d_ind y))).
Proof.
  intros Hp. unfold greedy_insert. destruct (Nat.ltb_spec (length pop) pop_size) as [H|H].
  - exists (pop ++ [x]). split; [reflexivity|]. split; [left; auto|lia].
  - destruct (worst_index_ok pop) as (i & old & E & En & Hw). { intros ->. simpl in H. lia. }
    rewrite E. destruct (replace_if_arrival pop_size pop x i old H En) as (pop' & E1 & E2 & E3). exists pop'.
    split; [exact E1|]. split; [exact E2|]. intros _. destruct E3 as [E3|(l1 & l2 & E3 & E4)]; [left; exact E3|right]. exists l1, old, l2. auto.
Qed.

Lemma arrival_length pop_size (pop : list dind) x pop' : arrival mx pop_size pop x pop' -> length pop <= pop_size ->
  length pop' = Nat.min pop_size (S (length pop)).
Proof.
  intros [(H & ->)|(H & [->|(l1 & old & l2 & -> & -> & _)])] Hl; rewrite ?app_length in *; simpl in *; lia.
Qed.
Lemma arrival_in pop_size (pop : list dind) x pop' y : arrival mx pop_size pop x pop' -> In y pop' -> y = x \/ In y pop.
Proof.
  intros [(H & ->)|(H & [->|(l1 & old & l2 & -> & -> & _)])] Hy; rewrite ?in_app_iff in *; simpl in *; intuition auto.
Qed.
Lemma arrival_no_worse pop_size (pop : list dind) x pop' : arrival mx pop_size pop x pop' ->
  (forall y, In y pop -> d_viable y = false -> ~ viable (si_fit (d_ind y))) -> no_worse mx pop pop'.
Proof.
  intros H Hn y Hy Hv. destruct H as [(H & ->)|(H & [->|(l1 & old & l2 & -> & -> & Hold)])].
  - exists y. split; [apply in_or_app; auto|apply better_irrefl].
  - exists y. split; [exact Hy|apply better_irrefl].
  - pose proof Hy as Hy0. rewrite in_app_iff in Hy. simpl in Hy.
    assert (Keep : In y l1 \/ In y l2 -> exists z, In z (l1 ++ x :: l2) /\ ~ better mx (si_fit (d_ind y)) (si_fit (d_ind z))).
    { intros Hk. exists y. split; [rewrite in_app_iff; simpl; tauto|apply better_irrefl]. }
    destruct Hy as [Hy|[->|Hy]]; [auto| |auto].
    destruct Hold as [Ho|[Ho|[_ Ho]]].
    + destruct (Hn y Hy0 Ho Hv).
    + exists x. split; [apply in_or_app; right; left; reflexivity|]. apply better_asym, Ho.
    + contradiction.
Qed.
Lemma no_worse_refl (pop : list dind) : no_worse mx pop pop.
Proof. intros y Hy _. exists y. split; [exact Hy|apply better_irrefl]. Qed.
Lemma no_worse_trans (p1 p2 p3 : list dind) : no_worse mx p1 p2 -> no_worse mx p2 p3 -> no_worse mx p1 p3.
Proof.
  intros H1 H2 y Hy Hv. destruct (H1 y Hy Hv) as (z & Hz & Hb).
  assert (Hvz : viable (si_fit (d_ind z))).
  { destruct (num_val (si_fit (d_ind z))) eqn:E; [unfold viable; congruence|]. exfalso. apply Hb. unfold better. rewrite E.
    unfold viable in Hv. destruct (num_val (si_fit (d_ind y))); [exact I|congruence]. }
  destruct (H2 z Hz Hvz) as (w & Hw & Hb'). exists w. split; [exact Hw|].
  intros Hb''. apply (better_split _ _ (si_fit (d_ind z))) in Hb''. tauto.
Qed.
End Insert.

(** ** the steady state loop *)
Section Steady.
Variable G : Type.
Variable max_births : Z.
Variable pop_size : nat.
Variable count_nonviable : bool.
Variable choice : nat -> nat.
Variable outcome : nat -> G -> result num.
Variable inserter : nat -> dind G -> list (dind G) -> nat -> result (list (dind G)).
Variable pipeline : nat -> list (dind G) -> list G.

Notation body := (ss_body max_births pop_size count_nonviable choice outcome inserter pipeline).
Notation iter := (ss_iter max_births pop_size count_nonviable choice outcome inserter pipeline).
Notation loop := (ss_loop max_births pop_size count_nonviable choice outcome inserter pipeline).

Lemma make_tasks_length (gs : list G) : forall n, length (make_tasks n gs) = length gs.
Proof. induction gs; intros n; simpl; auto. Qed.
Lemma remove_at_length {A} i : forall l : list A, i < length l -> S (length (remove_at i l)) = length l.
Proof. induction i as [|i IH]; intros [|a l] H; simpl in *; try lia. rewrite IH; lia. Qed.

(** what a step looks like *)
Lemma body_cases i st : (forall x pop, exists pop', inserter i x pop pop_size = Ok pop') ->
  (as_pending st = [] /\ body i st = None) \/
  exists t x pop' b, In t (as_pending st) /\ x = robust_evaluate (outcome i) t /\
    inserter i x (as_pop st) pop_size = Ok pop' /\
    b = (if negb (d_viable x) && negb count_nonviable then snd (bc_decrement (as_births st)) else as_births st) /\
    exists st', body i st = Some (Ok st') /\
      as_pop st' = pop' /\ as_evaluated st' = as_evaluated st ++ [x] /\
      exists children,
        as_submitted st' = as_submitted st ++ children /\
        S (length (as_pending st')) = length (as_pending st) + length children /\
        ((bc_curr b < max_births)%Z /\ length children = length (pipeline i pop') /\
           as_births st' = snd (bc_increment [] (Z.of_nat (length children)) b) \/
         (max_births <= bc_curr b)%Z /\ children = [] /\ as_births st' = b).
Proof.
  intros Hi. unfold ss_body. destruct (as_pending st) as [|t0 ts] eqn:Ep.
  - left. split; [reflexivity|]. destruct (choice i mod length (@nil (task G))); reflexivity.
  - right. rewrite <- Ep in *. assert (Hlt : choice i mod length (as_pending st) < length (as_pending st)).
    { apply Nat.mod_upper_bound. rewrite Ep. discriminate. }
    destruct (nth_error (as_pending st) (choice i mod length (as_pending st))) as [t|] eqn:En; [|apply nth_error_None in En; lia].
    set (x := robust_evaluate (outcome i) t). destruct (Hi x (as_pop st)) as (pop' & Ei).
    set (b := if negb (d_viable x) && negb count_nonviable then snd (bc_decrement (as_births st)) else as_births st).
    exists t, x, pop', b. split; [eapply nth_error_In, En|]. split; [reflexivity|]. split; [exact Ei|]. split; [reflexivity|].
    rewrite Ei. cbn [bind]. pose proof (remove_at_length _ _ Hlt) as Hr.
    destruct (Z.ltb_spec (bc_curr b) max_births) as [Hb|Hb]; eexists; (split; [reflexivity|]; split; [reflexivity|]; split; [reflexivity|]).
    + exists (make_tasks (as_next st) (pipeline i pop')). cbn [as_submitted as_pending as_births]. split; [reflexivity|].
      split; [rewrite app_length; lia|]. left. split; [exact Hb|]. rewrite make_tasks_length. auto.
    + exists []. cbn [as_submitted as_pending as_births]. rewrite app_nil_r. split; [reflexivity|]. split; [simpl; lia|]. right. auto.
Qed.

Lemma iter_snoc : forall n i st st', iter n i st = Ok st' ->
  iter (S n) i st = match body (i + n) st' with None => Ok st' | Some r => r end \/ as_pending st' = [] /\ iter (S n) i st = Ok st'.
Proof.
  induction n as [|n IH]; intros i st st' H.
  - injection H as <-. left. rewrite Nat.add_0_r. cbn [ss_iter]. destruct (body i st) as [[st'|]|]; reflexivity.
  - cbn [ss_iter] in H. destruct (body i st) as [[st1|e]|] eqn:E.
    + destruct (IH (S i) st1 st' H) as [H'|(H' & H'')].
      * left. replace (i + S n) with (S i + n) by lia. rewrite <- H'. change (iter (S (S n)) i st) with
          (match body i st with None => Ok st | Some (Err e) => Err e | Some (Ok st') => iter (S n) (S i) st' end). rewrite E. reflexivity.
      * right. split; [exact H'|]. change (iter (S (S n)) i st) with
          (match body i st with None => Ok st | Some (Err e) => Err e | Some (Ok st') => iter (S n) (S i) st' end). rewrite E. exact H''.
    + discriminate.
    + injection H as <-. right. split.
      * unfold ss_body in E. destruct (as_pending st) as [|t ts] eqn:Ep; [reflexivity|]. exfalso. rewrite <- Ep in E.
        destruct (nth_error (as_pending st) (choice i mod length (as_pending st))) as [t'|] eqn:En; [discriminate|].
        apply nth_error_None in En. pose proof (Nat.mod_upper_bound (choice i) (length (as_pending st))). rewrite Ep in *. simpl length in *.
        specialize (H ltac:(discriminate)). lia.
      * change (iter (S (S n)) i st) with
          (match body i st with None => Ok st | Some (Err e) => Err e | Some (Ok st') => iter (S n) (S i) st' end). rewrite E. reflexivity.
Qed.

Hypothesis ins_total : forall i x pop, exists pop', inserter i x pop pop_size = Ok pop'.

Lemma body_none st i : body i st = None -> as_pending st = [].
Proof.
  intros H. destruct (body_cases i st (ins_total i)) as [[H' _]|(t & x & pop' & b & _ & _ & _ & _ & st' & E & _)]; [exact H'|congruence].
Qed.

(** the state after n completions, for invariants *)
Lemma iter_ind (P : nat -> astate G -> Prop) st0 : P 0 st0 ->
  (forall n st st', P n st -> body n st = Some (Ok st') -> P (S n) st') ->
  forall n, exists st k, iter n 0 st0 = Ok st /\ k <= n /\ P k st /\ (k < n -> as_pending st = []).
Proof.
  intros H0 Hs. induction n as [|n IH].
  - exists st0, 0. split; [reflexivity|]. split; [lia|]. split; [exact H0|lia].
  - destruct IH as (st & k & E & Hk & HP & Hd).
    destruct (iter_snoc n 0 st0 st E) as [E'|(Hp & E')].
    + simpl in E'. destruct (body_cases n st (ins_total n)) as [[Hp Hb]|(t & x & pop' & b & _ & _ & _ & _ & st' & Eb & _)].
      * rewrite Hb in E'. exists st, k. split; [exact E'|]. split; [lia|]. split; [exact HP|auto].
      * rewrite Eb in E'. exists st', (S n). split; [exact E'|]. split; [lia|]. split; [|lia].
        assert (k = n).
        { destruct (Nat.eq_dec k n) as [->|]; [reflexivity|]. specialize (Hd ltac:(lia)).
          unfold ss_body in Eb. rewrite Hd in Eb. destruct (choice n mod length (@nil (task G))); discriminate. }
        subst k. exact (Hs n st st' HP Eb).
    + exists st, k. split; [exact E'|]. split; [lia|]. split; [exact HP|auto].
Qed.

Definition charged (l : list (dind G)) : Z := if count_nonviable then 0%Z else Z.of_nat (failures l).

Lemma failures_app (l1 l2 : list (dind G)) : failures (l1 ++ l2) = failures l1 + failures l2.
Proof. unfold failures. rewrite filter_app, app_length. reflexivity. Qed.

Definition ledger (init : nat) (n : nat) (st : astate G) : Prop :=
  length (as_evaluated st) = n /\
  bc_curr (as_births st) = Z.min max_births (Z.of_nat n - charged (as_evaluated st)) /\
  bc_ctx (as_births st) = bc_curr (as_births st) /\
  Z.of_nat (length (as_submitted st)) = (bc_curr (as_births st) + charged (as_evaluated st))%Z /\
  Z.of_nat (length (as_pending st)) = (Z.of_nat init + Z.of_nat (length (as_submitted st)) - Z.of_nat n)%Z.

Section One.
Hypothesis one_child : forall i pop, length (pipeline i pop) = 1.

Lemma ledger_step init n st st' : ledger init n st -> body n st = Some (Ok st') -> ledger init (S n) st'.
Proof.
  intros (L1 & L2 & L3 & L4 & L5) E.
  destruct (body_cases n st (ins_total n)) as [[_ Hb]|(t & x & pop' & b & _ & _ & _ & Eb & st1 & E1 & Hpop & Hev & ch & Hsub & Hpen & Hc)]; [congruence|].
  rewrite E in E1. injection E1 as <-.
  assert (Hch : charged (as_evaluated st') = (charged (as_evaluated st) + (if negb (d_viable x) && negb count_nonviable then 1 else 0))%Z).
  { rewrite Hev. unfold charged. rewrite failures_app. unfold failures at 2. simpl. destruct count_nonviable; simpl;
      [rewrite andb_false_r; reflexivity|]. destruct (d_viable x); simpl; lia. }
  assert (Hbc : bc_curr b = (bc_curr (as_births st) - (if negb (d_viable x) && negb count_nonviable then 1 else 0))%Z /\ bc_ctx b = bc_curr b).
  { rewrite Eb. destruct (negb (d_viable x) && negb count_nonviable); simpl; lia. }
  destruct Hbc as [Hb1 Hb2]. unfold ledger. rewrite Hch. rewrite Hev, Hsub, !app_length. cbn [length].
  set (u := (if negb (d_viable x) && negb count_nonviable then 1 else 0)%Z) in *.
  assert (Hu : (u = 0 \/ u = 1)%Z) by (unfold u; destruct (negb (d_viable x) && negb count_nonviable); lia).
  clearbody u. destruct Hc as [(Hlt & Hlen & Hbirth)|(Hge & -> & Hbirth)]; rewrite Hbirth.
  - rewrite one_child in Hlen. rewrite Hlen in *. cbn [bc_increment snd bc_curr bc_ctx]. repeat split; lia.
  - cbn [length] in *. repeat split; lia.
Qed.

Lemma ledger_init genomes : (0 <= max_births)%Z -> ledger (length genomes) 0 (ss_init genomes).
Proof.
  intros H. unfold ledger, ss_init, charged. simpl. rewrite make_tasks_length.
  destruct count_nonviable; repeat split; cbn; lia.
Qed.

Lemma steady_ledger genomes n : (0 <= max_births)%Z ->
  exists st, iter n 0 (ss_init genomes) = Ok st /\ ledger (length genomes) (length (as_evaluated st)) st /\
    length (as_evaluated st) <= n /\ (length (as_evaluated st) < n -> as_pending st = []).
Proof.
  intros H. destruct (iter_ind (ledger (length genomes)) (ss_init genomes) (ledger_init genomes H)
    (fun n st st' => ledger_step (length genomes) n st st') n) as (st & k & E & Hk & HP & Hd).
  exists st. assert (Hl := HP). destruct Hl as [<- _]. split; [exact E|]. split; [exact HP|]. auto.
Qed.

(** loop and iter *)
Lemma loop_iter : forall fuel i st st', loop fuel i st = Some (Ok st') -> iter fuel i st = Ok st' /\ as_pending st' = [].
Proof.
  induction fuel as [|fuel IH]; intros i st st' H; cbn [ss_loop] in H.
  - destruct (body i st) as [[|]|] eqn:E; try discriminate. injection H as <-. split; [reflexivity|]. apply (body_none st i E).
  - cbn [ss_iter]. destruct (body i st) as [[st1|]|] eqn:E; try discriminate; [apply IH, H|].
    injection H as <-. split; [reflexivity|]. apply (body_none st i E).
Qed.
Lemma iter_loop : forall n i st st', iter n i st = Ok st' -> as_pending st' = [] -> loop n i st = Some (Ok st').
Proof.
  induction n as [|n IH]; intros i st st' H Hp; cbn [ss_loop ss_iter] in *.
  - injection H as ->. assert (E : body i st' = None); [|rewrite E; reflexivity].
    unfold ss_body. rewrite Hp. destruct (choice i mod length (@nil (task G))); reflexivity.
  - destruct (body i st) as [[st1|]|]; [apply IH; assumption|discriminate|congruence].
Qed.

Lemma steady_final genomes fuel st : (0 <= max_births)%Z -> genomes <> [] ->
  loop fuel 0 (ss_init genomes) = Some (Ok st) ->
  bc_curr (as_births st) = max_births /\ bc_ctx (as_births st) = max_births /\
  Z.of_nat (length (as_submitted st)) = (max_births + charged (as_evaluated st))%Z /\
  length (as_evaluated st) = length genomes + length (as_submitted st).
Proof.
  intros Hm Hg H. destruct (loop_iter _ _ _ _ H) as [E Hp].
  destruct (steady_ledger genomes fuel Hm) as (st' & E' & (L1 & L2 & L3 & L4 & L5) & _). rewrite E in E'. injection E' as <-.
  rewrite Hp in L5. simpl in L5. destruct genomes as [|g gs]; [congruence|]. simpl length in *. lia.
Qed.

Lemma steady_terminates genomes N : (0 <= max_births)%Z ->
  (count_nonviable = false -> forall i g, N <= i -> exists f, outcome i g = Ok f) ->
  exists fuel st, loop fuel 0 (ss_init genomes) = Some (Ok st).
Proof.
  intros Hm Hf.
  set (P := fun n (st : astate G) => ledger (length genomes) n st /\ (charged (as_evaluated st) <= Z.of_nat N)%Z /\
              (charged (as_evaluated st) <= Z.of_nat n)%Z).
  assert (HP0 : P 0 (ss_init genomes)).
  { split; [apply ledger_init, Hm|]. unfold charged, ss_init. simpl. destruct count_nonviable; simpl; lia. }
  assert (HPs : forall n st st', P n st -> body n st = Some (Ok st') -> P (S n) st').
  { intros n st st' (HL & HN & Hn) E. split; [exact (ledger_step _ n st st' HL E)|].
    destruct (body_cases n st (ins_total n)) as [[_ Hb]|(t & x & pop' & b & _ & Ex & _ & _ & st1 & E1 & _ & Hev & _)]; [congruence|].
    rewrite E in E1. injection E1 as <-. rewrite Hev. unfold charged in *. rewrite failures_app.
    destruct count_nonviable; [lia|]. assert (Hx : failures [x] <= 1) by (unfold failures; simpl; destruct (negb (d_viable x)); simpl; lia).
    split; [|lia]. destruct (Nat.lt_ge_cases n N) as [Hlt|Hge]; [lia|].
    assert (failures [x] = 0); [|lia]. destruct (Hf eq_refl n (t_genome t) Hge) as (f & Hof).
    rewrite Ex. unfold robust_evaluate. rewrite Hof. reflexivity. }
  set (n := N + length genomes + Z.to_nat max_births).
  destruct (iter_ind P (ss_init genomes) HP0 HPs n) as (st & k & E & Hk & (HL & HN & Hn) & Hd).
  exists n, st. apply iter_loop; [exact E|]. destruct (Nat.lt_ge_cases k n) as [H|H]; [apply Hd, H|].
  destruct HL as (L1 & L2 & L3 & L4 & L5). destruct (as_pending st) as [|t ts]; [reflexivity|]. simpl in L5. unfold n in *. lia.
Qed.

Lemma steady_never_ends genomes : (0 <= max_births)%Z -> genomes <> [] -> count_nonviable = false ->
  (forall i g, exists e, outcome i g = Err e) -> forall fuel, loop fuel 0 (ss_init genomes) = None.
Proof.
  intros Hm Hg Hc Hf fuel.
  assert (HPs : forall n st st', ledger (length genomes) n st /\ charged (as_evaluated st) = Z.of_nat n ->
     body n st = Some (Ok st') -> ledger (length genomes) (S n) st' /\ charged (as_evaluated st') = Z.of_nat (S n)).
  { intros n st st' (HL & HN) E. split; [exact (ledger_step _ n st st' HL E)|].
    destruct (body_cases n st (ins_total n)) as [[_ Hb]|(t & x & pop' & b & _ & Ex & _ & _ & st1 & E1 & _ & Hev & _)]; [congruence|].
    rewrite E in E1. injection E1 as <-. rewrite Hev. unfold charged in *. rewrite failures_app, Hc in *.
    destruct (Hf n (t_genome t)) as (e & Hof). assert (failures [x] = 1); [|lia].
    rewrite Ex. unfold robust_evaluate. rewrite Hof. reflexivity. }
  destruct (loop fuel 0 (ss_init genomes)) as [[st|e]|] eqn:E; [| |reflexivity]; exfalso.
  - destruct (loop_iter _ _ _ _ E) as [E1 Hp].
    destruct (iter_ind (fun n st => ledger (length genomes) n st /\ charged (as_evaluated st) = Z.of_nat n) (ss_init genomes)
      ) with (n := fuel) as (st' & k & E' & _ & (HL & HC) & _).
    { split; [apply ledger_init, Hm|]. unfold charged. rewrite Hc. reflexivity. }
    { exact HPs. }
    rewrite E1 in E'. injection E' as <-. destruct HL as (L1 & L2 & L3 & L4 & L5). rewrite Hp in L5. cbn [length] in L5.
    destruct genomes; [congruence|]. cbn [length] in L5. lia.
  - assert (Q : forall fuel i st e, loop fuel i st <> Some (Err e)).
    { clear -ins_total. induction fuel as [|fuel IH]; intros i st e H; cbn [ss_loop] in H;
      destruct (body_cases i st (ins_total i)) as [[_ Hb]|(t & x & pop' & b & _ & _ & _ & _ & st1 & E1 & _)].
      - rewrite Hb in H. discriminate.
      - rewrite E1 in H. discriminate.
      - rewrite Hb in H. discriminate.
      - rewrite E1 in H. exact (IH _ _ _ H). }
    exact (Q _ _ _ _ E).
Qed.
End One.

(** ** the population *)
Section Pop.
Variable mx : bool.
Hypothesis ins_arrival : forall i x pop pop', inserter i x pop pop_size = Ok pop' -> arrival mx pop_size pop x pop'.

Definition pop_ok (n : nat) (st : astate G) : Prop :=
  length (as_evaluated st) = n /\
  length (as_pop st) = Nat.min pop_size n /\
  (forall y, In y (as_pop st) -> In y (as_evaluated st)) /\
  (forall y, In y (as_evaluated st) -> d_viable y = false -> ~ viable (si_fit (d_ind y))).

Lemma body_arrival i st st' : body i st = Some (Ok st') ->
  exists x, as_evaluated st' = as_evaluated st ++ [x] /\ arrival mx pop_size (as_pop st) x (as_pop st') /\
    (d_viable x = false -> ~ viable (si_fit (d_ind x))).
Proof.
  intros E. destruct (body_cases i st (ins_total i)) as [[_ Hb]|(t & x & pop' & b & _ & Ex & Ei & _ & st1 & E1 & Hpop & Hev & _)]; [congruence|].
  rewrite E in E1. injection E1 as <-. exists x. split; [exact Hev|]. rewrite Hpop. split; [exact (ins_arrival _ _ _ _ Ei)|].
  intros Hv. rewrite Ex in *. unfold robust_evaluate in *. destruct (outcome i (t_genome t)); [discriminate|].
  simpl. unfold viable. simpl. tauto.
Qed.

Lemma pop_ok_step n st st' : pop_ok n st -> body n st = Some (Ok st') -> pop_ok (S n) st' /\ no_worse mx (as_pop st) (as_pop st').
Proof.
  intros (P1 & P2 & P3 & P4) E. destruct (body_arrival n st st' E) as (x & Hev & Ha & Hx). split.
  - split; [rewrite Hev, app_length; simpl; lia|]. split; [|split].
    + rewrite (arrival_length _ _ _ _ _ _ Ha); lia.
    + intros y Hy. rewrite Hev. apply in_or_app. destruct (arrival_in _ _ _ _ _ _ _ Ha Hy) as [->|Hy']; [right; left; reflexivity|left; apply P3, Hy'].
    + intros y Hy. rewrite Hev in Hy. apply in_app_or in Hy. destruct Hy as [Hy|[<-|[]]]; [apply P4, Hy|exact Hx].
  - apply (arrival_no_worse _ _ pop_size _ x); [exact Ha|]. intros y Hy. apply P4, P3, Hy.
Qed.

Lemma pop_ok_init genomes : pop_ok 0 (ss_init genomes).
Proof. unfold pop_ok. simpl. repeat split; try lia; intros y []. Qed.

Lemma steady_population genomes n :
  exists st, iter n 0 (ss_init genomes) = Ok st /\
    length (as_pop st) = Nat.min pop_size (length (as_evaluated st)) /\
    (forall y, In y (as_pop st) -> In y (as_evaluated st)) /\
    exists st', iter (S n) 0 (ss_init genomes) = Ok st' /\
      (st' = st /\ as_pending st = [] \/
       exists x, as_evaluated st' = as_evaluated st ++ [x] /\ arrival mx pop_size (as_pop st) x (as_pop st')).
Proof.
  destruct (iter_ind pop_ok (ss_init genomes) (pop_ok_init genomes)
    (fun n st st' H E => proj1 (pop_ok_step n st st' H E)) n) as (st & k & E & Hk & (P1 & P2 & P3 & P4) & Hd).
  exists st. split; [exact E|]. split; [rewrite P1; exact P2|]. split; [exact P3|].
  destruct (iter_snoc n 0 (ss_init genomes) st E) as [E'|(Hp & E')]; [|exists st; auto].
  simpl in E'. destruct (body_cases n st (ins_total n)) as [[Hp Hb]|(t & x & pop' & b & _ & _ & _ & _ & st' & Eb & _)].
  - rewrite Hb in E'. exists st. auto.
  - rewrite Eb in E'. exists st'. split; [exact E'|]. right. destruct (body_arrival n st st' Eb) as (y & H1 & H2 & _). eauto.
Qed.

Lemma steady_no_worse genomes n m st st' : n <= m -> iter n 0 (ss_init genomes) = Ok st -> iter m 0 (ss_init genomes) = Ok st' ->
  no_worse mx (as_pop st) (as_pop st').
Proof.
  intros Hnm. revert st'. induction Hnm as [|m Hnm IH]; intros st' E E'.
  - rewrite E in E'. injection E' as <-. apply no_worse_refl.
  - destruct (iter_ind pop_ok (ss_init genomes) (pop_ok_init genomes)
      (fun n st st' H E => proj1 (pop_ok_step n st st' H E)) m) as (st1 & k & E1 & Hk & HP & Hd).
    apply (no_worse_trans _ _ _ (as_pop st1)); [apply IH; assumption|].
    destruct (iter_snoc m 0 (ss_init genomes) st1 E1) as [E2|(Hp & E2)]; rewrite E2 in E'.
    + simpl in E'. destruct (body m st1) as [[st2|]|] eqn:Eb; [|discriminate|injection E' as <-; apply no_worse_refl].
      injection E' as <-. assert (k = m).
      { destruct (Nat.eq_dec k m) as [->|]; [reflexivity|]. specialize (Hd ltac:(lia)).
        unfold ss_body in Eb. rewrite Hd in Eb. destruct (choice m mod length (@nil (task G))); discriminate. }
      subst k. exact (proj2 (pop_ok_step m st1 st2 HP Eb)).
    + injection E' as <-. apply no_worse_refl.
Qed.
End Pop.
End Steady.
