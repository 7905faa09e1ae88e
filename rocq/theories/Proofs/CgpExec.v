(** Running a circuit computes the values of its program. *)
From Coq Require Import Lia Permutation Sorted ZifyBool.
From Verif Require Import Model.Base Model.PyList Model.Cgp Spec.Cgp Proofs.RankOrdinal Proofs.CgpDecode.

(** ** grouping *)
Lemma firsts_spec seen l : NoDup (firsts seen l) /\ forall x, In x (firsts seen l) <-> In x l /\ ~ In x seen.
Proof.
  revert seen. induction l as [|y l IH]; intros seen; cbn [firsts].
  - split; [constructor|]. intros x. cbn. tauto.
  - destruct (memZ y seen) eqn:E.
    + apply memZ_in in E. destruct (IH seen) as [H1 H2]. split; [exact H1|]. intros x. rewrite H2. cbn [In].
      split; [tauto|]. intros [[<- | H] Hn]; [contradiction|auto].
    + assert (Hn : ~ In y seen) by (intros H; apply memZ_in in H; congruence).
      destruct (IH (y :: seen)) as [H1 H2]. split.
      * constructor; [|exact H1]. rewrite H2. cbn [In]. tauto.
      * intros x. cbn [In]. rewrite H2. cbn [In]. split; [intros [<- | H]; tauto|].
        intros [[<- | H] Hx]; [tauto|]. destruct (Z.eq_dec y x); [auto|]. right. tauto.
Qed.

Lemma filter_split_perm {A} (f : A -> bool) l : Permutation l (filter f l ++ filter (fun x => negb (f x)) l).
Proof.
  induction l as [|x l IH]; [reflexivity|]. cbn [filter]. destruct (f x); cbn [negb app].
  - constructor. exact IH.
  - rewrite <- Permutation_middle. constructor. exact IH.
Qed.

Lemma filter_filter {A} (f g : A -> bool) l : filter f (filter g l) = filter (fun x => g x && f x) l.
Proof.
  induction l as [|x l IH]; [reflexivity|]. cbn [filter]. destruct (g x) eqn:E; cbn [filter andb].
  - destruct (f x); rewrite IH; reflexivity.
  - exact IH.
Qed.

Lemma filter_all {A} (f : A -> bool) l : Forall (fun x => f x = true) l -> filter f l = l.
Proof. induction 1; cbn [filter]; [reflexivity|]. rewrite H, IHForall. reflexivity. Qed.
Lemma filter_none {A} (f : A -> bool) l : Forall (fun x => f x = false) l -> filter f l = [].
Proof. induction 1; cbn [filter]; [reflexivity|]. rewrite H. exact IHForall. Qed.

Lemma flat_map_eq {A B} (f g : A -> list B) l : (forall x, In x l -> f x = g x) -> flat_map f l = flat_map g l.
Proof.
  induction l as [|x l IH]; intros H; [reflexivity|]. cbn [flat_map]. rewrite H by (left; reflexivity).
  rewrite IH; [reflexivity|]. intros y Hy. apply H. right. exact Hy.
Qed.

Lemma group_perm {A} (key : A -> Z) ps es : NoDup ps ->
  Permutation (flat_map (fun p => filter (fun e => (key e =? p)%Z) es) ps) (filter (fun e => memZ (key e) ps) es).
Proof.
  revert es. induction ps as [|p ps IH]; intros es H; cbn [flat_map].
  - rewrite filter_none; [constructor|]. apply Forall_forall. reflexivity.
  - inversion H as [|? ? Hp Hn]; subst. 
    etransitivity; [|symmetry; exact (filter_split_perm (fun e => (key e =? p)%Z) (filter (fun e => memZ (key e) (p :: ps)) es))].
    rewrite !filter_filter. apply Permutation_app.
    + apply Permutation_refl'. apply filter_ext. intros e. cbn [memZ existsb]. unfold memZ. cbn [existsb]. destruct (key e =? p)%Z; cbn; [reflexivity|].
      rewrite andb_false_r. reflexivity.
    + transitivity (filter (fun e => memZ (key e) ps) (filter (fun e => negb (key e =? p)%Z) es)).
      * etransitivity; [|apply (IH (filter _ es) Hn)]. apply Permutation_refl'. apply flat_map_eq. intros q Hq. rewrite filter_filter.
        apply filter_ext. intros e. destruct (key e =? q)%Z eqn:E; [|rewrite andb_false_r; reflexivity].
        apply Z.eqb_eq in E. destruct (key e =? p)%Z eqn:E2; [|reflexivity]. exfalso. apply Hp. apply Z.eqb_eq in E2. congruence.
      * rewrite filter_filter. erewrite filter_ext; [reflexivity|]. intros e. unfold memZ. cbn [existsb].
        destruct (key e =? p)%Z, (existsb (Z.eqb (key e)) ps); reflexivity.
Qed.

Lemma regroup {A} (key : A -> Z) es :
  Permutation (flat_map (fun p => filter (fun e => (key e =? p)%Z) es) (firsts [] (map key es))) es.
Proof.
  destruct (firsts_spec [] (map key es)) as [H1 H2]. rewrite (group_perm key _ es H1). apply Permutation_refl'.
  apply filter_all. apply Forall_forall. intros e He. apply memZ_in. apply H2. split; [apply in_map, He|intros []].
Qed.

Section Exec.
Context {V : Type}.

Lemma in_edges_perm (g : graph V) n : Permutation (in_edges g n) (filter (fun e => (dst e =? n)%Z) (g_edges g)).
Proof. unfold in_edges. apply regroup. Qed.
Lemma out_edges_perm (g : graph V) n : Permutation (out_edges g n) (filter (fun e => (src e =? n)%Z) (g_edges g)).
Proof. unfold out_edges. apply regroup. Qed.

(** ** edges into one node *)
Lemma filter_perm {A} (f : A -> bool) l m : Permutation l m -> Permutation (filter f l) (filter f m).
Proof.
  induction 1; cbn [filter].
  - constructor.
  - destruct (f x); [constructor|]; assumption.
  - destruct (f x), (f y); try reflexivity. constructor.
  - etransitivity; eassumption.
Qed.

Lemma filter_blocks {X} (f : nat -> X -> list edge) c j l a :
  (forall i x e, In e (f i x) -> dst e = Z.of_nat (c + i)) ->
  filter (fun e => (dst e =? Z.of_nat (c + j))%Z) (concat (map (fun jn => f (fst jn) (snd jn)) (combine (seq a (length l)) l))) =
  if j <? a then [] else match nth_error l (j - a) with Some x => f j x | None => [] end.
Proof.
  intros Hf. revert a. induction l as [|x l IH]; intros a.
  - cbn [length seq combine map concat filter]. destruct (j <? a); [reflexivity|]. destruct (j - a) eqn:Ea; reflexivity.
  - cbn [length seq combine map concat fst snd]. rewrite filter_app, IH. destruct (Nat.eq_dec j a) as [-> | Hne].
    + rewrite filter_all by (apply Forall_forall; intros e He; rewrite (Hf a x e He); lia).
      replace (a <? S a) with true by lia. rewrite app_nil_r. rewrite Nat.ltb_irrefl, Nat.sub_diag. reflexivity.
    + rewrite filter_none by (apply Forall_forall; intros e He; rewrite (Hf a x e He); lia). cbn [app].
      destruct (j <? a) eqn:E1, (j <? S a) eqn:E2; try reflexivity; try lia.
      replace (j - a) with (S (j - S a)) by lia. reflexivity.
Qed.

Lemma arg_edges_dst t srcs e : In e (arg_edges t srcs) -> dst e = t /\ In (src e) srcs /\ exists k, ord e = Some k.
Proof.
  unfold arg_edges. intros H. apply in_map_iff in H as ([k s] & <- & Hk). cbn. split; [reflexivity|].
  split; [eapply in_combine_r, Hk|eauto].
Qed.

Lemma map_as_concat {A B} (f : A -> B) l : map f l = concat (map (fun x => [f x]) l).
Proof. induction l; cbn; congruence. Qed.

Variables (ni : nat) (prog : list (pnode V)) (outs : list Z).
Let np := length prog.

Definition all_edges : list edge :=
  concat (map (fun jn => arg_edges (Z.of_nat (ni + fst jn)) (snd (fst (snd jn)))) (combine (seq 0 np) prog)) ++
  map (fun ko => (snd ko, Z.of_nat (ni + np + fst ko), None)) (combine (seq 0 (length outs)) outs).

Lemma all_edges_node j p srcs par : nth_error prog j = Some (p, srcs, par) ->
  filter (fun e => (dst e =? Z.of_nat (ni + j))%Z) all_edges = arg_edges (Z.of_nat (ni + j)) srcs.
Proof.
  intros Hj. unfold all_edges, np. rewrite filter_app.
  match goal with |- filter ?f ?a ++ _ = _ => assert (E : filter f a = arg_edges (Z.of_nat (ni + j)) srcs) end.
  { etransitivity; [exact (filter_blocks (fun i (x : pnode V) => arg_edges (Z.of_nat (ni + i)) (snd (fst x))) ni j prog 0
      (fun i x e He => proj1 (arg_edges_dst _ _ e He)))|].
    cbn [Nat.ltb Nat.leb]. rewrite Nat.sub_0_r, Hj. reflexivity. }
  rewrite E.
  rewrite filter_none; [apply app_nil_r|]. apply Forall_forall. intros e He. apply in_map_iff in He as ([k o] & <- & Hk).
  cbn [dst fst snd]. assert (j < np) by (apply nth_error_Some; congruence). lia.
Qed.

Lemma all_edges_out k o : nth_error outs k = Some o ->
  filter (fun e => (dst e =? Z.of_nat (ni + np + k))%Z) all_edges = [(o, Z.of_nat (ni + np + k), None)].
Proof.
  intros Hk. unfold all_edges, np. rewrite filter_app. rewrite filter_none.
  - cbn [app]. rewrite map_as_concat.
    etransitivity; [apply (filter_blocks (fun i (o : Z) => [(o, Z.of_nat (ni + np + i), None)]) (ni + np) k outs 0)|].
    { intros i x e [<- | []]. reflexivity. }
    cbn [Nat.ltb Nat.leb]. rewrite Nat.sub_0_r, Hk. reflexivity.
  - apply Forall_forall. intros e He. apply in_concat in He as (es & Hes & He). apply in_map_iff in Hes as ([j x] & <- & Hj).
    apply arg_edges_dst in He as [-> _]. apply in_combine_l in Hj. apply in_seq in Hj. cbn [fst]. lia.
Qed.

Lemma all_edges_input i : i < ni -> filter (fun e => (dst e =? Z.of_nat i)%Z) all_edges = [].
Proof.
  intros Hi. unfold all_edges. apply filter_none. apply Forall_forall. intros e He. apply in_app_or in He as [He | He].
  - apply in_concat in He as (es & Hes & He). apply in_map_iff in Hes as ([j x] & <- & Hj).
    apply arg_edges_dst in He as [-> _]. cbn [fst]. lia.
  - apply in_map_iff in He as ([k o] & <- & Hk). cbn [dst fst snd]. lia.
Qed.

(** ** sorting by argument position *)
Lemma sorted_unique {A} (R : A -> A -> Prop) l m : StronglySorted R l -> StronglySorted R m ->
  (forall x y, In x l -> In y l -> R x y -> R y x -> x = y) -> Permutation l m -> l = m.
Proof.
  revert m. induction l as [|x l IH]; intros m Hl Hm Ha Hp.
  - apply Permutation_nil in Hp. congruence.
  - destruct m as [|y m]; [symmetry in Hp; apply Permutation_nil in Hp; discriminate|].
    inversion Hl as [|? ? Hl1 Hl2]; subst. inversion Hm as [|? ? Hm1 Hm2]; subst.
    assert (x = y) as <-.
    { assert (Hx : In x (y :: m)) by (rewrite <- Hp; left; reflexivity).
      assert (Hy : In y (x :: l)) by (rewrite Hp; left; reflexivity).
      destruct Hx as [-> | Hx]; [reflexivity|]. destruct Hy as [-> | Hy]; [reflexivity|].
      rewrite Forall_forall in *. apply Ha; [left; reflexivity|right; exact Hy|apply Hl2, Hy|apply Hm2, Hx]. }
    f_equal. apply IH; [assumption..| |].
    + intros u v Hu Hv. apply Ha; right; assumption.
    + apply Permutation_cons_inv in Hp. exact Hp.
Qed.

Lemma arg_edges_sorted t srcs : StronglySorted (fun x y => order_ltb y x = false) (arg_edges t srcs).
Proof.
  unfold arg_edges. assert (forall a, StronglySorted (fun x y => order_ltb y x = false)
    (map (fun ks => (snd ks, t, Some (fst ks))) (combine (seq a (length srcs)) srcs))) as H; [|apply H].
  induction srcs as [|s srcs IH]; intros a; cbn [length seq combine map]; [constructor|]. constructor; [apply IH|].
  apply Forall_forall. intros e He. apply in_map_iff in He as ([k x] & <- & Hk). apply in_combine_l in Hk. apply in_seq in Hk.
  unfold order_ltb. cbn [ord fst snd]. apply Nat.ltb_ge. lia.
Qed.

Lemma arg_edges_inj t srcs x y : In x (arg_edges t srcs) -> In y (arg_edges t srcs) -> ord x = ord y -> x = y.
Proof.
  unfold arg_edges. intros Hx Hy E. apply in_map_iff in Hx as ([k s] & <- & Hk). apply in_map_iff in Hy as ([k' s'] & <- & Hk').
  cbn in E. injection E as <-. cbn [fst snd].
  assert (forall a, In (k, s) (combine (seq a (length srcs)) srcs) -> a <= k /\ nth_error srcs (k - a) = Some s) as H.
  { clear. induction srcs as [|x srcs IH]; intros a; cbn [length seq combine]; [intros []|]. intros [E | H].
    - injection E as <- <-. split; [lia|]. rewrite Nat.sub_diag. reflexivity.
    - apply IH in H as [H1 H2]. split; [lia|]. replace (k - a) with (S (k - S a)) by lia. exact H2. }
  assert (forall a, In (k, s') (combine (seq a (length srcs)) srcs) -> a <= k /\ nth_error srcs (k - a) = Some s') as H'.
  { clear. induction srcs as [|x srcs IH]; intros a; cbn [length seq combine]; [intros []|]. intros [E | H].
    - injection E as <- <-. split; [lia|]. rewrite Nat.sub_diag. reflexivity.
    - apply IH in H as [H1 H2]. split; [lia|]. replace (k - a) with (S (k - S a)) by lia. exact H2. }
  apply H in Hk as [_ Hk]. apply H' in Hk' as [_ Hk']. congruence.
Qed.

Lemma sort_args t srcs es : Permutation es (arg_edges t srcs) -> sort_asc order_ltb es = arg_edges t srcs.
Proof.
  intros Hp.
  assert (Ho : Forall (fun e => exists k, ord e = Some k) es).
  { rewrite Hp. apply Forall_forall. intros e He. apply arg_edges_dst in He. tauto. }
  assert (Hs : StronglySorted (fun x y => order_ltb y x = false) (sort_asc order_ltb es)).
  { apply (sort_asc_sorted order_ltb (fun e => exists k, ord e = Some k)); [| |exact Ho].
    - intros x y z (a & Ea) (b & Eb) (c & Ec). unfold order_ltb. rewrite Ea, Eb, Ec. lia.
    - intros x y (a & Ea) (b & Eb). unfold order_ltb. rewrite Ea, Eb. lia. }
  apply (sorted_unique (fun x y => order_ltb y x = false)); [exact Hs|apply arg_edges_sorted| |].
  - intros x y Hx Hy. rewrite <- sort_asc_perm in Hx, Hy. rewrite Hp in Hx, Hy. intros H1 H2.
    apply (arg_edges_inj t srcs); [assumption..|].
    apply arg_edges_dst in Hx as (_ & _ & a & Ea). apply arg_edges_dst in Hy as (_ & _ & b & Eb).
    unfold order_ltb in *. rewrite Ea, Eb in *. f_equal. lia.
  - rewrite <- sort_asc_perm. exact Hp.
Qed.

Lemma arg_edges_srcs t srcs : map src (arg_edges t srcs) = srcs.
Proof.
  unfold arg_edges. rewrite map_map. cbn [src fst].
  assert (forall a, map (fun x => snd x) (combine (seq a (length srcs)) srcs) = srcs) as H; [|apply H].
  induction srcs as [|s srcs IH]; intros a; cbn; [reflexivity|]. f_equal. apply IH.
Qed.

(** ** running *)
Variable g : graph V.
Hypothesis Hg : circuit g ni prog outs.
Hypothesis Hff : feed_forward ni prog outs.

Lemma circuit_edges n : Permutation (filter (fun e => (dst e =? n)%Z) (g_edges g)) (filter (fun e => (dst e =? n)%Z) all_edges).
Proof. apply filter_perm. destruct Hg as (_ & _ & H). exact H. Qed.

Lemma sorted_inputs_ok j p srcs par : nth_error prog j = Some (p, srcs, par) -> sorted_inputs g (Z.of_nat (ni + j)) = srcs.
Proof.
  intros Hj. unfold sorted_inputs. rewrite (sort_args (Z.of_nat (ni + j)) srcs).
  - apply arg_edges_srcs.
  - rewrite in_edges_perm, circuit_edges, (all_edges_node j p srcs par Hj). reflexivity.
Qed.

Lemma output_edge k o : nth_error outs k = Some o -> in_edges g (Z.of_nat (ni + np + k)) = [(o, Z.of_nat (ni + np + k), None)].
Proof.
  intros Hk. apply Permutation_length_1_inv. symmetry. rewrite in_edges_perm, circuit_edges, (all_edges_out k o Hk). reflexivity.
Qed.

Variable input : list V.
Hypothesis Hin : length input = ni.
Let val := value ni prog input.

Lemma value_below s v : val s v -> (0 <= s < Z.of_nat (ni + np))%Z.
Proof.
  intros H. inversion H; subst; [lia|].
  match goal with Hn : nth_error prog _ = Some _ |- _ => assert (j < np) by (apply nth_error_Some; congruence) end. lia.
Qed.

Lemma value_det n s v v' : (s < Z.of_nat n)%Z -> val s v -> val s v' -> v = v'.
Proof.
  revert s v v'. induction n as [|n IH]; intros s v v' Hs H H'.
  - apply value_below in H. lia.
  - inversion H as [k w Hk Hw Es Ev|j p srcs par args w Hj Hargs Hc Es Ev]; inversion H' as [k' w' Hk' Hw' Es' Ev'|j' p' srcs' par' args' w' Hj' Hargs' Hc' Es' Ev']; subst.
    + assert (k = k') by lia. congruence.
    + lia.
    + lia.
    + assert (j' = j) by lia. subst j'. rewrite Hj in Hj'. injection Hj' as <- <- <-.
      assert (args = args') as <-.
      { destruct Hff as [Hf _]. specialize (Hf j p srcs par Hj). clear Hc Hc' Hj H H'. revert args' Hargs' Hf. induction Hargs as [|x a srcs args Hx Hr IHr]; intros args' Ha' Hf.
        - inversion Ha'; reflexivity.
        - inversion Ha' as [|? a' ? args2 Hx' Hr']; subst. inversion Hf; subst. f_equal; [|apply IHr; assumption].
          apply (IH x); [lia|exact Hx|exact Hx']. }
      congruence.
Qed.

Lemma values_det l vs vs' : Forall2 val l vs -> Forall2 val l vs' -> vs = vs'.
Proof.
  intros F. revert vs'. induction F as [|x v l vs Hx Hr IH]; intros vs' F'; inversion F' as [|? v2 ? vs2 Hx2 Hr2]; [reflexivity|].
  f_equal; [|apply IH; assumption]. pose proof (value_below _ _ Hx). apply (value_det (ni + np) x); [lia|assumption..].
Qed.

Definition computed (o : Z -> option V) (j : nat) : Prop :=
  forall s, (0 <= s < Z.of_nat (ni + j))%Z -> exists v, o s = Some v /\ val s v.

Lemma read_all_ok o j srcs : computed o j -> Forall (fun s => 0 <= s < Z.of_nat (ni + j))%Z srcs ->
  exists args, read_all o srcs = Ok args /\ Forall2 val srcs args.
Proof.
  intros Hc. induction 1 as [|s srcs Hs Hr IH]; [exists []; split; [reflexivity|constructor]|].
  destruct IH as (args & E & F). destruct (Hc s Hs) as (v & Ev & Hv). exists (v :: args). cbn [read_all]. rewrite Ev, E. cbn [bind].
  split; [reflexivity|constructor; assumption].
Qed.

Lemma node_member n : (n < ni + np + length outs)%nat -> memZ (Z.of_nat n) (g_nodes g) = true.
Proof.
  intros H. apply memZ_in. destruct Hg as (Hn & _). rewrite Hn. apply in_map, in_seq. unfold np in H. lia.
Qed.

Lemma run_node_ok o j p srcs par : computed o j -> nth_error prog j = Some (p, srcs, par) ->
  exists args, Forall2 val srcs args /\
    run_node g o (Z.of_nat (ni + j)) = bind (p_call p (args ++ par)) (fun v => Ok (set_out o (Z.of_nat (ni + j)) v)).
Proof.
  intros Hc Hj. assert (Hlt : j < np) by (apply nth_error_Some; congruence).
  destruct Hff as [Hf _]. destruct (read_all_ok o j srcs Hc (Hf j p srcs par Hj)) as (args & E & F).
  exists args. split; [exact F|]. unfold run_node. rewrite node_member by lia. cbn [negb].
  rewrite (sorted_inputs_ok j p srcs par Hj), E. cbn [bind]. destruct Hg as (_ & Hfun & _).
  destruct (Hfun j p srcs par Hj) as [-> Hpar]. rewrite Hpar. reflexivity.
Qed.

Lemma computed_set o j v : computed o j -> val (Z.of_nat (ni + j)) v -> computed (set_out o (Z.of_nat (ni + j)) v) (S j).
Proof.
  intros Hc Hv s Hs. unfold set_out. destruct (s =? Z.of_nat (ni + j))%Z eqn:E.
  - apply Z.eqb_eq in E. subst s. eauto.
  - apply Hc. lia.
Qed.

Lemma fold_err {A B} (f : A -> B -> result A) l e : fold_left (fun r x => bind r (fun a => f a x)) l (Err e) = Err e.
Proof. induction l; cbn; [reflexivity|assumption]. Qed.

Lemma run_hidden m j o : j + m = np -> computed o j ->
  (forall o', fold_left (fun r n => bind r (fun o => run_node g o n)) (zrange (ni + j) m) (Ok o) = Ok o' -> computed o' np) /\
  ((forall i, j <= i < np -> exists v, val (Z.of_nat (ni + i)) v) ->
   exists o', fold_left (fun r n => bind r (fun o => run_node g o n)) (zrange (ni + j) m) (Ok o) = Ok o').
Proof.
  revert j o. induction m as [|m IH]; intros j o Hjm Hc.
  - cbn. split; [intros o' [= <-]; replace np with j by lia; exact Hc|eauto].
  - destruct (nth_error prog j) as [[[p srcs] par]|] eqn:Hj; [|apply nth_error_None in Hj; unfold np in *; lia].
    destruct (run_node_ok o j p srcs par Hc Hj) as (args & F & E).
    unfold zrange. cbn [seq map fold_left]. fold (zrange (S (ni + j)) m). cbn [bind]. rewrite E.
    destruct (p_call p (args ++ par)) as [v|e] eqn:Ec; cbn [bind].
    + assert (Hv : val (Z.of_nat (ni + j)) v) by (econstructor; eassumption).
      replace (S (ni + j)) with (ni + S j) by lia.
      destruct (IH (S j) _ ltac:(lia) (computed_set o j v Hc Hv)) as [H1 H2]. split; [exact H1|]. intros Ha. apply H2. intros i Hi. apply Ha. lia.
    + rewrite fold_err. split; [discriminate|]. intros Ha. exfalso. destruct (Ha j ltac:(lia)) as (v & Hv).
      inversion Hv as [k w Hk Hw Es Ev|j' p' srcs' par' args' w Hj' Hargs' Hc' Es Ev]; subst; [lia|].
      assert (j' = j) by lia. subst j'. rewrite Hj in Hj'. injection Hj' as <- <- <-.
      assert (args = args') as <-; [apply (values_det srcs); assumption|congruence].
Qed.

Lemma run_outputs m k o acc : k + m = length outs -> computed o np ->
  exists o' vs, fold_left (fun r n => bind r (fun acc => run_output g acc n)) (zrange (ni + np + k) m) (Ok (o, acc)) = Ok (o', acc ++ vs) /\
    Forall2 val (skipn k outs) vs.
Proof.
  revert k o acc. induction m as [|m IH]; intros k o acc Hkm Hc.
  - exists o, []. cbn. rewrite app_nil_r, skipn_all2 by lia. split; [reflexivity|constructor].
  - destruct (nth_error outs k) as [s|] eqn:Hk; [|apply nth_error_None in Hk; lia].
    unfold zrange. cbn [seq map fold_left bind]. fold (zrange (S (ni + np + k)) m).
    unfold run_output at 2. rewrite node_member by lia. cbn [negb]. rewrite (output_edge k s Hk). cbn [src fst snd].
    destruct Hff as [_ Hf]. rewrite Forall_forall in Hf. pose proof (Hf s (nth_error_In _ _ Hk)) as Hs.
    destruct (Hc s Hs) as (v & -> & Hv).
    replace (S (ni + np + k)) with (ni + np + S k) by lia.
    destruct (IH (S k) (set_out o (Z.of_nat (ni + np + k)) v) (acc ++ [v])) as (o' & vs & E & F); [lia| |].
    + intros t Ht. unfold set_out. destruct (t =? Z.of_nat (ni + np + k))%Z eqn:Et; [lia|]. apply Hc, Ht.
    + exists o', (v :: vs). split; [etransitivity; [exact E|rewrite <- app_assoc; reflexivity]|].
      assert (Esk : skipn k outs = s :: skipn (S k) outs).
      { clear -Hk. revert k Hk. induction outs as [|x l IH]; intros [|k] Hk; try discriminate; [injection Hk as ->; reflexivity|].
        cbn [skipn]. apply IH, Hk. }
      rewrite Esk. constructor; assumption.
Qed.

Lemma set_inputs_computed o :
  computed (fold_left (fun o iv => set_out o (fst iv) (snd iv)) (combine (zrange 0 ni) input) o) 0.
Proof.
  assert (G : forall l a (o : Z -> option V) s,
    fold_left (fun o iv => set_out o (fst iv) (snd iv)) (combine (zrange a (length l)) l) o s =
    if ((Z.of_nat a <=? s) && (s <? Z.of_nat (a + length l)))%Z then nth_error l (Z.to_nat s - a) else o s).
  { clear. induction l as [|x l IH]; intros a o s; unfold zrange; cbn [length seq map combine fold_left fst snd].
    - destruct (_ && _)%Z eqn:E; [lia|reflexivity].
    - fold (zrange (S a) (length l)). rewrite IH. unfold set_out. destruct (s =? Z.of_nat a)%Z eqn:E.
      + apply Z.eqb_eq in E. subst s. destruct (_ && _)%Z eqn:E1; [lia|]. destruct (_ && _)%Z eqn:E2 at 1; [|lia].
        rewrite Nat2Z.id, Nat.sub_diag. reflexivity.
      + destruct (_ && _)%Z eqn:E1 at 1.
        * destruct (_ && _)%Z eqn:E2 at 1; [|lia]. replace (Z.to_nat s - a) with (S (Z.to_nat s - S a)) by lia. reflexivity.
        * destruct (_ && _)%Z eqn:E2 at 1; [lia|reflexivity]. }
  intros s Hs. pose proof (G input 0 o s) as Gs. rewrite Hin in Gs. rewrite Gs. destruct (_ && _)%Z eqn:E at 1; [|lia].
  destruct (nth_error input (Z.to_nat s - 0)) as [v|] eqn:Ev; [|apply nth_error_None in Ev; lia].
  exists v. split; [reflexivity|]. replace s with (Z.of_nat (Z.to_nat s)) by lia. constructor; [lia|].
  rewrite Nat.sub_0_r in Ev. exact Ev.
Qed.

Lemma call_spec o :
  (forall o' vs, call g ni (length outs) o input = Ok (o', vs) ->
     Forall2 val outs vs /\ forall j, j < np -> exists v, val (Z.of_nat (ni + j)) v) /\
  ((forall j, j < np -> exists v, val (Z.of_nat (ni + j)) v) -> exists o' vs, call g ni (length outs) o input = Ok (o', vs)).
Proof.
  unfold call. rewrite Hin, Nat.eqb_refl. cbn [negb].
  assert (El : length (g_nodes g) - ni - length outs = np).
  { destruct Hg as (Hn & _). rewrite (Permutation_length Hn), map_length, seq_length. unfold np. lia. }
  rewrite El. set (o1 := fold_left _ _ o). assert (Hc : computed o1 0) by apply set_inputs_computed.
  destruct (run_hidden np 0 o1 eq_refl Hc) as [H1 H2]. rewrite Nat.add_0_r in H1, H2. split.
  - intros o' vs E. destruct (fold_left _ (zrange ni np) (Ok o1)) as [o2|e] eqn:E2; cbn [bind] in E; [|discriminate].
    specialize (H1 o2 eq_refl). destruct (run_outputs (length outs) 0 o2 [] eq_refl H1) as (o3 & vs' & E3 & F).
    rewrite Nat.add_0_r in E3. rewrite E3 in E. injection E as <- <-. split; [exact F|].
    intros j Hj. destruct (H1 (Z.of_nat (ni + j)) ltac:(lia)) as (v & _ & Hv). eauto.
  - intros Ha. destruct H2 as (o2 & E2); [intros i Hi; apply Ha; lia|]. rewrite E2. cbn [bind].
    destruct (run_outputs (length outs) 0 o2 [] eq_refl (H1 o2 E2)) as (o3 & vs' & E3 & F).
    rewrite Nat.add_0_r in E3. rewrite E3. eauto.
Qed.

End Exec.
