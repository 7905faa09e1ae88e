From Verif Require Import Model.Base Model.Executable Spec.Executable Proofs.NeuralNet Proofs.Order.
From Coq Require Import Lia Lqa FinFun.

(** ** truth tables *)
Lemma enumerate_S n : enumerate_tt (S (S n)) = bind (enumerate_tt (S n)) (fun tt => Ok (map (cons 0%Z) tt ++ map (cons 1%Z) tt)).
Proof. reflexivity. Qed.
Lemma cons_inj {A} (a : A) : Injective (cons a).
Proof. intros x y H. congruence. Qed.
Lemma enumerate_spec n : exists table, enumerate_tt (S n) = Ok table /\ complete_table (S n) table /\ length table = 2 ^ (S n).
Proof.
  induction n as [|n (t & E & (D & C) & L)].
  - exists [[0]; [1]]%Z. split; [reflexivity|]. split; [split|reflexivity].
    + constructor; [intros [H|[]]; discriminate|]. constructor; [intros []|constructor].
    + intros l. split.
      * intros [<-|[<-|[]]]; (split; [reflexivity|]); constructor; auto.
      * intros [Hl F]. destruct l as [|a [|b l]]; try discriminate. inversion F as [|? ? [->| ->] _]; cbn; auto.
  - rewrite enumerate_S, E. cbn [bind]. eexists. split; [reflexivity|]. split; [split|].
    + apply NoDup_app_intro; [apply Injective_map_NoDup; auto using cons_inj|apply Injective_map_NoDup; auto using cons_inj|].
      intros x I J. apply in_map_iff in I, J. destruct I as (a & <- & _), J as (b & J & _). discriminate.
    + intros l. rewrite in_app_iff, !in_map_iff. split.
      * intros [(a & <- & I)|(a & <- & I)]; apply C in I; destruct I as [I F]; (split; [cbn; congruence|constructor; auto]).
      * intros [Hl F]. destruct l as [|a l]; [discriminate|]. inversion F as [|? ? [->| ->] F']; subst; [left|right];
          exists l; (split; [reflexivity|]); apply C; split; auto.
    + rewrite app_length, !map_length, L. cbn. lia.
Qed.
Lemma padded_filled pad n l : padded n pad l = filled pad n l.
Proof.
  unfold padded, filled. destruct pad; [|reflexivity]. cbn [andb]. destruct (Nat.ltb_spec (length l) n).
  - f_equal. generalize (n - length l). intros k. generalize 0 at 1. induction k as [|k IH]; intros s; [reflexivity|]. cbn. f_equal. apply IH.
  - replace (n - length l) with 0 by lia. cbn. rewrite app_nil_r. reflexivity.
Qed.
Section TT.
Context {O : Type}.
Variable out_eqb : list O -> list O -> bool.
Variable function executable : list Z -> result (list O).
Variable exec_inputs : nat.
Variable pad : bool.
Definition good (i : list Z) : Prop := exists e o, function i = Ok e /\ e <> [] /\ executable (filled pad exec_inputs i) = Ok o.
Definition agrees (i : list Z) : bool :=
  match function i, executable (filled pad exec_inputs i) with Ok e, Ok o => out_eqb o e | _, _ => false end.
Lemma score_ok inputs : forall score, Forall good inputs ->
  tt_score out_eqb function executable exec_inputs pad score inputs = Ok (score + Z.of_nat (length (filter agrees inputs)))%Z.
Proof.
  induction inputs as [|i r IH]; intros score G; cbn [tt_score filter]; [cbn; f_equal; lia|].
  inversion G as [|? ? (e & o & E1 & Ne & E2) G']; subst. rewrite E1. cbn [bind]. destruct e as [|e0 e]; [congruence|]. cbn [length Nat.eqb].
  rewrite padded_filled, E2. cbn [bind]. rewrite IH by auto. unfold agrees at 2. rewrite E1, E2. destruct (out_eqb o (e0 :: e)); cbn [length]; f_equal; lia.
Qed.
Lemma score_good inputs : forall score s, tt_score out_eqb function executable exec_inputs pad score inputs = Ok s -> Forall good inputs.
Proof.
  induction inputs as [|i r IH]; intros score s H; [constructor|]. cbn [tt_score] in H.
  destruct (function i) as [e|] eqn:E1; [|discriminate]. cbn [bind] in H. destruct e as [|e0 e]; [discriminate|]. cbn [length Nat.eqb] in H.
  rewrite padded_filled in H. destruct (executable (filled pad exec_inputs i)) as [o|] eqn:E2; [|discriminate]. cbn [bind] in H.
  constructor; [|eapply IH; eauto]. exists (e0 :: e), o. repeat split; auto. discriminate.
Qed.
Lemma filter_all {A} (f : A -> bool) l : length (filter f l) <= length l /\ (length (filter f l) = length l <-> forall x, In x l -> f x = true).
Proof.
  induction l as [|x l [I1 I2]]; cbn [filter length]; [split; [lia|split; [intros _ y []|reflexivity]]|].
  destruct (f x) eqn:E; cbn [length].
  - split; [lia|]. split; intros H; [intros y [<-|K]; [auto|apply I2; [lia|auto]]|f_equal; apply I2; intros y K; apply H; right; auto].
  - split; [lia|]. split; [lia|]. intros H. rewrite H in E by (left; auto). discriminate.
Qed.
Lemma tt_evaluate_spec n : 0 < n ->
  exists table, complete_table n table /\ length table = 2 ^ n /\
  ((forall i, bit_vector n i -> good i) ->
     exists q, tt_evaluate out_eqb function executable exec_inputs pad n = Ok q /\
       (q == inject_Z (Z.of_nat (length (filter agrees table))) / inject_Z (Z.of_nat (2 ^ n)))%Q /\
       (0 <= q <= 1)%Q /\ ((q == 1)%Q <-> forall i, bit_vector n i -> agrees i = true)) /\
  (forall q, tt_evaluate out_eqb function executable exec_inputs pad n = Ok q -> forall i, bit_vector n i -> good i).
Proof.
  destruct n as [|n]; [lia|]. intros _. destruct (enumerate_spec n) as (t & E & C & L). exists t. split; [exact C|]. split; [exact L|]. split.
  - intros G. unfold tt_evaluate. rewrite E. cbn [bind]. rewrite score_ok by (apply Forall_forall; intros i I; apply G, C, I).
    cbn [bind]. rewrite L. destruct (filter_all agrees t) as [F1 F2]. set (k := length (filter agrees t)) in *.
    assert (P : 0 < 2 ^ S n) by (apply Nat.neq_0_lt_0, Nat.pow_nonzero; lia). set (m := 2 ^ S n) in *.
    assert (Pq : (0 < inject_Z (Z.of_nat m))%Q) by (change 0%Q with (inject_Z 0); rewrite <- Zlt_Qlt; lia).
    assert (Eq : forall a, (inject_Z a / inject_Z (Z.of_nat m) * inject_Z (Z.of_nat m) == inject_Z a)%Q) by (intros a; field; lra).
    specialize (Eq (0 + Z.of_nat k)%Z). set (q := (inject_Z (0 + Z.of_nat k) / inject_Z (Z.of_nat m))%Q) in *.
    eexists. split; [reflexivity|]. fold q.
    assert (K0 : (0 <= inject_Z (0 + Z.of_nat k))%Q) by (change 0%Q with (inject_Z 0); rewrite <- Zle_Qle; lia).
    assert (K1 : (inject_Z (0 + Z.of_nat k) <= inject_Z (Z.of_nat m))%Q) by (rewrite <- Zle_Qle; lia).
    split; [reflexivity|]. split; [split; [apply (proj1 (Qmult_le_r _ _ _ Pq)); rewrite Eq; lra|apply (proj1 (Qmult_le_r _ _ _ Pq)); rewrite Eq; lra]|]. split.
    + intros Q1 i Bi. apply F2; [|apply C, Bi]. rewrite Q1 in Eq. rewrite Qmult_1_l in Eq. apply (proj1 (inject_Z_injective _ _)) in Eq. lia.
    + intros A. assert (k = m) by (rewrite <- L; apply F2; intros x I; apply A, C, I). unfold q. rewrite H. cbn [Z.add]. field. lra.
  - intros q H i Bi. unfold tt_evaluate in H. rewrite E in H. cbn [bind] in H.
    destruct (tt_score out_eqb function executable exec_inputs pad 0 t) as [s|] eqn:Es; [|discriminate].
    apply score_good in Es. rewrite Forall_forall in Es. apply Es, C, Bi.
Qed.
End TT.

(** ** episodes *)
Section Env.
Context {W O A : Type}.
Variable reset : W -> result (W * O).
Variable executable : W -> O -> result (W * A).
Variable step : W -> A -> result (W * (O * Q * bool * bool)).
Variable stop : bool.
Lemma env_steps_spec n : forall w o w' os rs, env_steps executable step stop n w o = Ok (w', os, rs) ->
  exists trs, replays executable step w o trs w' /\ os = map (@tr_obs O) trs /\ rs = map (@tr_reward O) trs /\
    episode_length_ok stop n trs /\ (0 < n -> trs <> []).
Proof.
  induction n as [|n IH]; intros w o w' os rs H; cbn [env_steps] in H.
  - injection H as <- <- <-. exists []. split; [constructor|]. split; [reflexivity|]. split; [reflexivity|]. split; [|lia].
    split; [cbn; lia|]. split; [reflexivity|]. intros _. split; [intros i t K; destruct i; discriminate|left; reflexivity].
  - destruct (executable w o) as [[w1 a]|] eqn:E1; [|discriminate]. cbn [bind] in H.
    destruct (step w1 a) as [[w2 [[[o' r] te] tu]]|] eqn:E2; [|discriminate]. cbn [bind] in H.
    destruct (stop && (te || tu)) eqn:D.
    + injection H as <- <- <-. apply andb_true_iff in D. destruct D as [D1 D2]. exists [mk_tr o' r (te || tu)].
      split; [econstructor; eauto; constructor|]. split; [reflexivity|]. split; [reflexivity|]. split; [|discriminate].
      split; [cbn; lia|]. split; [congruence|]. intros _. split; [cbn [length]; intros; lia|]. right. eexists. split; [reflexivity|exact D2].
    + destruct (env_steps executable step stop n w2 o') as [[[w3 os'] rs']|] eqn:E3; [|discriminate]. cbn [bind] in H.
      injection H as <- <- <-. destruct (IH _ _ _ _ _ E3) as (trs & R & -> & -> & (L1 & L2 & L3) & N).
      exists (mk_tr o' r (te || tu) :: trs). split; [econstructor; eauto|]. split; [reflexivity|]. split; [reflexivity|]. split; [|discriminate].
      split; [cbn; lia|]. split; [intros S; cbn; f_equal; auto|]. intros St. destruct (L3 St) as [M1 M2]. split.
      * intros [|i] t K Hi; cbn in K, Hi; [injection K as <-; cbn; rewrite St in D; exact D|]. apply (M1 i); auto. lia.
      * destruct M2 as [M2|(t & M2 & M3)]; [left; cbn; congruence|].
        destruct trs as [|t0 trs]; [cbn in M2; discriminate|]. right. exists t. split; [|exact M3]. cbn [length] in *.
        replace (S (S (length trs)) - 1) with (S (S (length trs) - 1)) by lia. exact M2.
Qed.
Lemma env_runs_spec k n : forall w w' oss rss, 0 < n -> env_runs reset executable step stop k n w = Ok (w', oss, rss) ->
  exists runs, run_sequence executable step reset stop n w runs w' /\ length runs = k /\
    oss = map (fun run => fst run :: map (@tr_obs O) (snd run)) runs /\
    rss = map (fun run => map (@tr_reward O) (snd run)) runs /\ Forall (fun run => snd run <> []) runs.
Proof.
  induction k as [|k IH]; intros w w' oss rss Hn H; cbn [env_runs] in H.
  - injection H as <- <- <-. exists []. split; [constructor|]. repeat split; constructor.
  - destruct (reset w) as [[w1 o]|] eqn:E1; [|discriminate]. cbn [bind] in H.
    destruct (env_steps executable step stop n w1 o) as [[[w2 os] rs]|] eqn:E2; [|discriminate]. cbn [bind] in H.
    destruct (env_runs reset executable step stop k n w2) as [[[w3 oss'] rss']|] eqn:E3; [|discriminate]. cbn [bind] in H.
    injection H as <- <- <-. destruct (env_steps_spec _ _ _ _ _ _ E2) as (trs & R & -> & -> & L & N).
    destruct (IH _ _ _ _ Hn E3) as (runs & RS & Len & -> & -> & F). exists ((o, trs) :: runs).
    split; [econstructor; eauto|]. split; [cbn; congruence|]. split; [reflexivity|]. split; [reflexivity|]. constructor; auto.
Qed.
End Env.

Lemma py_sum_acc l : forall a, (fold_left Qplus l a == a + fold_right Qplus 0 l)%Q.
Proof. induction l as [|x l IH]; intros a; cbn [fold_left fold_right]; [lra|]. rewrite IH. lra. Qed.
Lemma py_sum_map {A} (f g : A -> Q) l : (forall x, f x == g x)%Q -> (py_sum (map f l) == total g l)%Q.
Proof.
  intros E. unfold py_sum. rewrite py_sum_acc. unfold total. induction l as [|x l IH]; cbn [map fold_right]; [lra|]. rewrite (E x).
  rewrite Qplus_0_l in *. rewrite IH. reflexivity.
Qed.
Lemma total_one {A} (f : A -> Q) l : (total (fun x => 1 + f x) l == inject_Z (Z.of_nat (length l)) + total f l)%Q.
Proof.
  induction l as [|x l IH]; [reflexivity|]. change (total (fun x => 1 + f x) (x :: l))%Q with (1 + f x + total (fun x => 1 + f x) l)%Q.
  change (total f (x :: l)) with (f x + total f l)%Q. rewrite IH. cbn [length]. rewrite Nat2Z.inj_succ. unfold Z.succ. rewrite inject_Z_plus. change (inject_Z 1) with 1%Q. lra.
Qed.
Lemma evaluate_env {W O A} reset (executable : W -> O -> result (W * A)) step stop ft k n w w' q :
  0 < k -> 0 < n -> env_evaluate reset executable step stop ft k n w = Ok (w', q) ->
  exists runs, run_sequence executable step reset stop n w runs w' /\ length runs = k /\
    Forall (fun run => snd run <> []) runs /\
    match ft with
    | Reward => q == total collected runs / inject_Z (Z.of_nat k)
    | Survival => q == 1 + total steps_taken runs / inject_Z (Z.of_nat k)
    end%Q.
Proof.
  intros Hk Hn H. unfold env_evaluate in H. destruct (env_runs reset executable step stop k n w) as [[[w1 oss] rss]|] eqn:E; [|discriminate].
  cbn [bind] in H. injection H as <- <-. destruct (env_runs_spec _ _ _ _ _ _ _ _ _ _ Hn E) as (runs & R & L & -> & -> & F).
  exists runs. split; [exact R|]. split; [exact L|]. split; [exact F|].
  assert (P : (0 < inject_Z (Z.of_nat k))%Q) by (change 0%Q with (inject_Z 0); rewrite <- Zlt_Qlt; lia).
  destruct ft; unfold reward_fitness, survival_fitness, mean_of; rewrite !map_map, map_length, L.
  - rewrite (py_sum_map _ collected); [reflexivity|]. intros run. rewrite py_sum_map with (g := @tr_reward O); [reflexivity|reflexivity].
  - rewrite (py_sum_map _ (fun run => 1 + steps_taken run)%Q).
    + rewrite total_one, L. field. lra.
    + intros run. unfold steps_taken. cbn [length]. rewrite map_length, Nat2Z.inj_succ. unfold Z.succ. rewrite inject_Z_plus. change (inject_Z 1) with 1%Q. lra.
Qed.

(** ** spaces *)
Lemma fold_mul l : forall a, fold_left Nat.mul l a = a * fold_left Nat.mul l 1.
Proof. induction l as [|x l IH]; intros a; cbn [fold_left]; [lia|]. rewrite IH, (IH (1 * x)). lia. Qed.
Lemma cells_spec shape : exists cells, NoDup cells /\ (forall c, In c cells <-> cell shape c) /\ length cells = space_dimensions (Plain shape).
Proof.
  induction shape as [|n shape (cs & D & C & L)].
  - exists [[]]. split; [repeat constructor; auto|]. split; [|reflexivity]. intros c. split; [intros [<-|[]]; constructor|intros H; inversion H; left; auto].
  - exists (concat (map (fun i => map (cons i) cs) (seq 0 n))). cbn [space_dimensions fold_left] in *. rewrite fold_mul, <- L. clear L. split; [|split].
    + generalize 0. induction n as [|n IH]; intros s; cbn [seq map concat]; [constructor|].
      apply NoDup_app_intro; [apply Injective_map_NoDup; auto using cons_inj|apply IH|].
      intros x I J. apply in_map_iff in I. destruct I as (c & <- & _). apply in_concat in J. destruct J as (y & J & K).
      apply in_map_iff in J. destruct J as (i & <- & J). apply in_map_iff in K. destruct K as (d & K & _). injection K as -> _. apply in_seq in J. lia.
    + intros c. rewrite in_concat. split.
      * intros (y & J & K). apply in_map_iff in J. destruct J as (i & <- & J). apply in_map_iff in K. destruct K as (d & <- & K).
        apply in_seq in J. constructor; [lia|]. apply C, K.
      * intros H. inversion H as [|i ? d ? Hi Hd]; subst. exists (map (cons i) cs). split; [apply in_map_iff; exists i; split; [reflexivity|apply in_seq; lia]|].
        apply in_map, C, Hd.
    + rewrite Nat.mul_1_l. generalize 0. induction n as [|n IH]; intros s; cbn [seq map concat]; [reflexivity|]. rewrite app_length, map_length, IH. cbn. lia.
Qed.
Lemma tuple_dims shapes : space_dimensions (Tuple_ shapes) = fold_right (fun s acc => space_dimensions (Plain s) + acc) 0 shapes.
Proof.
  cbn [space_dimensions]. induction shapes as [|s r IH]; [reflexivity|]. cbn [map fold_left fold_right]. rewrite <- IH. rewrite fold_add. reflexivity.
Qed.

(** ** argmax *)
Lemma argmax_from_spec l : forall (pre : list Q) best v, nth_error pre best = Some v ->
  (forall j x, nth_error pre j = Some x -> x <= v)%Q -> (forall j x, nth_error pre j = Some x -> (j < best)%nat -> x < v)%Q ->
  exists y, nth_error (pre ++ l) (argmax_from best v (length pre) l) = Some y /\
    (forall j x, nth_error (pre ++ l) j = Some x -> x <= y)%Q /\
    (forall j x, nth_error (pre ++ l) j = Some x -> (j < argmax_from best v (length pre) l)%nat -> x < y)%Q.
Proof.
  induction l as [|x l IH]; intros pre best v N M1 M2; cbn [argmax_from].
  - rewrite app_nil_r. exists v. auto.
  - assert (Len : length (pre ++ [x]) = S (length pre)) by (rewrite app_length; cbn; lia).
    assert (App : pre ++ x :: l = (pre ++ [x]) ++ l) by (rewrite <- app_assoc; reflexivity). rewrite App.
    assert (Bl : best < length pre) by (apply nth_error_Some; congruence).
    assert (Cases : forall j y, nth_error (pre ++ [x]) j = Some y -> nth_error pre j = Some y \/ (j = length pre /\ y = x)).
    { intros j y H. destruct (Nat.lt_ge_cases j (length pre)); [left; rewrite nth_error_app1 in H; auto|right].
      rewrite nth_error_app2 in H by lia. destruct (j - length pre) as [|[|d]] eqn:Ed; cbn in H; try discriminate. split; [lia|congruence]. }
    destruct (Qltb v x) eqn:Hx.
    + apply Qltb_lt in Hx. rewrite <- Len. replace (length pre) with (length (pre ++ [x]) - 1) by lia. apply IH.
      * rewrite Len. replace (S (length pre) - 1) with (length pre) by lia. rewrite nth_error_app2, Nat.sub_diag by lia. reflexivity.
      * intros j y H. destruct (Cases j y H) as [K|[_ ->]]; [apply M1 in K; lra|lra].
      * intros j y H Hj. destruct (Cases j y H) as [K|[K _]]; [apply M1 in K; lra|lia].
    + assert (Hx' : (x <= v)%Q) by (apply Qnot_lt_le; intros K; apply Qltb_lt in K; congruence). rewrite <- Len. apply IH.
      * rewrite nth_error_app1; auto.
      * intros j y H. destruct (Cases j y H) as [K|[_ ->]]; [apply M1 in K; lra|lra].
      * intros j y H Hj. destruct (Cases j y H) as [K|[K _]]; [eapply M2; eauto|lia].
Qed.
Lemma argmax_spec {I} (wrapped : I -> result (list Q)) input v : wrapped input = Ok v -> v <> [] ->
  exists i y, argmax_call wrapped input = Ok i /\ nth_error v i = Some y /\
    (forall j x, nth_error v j = Some x -> x <= y)%Q /\ (forall j x, nth_error v j = Some x -> (j < i)%nat -> x < y)%Q.
Proof.
  intros E N. unfold argmax_call. rewrite E. cbn [bind]. destruct v as [|x r]; [congruence|].
  destruct (argmax_from_spec r [x] 0 x eq_refl) as (y & H1 & H2 & H3).
  - intros j z H. destruct j as [|[|j]]; cbn in H; try discriminate. injection H as <-. lra.
  - intros j z H Hj. lia.
  - exists (argmax_from 0 x 1 r), y. split; [reflexivity|]. auto.
Qed.
Lemma argmax_fails {I} (wrapped : I -> result (list Q)) input : 
  (wrapped input = Ok [] -> argmax_call wrapped input = Err ValueError) /\
  (forall e, wrapped input = Err e -> argmax_call wrapped input = Err e).
Proof. unfold argmax_call. split; [intros ->; reflexivity|intros e ->; reflexivity]. Qed.

(** ** the keyboard *)
Definition is_press (e : key_event) : bool := match e with Press _ => true | Release _ => false end.
Lemma key_release keymap post : forall a, forallb (fun e => negb (is_press e)) post = true ->
  fold_left (key_step keymap) post a =
  if existsb (fun e => match e with Release k => (keymap k =? a)%Z | Press _ => false end) post then 0%Z else a.
Proof.
  induction post as [|e post IH]; intros a H; [reflexivity|]. cbn [forallb] in H. apply andb_true_iff in H. destruct H as [H1 H2].
  destruct e as [k|k]; [discriminate|]. cbn [fold_left key_step existsb]. destruct (keymap k =? a)%Z eqn:E.
  - rewrite IH by auto. cbn [orb]. destruct (existsb _ post); reflexivity.
  - cbn [orb]. apply IH. exact H2.
Qed.
Lemma key_action_spec keymap pre k post : forallb (fun e => negb (is_press e)) post = true ->
  key_action keymap (pre ++ Press k :: post) =
  if existsb (fun e => match e with Release k' => (keymap k' =? keymap k)%Z | Press _ => false end) post then 0%Z else keymap k.
Proof. intros H. unfold key_action. rewrite fold_left_app. cbn [fold_left key_step]. apply key_release. exact H. Qed.
Lemma key_action_none keymap events : forallb (fun e => negb (is_press e)) events = true -> key_action keymap events = 0%Z.
Proof. intros H. unfold key_action. rewrite key_release by auto. destruct (existsb _ events); reflexivity. Qed.
Lemma keymap_digit d : (0 <= d <= 8)%Z -> default_keymap (48 + d) = d.
Proof. intros H. unfold default_keymap. destruct (Z.leb_spec 48 (48 + d)), (Z.ltb_spec (48 + d) 57); cbn [andb]; lia. Qed.
Lemma table_spec n : 0 < n -> exists table, enumerate_tt n = Ok table /\ complete_table n table /\ length table = 2 ^ n.
Proof. intros H. destruct n as [|n]; [lia|]. exact (enumerate_spec n). Qed.
Lemma releases (events : list key_event) : (forall e, In e events -> exists k', e = Release k') -> forallb (fun e => negb (is_press e)) events = true.
Proof. intros H. apply forallb_forall. intros e I. destruct (H e I) as [k' ->]. reflexivity. Qed.
Lemma keyboard_spec keymap pre post k : (forall e, In e post -> exists k', e = Release k') ->
  key_action keymap (pre ++ Press k :: post) =
  (if existsb (fun e => match e with Release k' => (keymap k' =? keymap k)%Z | Press _ => false end) post then 0%Z else keymap k).
Proof. intros H. apply key_action_spec, releases, H. Qed.
Lemma keyboard_idle keymap events : (forall e, In e events -> exists k', e = Release k') -> key_action keymap events = 0%Z.
Proof. intros H. apply key_action_none, releases, H. Qed.
Lemma env_raises {W O A} reset (executable : W -> O -> result (W * A)) step stop ft k n w e :
  env_evaluate reset executable step stop ft k n w = Err e ->
  (exists w1, reset w1 = Err e) \/ (exists w1 o, executable w1 o = Err e) \/ (exists w1 a, step w1 a = Err e).
Proof.
  assert (St : forall n w o, env_steps executable step stop n w o = Err e ->
    (exists w1 o, executable w1 o = Err e) \/ (exists w1 a, step w1 a = Err e)).
  { clear. induction n as [|n IH]; intros w o H; cbn [env_steps] in H; [discriminate|].
    destruct (executable w o) as [[w1 a]|e1] eqn:E1; cbn [bind] in H; [|injection H as ->; left; eauto].
    destruct (step w1 a) as [[w2 [[[o' r] te] tu]]|e1] eqn:E2; cbn [bind] in H; [|injection H as ->; right; eauto].
    destruct (stop && (te || tu)); [discriminate|]. destruct (env_steps executable step stop n w2 o') as [[[w3 os] rs]|e1] eqn:E3; cbn [bind] in H; [discriminate|].
    injection H as ->. eapply IH; eauto. }
  unfold env_evaluate. intros H. destruct (env_runs reset executable step stop k n w) as [[[w1 oss] rss]|e1] eqn:E; cbn [bind] in H; [discriminate|].
  injection H as ->. revert w E. induction k as [|k IH]; intros w E; cbn [env_runs] in E; [discriminate|].
  destruct (reset w) as [[w1 o]|e1] eqn:E1; cbn [bind] in E; [|injection E as ->; left; eauto].
  destruct (env_steps executable step stop n w1 o) as [[[w2 os] rs]|e1] eqn:E2; cbn [bind] in E; [|injection E as ->; right; eapply St; eauto].
  destruct (env_runs reset executable step stop k n w2) as [[[w3 oss'] rss']|e1] eqn:E3; cbn [bind] in E; [discriminate|].
  injection E as ->. eapply IH; eauto.
Qed.

Lemma decoded_argmax {G I} (decode : G -> result (I -> result (list Q))) (genome : G) :
  (forall e, decode genome = Err e -> wrapper_decode decode (fun ex => Ok (argmax_call ex)) genome = Err e) /\
  (forall ex, decode genome = Ok ex -> exists policy, wrapper_decode decode (fun ex => Ok (argmax_call ex)) genome = Ok policy /\
    forall input v, ex input = Ok v -> v <> [] -> exists i y, policy input = Ok i /\ nth_error v i = Some y /\
      (forall j x, nth_error v j = Some x -> x <= y)%Q /\ (forall j x, nth_error v j = Some x -> (j < i)%nat -> x < y)%Q).
Proof.
  unfold wrapper_decode. split.
  - intros e ->. reflexivity.
  - intros ex ->. eexists. split; [reflexivity|]. intros input v. apply argmax_spec.
Qed.
