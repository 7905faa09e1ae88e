(** Exactly which arguments are refused, and how. *)
From Coq Require Import Lia QArith.
From Verif Require Import Model.Base Model.PyList Model.Scalar Model.Selection Model.Distrib Model.Exploratory Model.ImageXY Model.Migration Model.Executable
  Model.ExecProbe Model.Rules Model.Pareto Model.Crowding Model.Problems Model.Analysis Model.Counters Model.Heap Model.HeapEa Model.HeapIslands
  Model.Algorithm Model.CoopRun Model.CsvProbe Model.CsvLog Model.CurvePlot
  Spec.Executable Spec.Refusals Proofs.Order Proofs.Distrib Proofs.Executable Proofs.CsvProbe.
Local Open Scope nat_scope.
Local Open Scope list_scope.

(** ** asynchronous insertion *)
Lemma replace_in_range G (mx : bool) coin (x : dind G) pop i : i < length pop -> exists pop', replace_if mx coin x pop i = Ok pop'.
Proof.
  intros H. unfold replace_if. destruct (nth_error pop i) as [old|] eqn:E; [|apply nth_error_None in E; lia].
  destruct (negb (d_viable old)); [eauto|]. destruct (ind_gt mx coin (d_ind x) (d_ind old)); eauto.
Qed.
Lemma tournament_insert_fails G (mx : bool) coin r (x : dind G) pop size e :
  tournament_insert mx coin r x pop size = Err e <-> pop = [] /\ size = 0 /\ e = ValueError.
Proof.
  unfold tournament_insert. destruct (length pop <? size) eqn:E.
  - split; [discriminate|]. intros (-> & -> & _). discriminate.
  - apply Nat.ltb_ge in E. destruct pop as [|p pop].
    + cbn in E. split; [intros [= <-]; repeat split; lia|intros (_ & _ & ->); reflexivity].
    + destruct (replace_in_range G mx coin x (p :: pop) (r mod length (p :: pop))) as (pop' & ->); [apply Nat.mod_upper_bound; discriminate|].
      split; [discriminate|]. intros (H & _). discriminate.
Qed.
Lemma greedy_insert_fails G (mx : bool) coin (x : dind G) pop size e :
  greedy_insert mx coin x pop size = Err e <-> pop = [] /\ size = 0 /\ e = ValueError.
Proof.
  unfold greedy_insert. destruct (length pop <? size) eqn:E.
  - split; [discriminate|]. intros (-> & -> & _). discriminate.
  - apply Nat.ltb_ge in E. destruct pop as [|p pop].
    + cbn in *. split; [intros [= <-]; repeat split; lia|intros (_ & _ & ->); reflexivity].
    + destruct (worst_index mx coin (p :: pop)) as [i|] eqn:W; [|discriminate W].
      assert (Hi : i < length (p :: pop)).
      { destruct (worst_index_ok G mx coin (p :: pop) ltac:(discriminate)) as (i' & old & W' & Hn & _). assert (i' = i) as <- by congruence.
        apply nth_error_Some. congruence. }
      destruct (replace_in_range G mx coin x (p :: pop) i Hi) as (pop' & ->). split; [discriminate|]. intros (H & _). discriminate.
Qed.

(** ** truth tables *)
Lemma enumerate_fails n e : enumerate_tt n = Err e <-> n = 0 /\ e = AssertionError.
Proof.
  destruct n as [|n]; [cbn; split; [intros [= <-]; auto|intros [_ ->]; reflexivity]|].
  assert (H : exists t, enumerate_tt (S n) = Ok t).
  { induction n as [|n [t IH]]; [eexists; reflexivity|]. cbn [enumerate_tt] in *. rewrite IH. cbn [bind]. eauto. }
  destruct H as (t & ->). split; [discriminate|intros [H _]; discriminate].
Qed.
Lemma map_zero_repeat (l : list nat) : map (fun _ => 0%Z) l = repeat 0%Z (length l).
Proof. induction l; cbn; congruence. Qed.
Lemma padded_filled pad n i : padded n pad i = filled pad n i.
Proof.
  unfold padded, filled. destruct pad; cbn [andb]; [|reflexivity]. destruct (length i <? n) eqn:E.
  - rewrite map_zero_repeat, seq_length. reflexivity.
  - apply Nat.ltb_ge in E. replace (n - length i) with 0 by lia. cbn. rewrite app_nil_r. reflexivity.
Qed.
Lemma score_fails O eqb (function executable : list Z -> result (list O)) n pad inputs : forall s e,
  tt_score eqb function executable n pad s inputs = Err e <-> first_trouble (row_fine function executable n pad) (row_bad function executable n pad) inputs e.
Proof.
  induction inputs as [|i rest IH]; intros s e.
  - cbn. split; [discriminate|]. intros ([|] & x & l2 & H & _); discriminate.
  - cbn [tt_score]. rewrite padded_filled. destruct (function i) as [ex|e1] eqn:Ef; cbn [bind].
    + destruct (length ex =? 0) eqn:El.
      * apply Nat.eqb_eq, length_zero_iff_nil in El. subst ex. split.
        -- intros [= <-]. exists [], i, rest. split; [reflexivity|]. split; [constructor|]. right; left. auto.
        -- intros ([|y l1] & x & l2 & H & F & B); cbn in H.
           ++ injection H as <- _. destruct B as [B|[[_ ->]|(ex & Ex & N & _)]]; [congruence|reflexivity|]. exfalso. apply N. congruence.
           ++ injection H as <- _. inversion F as [|? ? [(ex & Ex & N) _] _]. exfalso. apply N. congruence.
      * apply Nat.eqb_neq in El. assert (Ne : ex <> []) by (intros ->; apply El; reflexivity).
        destruct (executable (filled pad n i)) as [ob|e2] eqn:Eo; cbn [bind].
        -- rewrite IH. split.
           ++ intros (l1 & x & l2 & -> & F & B). exists (i :: l1), x, l2. split; [reflexivity|]. split; [constructor; [split; eauto|exact F]|exact B].
           ++ intros ([|y l1] & x & l2 & H & F & B); cbn in H.
              ** injection H as <- _. exfalso. destruct B as [B|[[B _]|(ex' & _ & _ & B)]]; congruence.
              ** injection H as <- ->. exists l1, x, l2. split; [reflexivity|]. split; [inversion F; assumption|exact B].
        -- split.
           ++ intros [= <-]. exists [], i, rest. split; [reflexivity|]. split; [constructor|]. right; right. eauto.
           ++ intros ([|y l1] & x & l2 & H & F & B); cbn in H.
              ** injection H as <- _. destruct B as [B|[[B _]|(ex' & _ & _ & B)]]; congruence.
              ** injection H as <- _. inversion F as [|? ? [_ (ob & Ob)] _]. congruence.
    + split.
      * intros [= <-]. exists [], i, rest. split; [reflexivity|]. split; [constructor|]. left. exact Ef.
      * intros ([|y l1] & x & l2 & H & F & B); cbn in H.
        -- injection H as <- _. destruct B as [B|[[B _]|(ex' & B & _)]]; congruence.
        -- injection H as <- _. inversion F as [|? ? [(ex & Ex & _) _] _]. congruence.
Qed.
Lemma truth_table_fails O eqb (function executable : list Z -> result (list O)) m pad n e :
  tt_evaluate eqb function executable m pad n = Err e <->
  n = 0 /\ e = AssertionError \/
  exists table, enumerate_tt n = Ok table /\ first_trouble (row_fine function executable m pad) (row_bad function executable m pad) table e.
Proof.
  unfold tt_evaluate. destruct (enumerate_tt n) as [t|e1] eqn:E; cbn [bind].
  - assert (Hn : n <> 0) by (intros ->; discriminate). destruct (tt_score eqb function executable m pad 0 t) as [s|e2] eqn:Es; cbn [bind].
    + split; [discriminate|]. intros [[H _]|(t' & [= <-] & H)]; [contradiction|]. apply (score_fails O eqb) with (s := 0%Z) in H. congruence.
    + split.
      * intros [= <-]. right. exists t. split; [reflexivity|]. apply (score_fails O eqb) in Es. exact Es.
      * intros [[H _]|(t' & [= <-] & H)]; [contradiction|]. apply (score_fails O eqb) with (s := 0%Z) in H. congruence.
  - apply enumerate_fails in E as [-> ->]. split; [intros [= <-]; auto|]. intros [[_ ->]|(t & H & _)]; [reflexivity|discriminate].
Qed.

(** ** exploratory landscape analysis *)
Lemma deltas_fail score design : forall draws e, (forall i j a, In (i, j, a) draws -> i < length design /\ j < length design) ->
  compute_deltas score design draws = Err e <-> first_trouble (test_fine score design) (test_bad score design) draws e.
Proof.
  induction draws as [|[[i j] a] r IH]; intros e Hd.
  - cbn. split; [discriminate|]. intros ([|] & x & l2 & H & _); discriminate.
  - destruct (Hd i j a (or_introl eq_refl)) as [Hi Hj]. assert (IH' := IH e (fun i j a H => Hd i j a (or_intror H))). clear IH.
    cbn [compute_deltas]. unfold convexity_test.
    destruct (nth_error design i) as [[x fx]|] eqn:Ei; [|apply nth_error_None in Ei; lia].
    destruct (nth_error design j) as [[y fy]|] eqn:Ej; [|apply nth_error_None in Ej; lia].
    unfold mix. destruct (length x =? length y) eqn:El; cbn [bind].
    + apply Nat.eqb_eq in El. fold (test_point x y a). destruct (score (test_point x y a)) as [v|e1] eqn:Ev; cbn [bind].
      * assert (T : test_fine score design (i, j, a)) by (exists x, fx, y, fy, v; auto).
        destruct (compute_deltas score design r) as [ds|e2]; cbn [bind].
        -- split; [discriminate|]. intros ([|d l1] & z & l2 & H & F & B); cbn in H.
           ++ injection H as <- _. exfalso. destruct B as (x' & fx' & y' & fy' & E1 & E2 & [[N _]|[_ N]]); congruence.
           ++ injection H as <- ->. assert (X : Ok ds = Err e) by (apply IH'; exists l1, z, l2; split; [reflexivity|split; [inversion F; assumption|exact B]]).
              discriminate X.
        -- rewrite IH'. split.
           ++ intros (l1 & z & l2 & -> & F & B). exists ((i, j, a) :: l1), z, l2. split; [reflexivity|]. split; [constructor; assumption|exact B].
           ++ intros ([|d l1] & z & l2 & H & F & B); cbn in H.
              ** injection H as <- _. exfalso. destruct B as (x' & fx' & y' & fy' & E1 & E2 & [[N _]|[_ N]]); congruence.
              ** injection H as <- ->. exists l1, z, l2. split; [reflexivity|split; [inversion F; assumption|exact B]].
      * split.
        -- intros [= <-]. exists [], (i, j, a), r. split; [reflexivity|]. split; [constructor|]. exists x, fx, y, fy. auto.
        -- intros ([|d l1] & z & l2 & H & F & B); cbn in H.
           ++ injection H as <- _. destruct B as (x' & fx' & y' & fy' & E1 & E2 & [[N _]|[_ N]]); congruence.
           ++ injection H as <- _. pose proof (Forall_inv F) as (x' & fx' & y' & fy' & v & E1 & E2 & _ & N). congruence.
    + apply Nat.eqb_neq in El. split.
      * intros [= <-]. exists [], (i, j, a), r. split; [reflexivity|]. split; [constructor|]. exists x, fx, y, fy. auto.
      * intros ([|d l1] & z & l2 & H & F & B); cbn in H.
        -- injection H as <- _. destruct B as (x' & fx' & y' & fy' & E1 & E2 & [[_ ->]|[N _]]); [reflexivity|congruence].
        -- injection H as <- _. pose proof (Forall_inv F) as (x' & fx' & y' & fy' & v & E1 & E2 & N & _). congruence.
Qed.
Lemma ela_fails score design draws e : (forall i j a, In (i, j, a) draws -> i < length design /\ j < length design) ->
  ela_init score design draws = Err e <->
  (length design <= 2 \/ draws = []) /\ e = AssertionError \/
  2 < length design /\ first_trouble (test_fine score design) (test_bad score design) draws e.
Proof.
  intros Hd. unfold ela_init. destruct (2 <? length design) eqn:E; cbn [negb].
  - apply Nat.ltb_lt in E. destruct draws as [|d draws].
    + cbn. split; [intros [= <-]; auto|]. intros [[_ ->]|[_ ([|] & x & l2 & H & _)]]; [reflexivity|discriminate|discriminate].
    + cbn [length Nat.ltb Nat.leb negb]. rewrite deltas_fail by exact Hd. split; [auto|]. intros [[[H|H] _]|[_ H]]; [lia|discriminate|exact H].
  - apply Nat.ltb_ge in E. split; [intros [= <-]; auto|]. intros [[_ ->]|[H _]]; [reflexivity|lia].
Qed.

Lemma counting_bounds (test : Q -> bool) : forall (l : list Q) c, (0 <= c)%Z ->
  let r := fold_left (fun c d => if test d then c + 1 else c)%Z l c in (c <= r <= c + Z.of_nat (length l))%Z.
Proof.
  induction l as [|x l IH]; intros c Hc; cbn [fold_left length]; [cbn; lia|].
  destruct (test x); [specialize (IH (c + 1)%Z ltac:(lia))|specialize (IH c Hc)]; cbn zeta in *; lia.
Qed.
Lemma ratio_fails test threshold (deltas : list Q) e :
  ratio_p test threshold deltas = Err e <->
  ~ (threshold < 0)%Q /\ e = AssertionError \/ (threshold < 0)%Q /\ deltas = [] /\ e = ZeroDivisionError.
Proof.
  unfold ratio_p. destruct (Qltb threshold 0) eqn:E; cbn [negb].
  - apply Qltb_lt in E. destruct (length deltas =? 0) eqn:El.
    + apply Nat.eqb_eq, length_zero_iff_nil in El. split; [intros [= <-]; auto|]. intros [[N _]|(_ & _ & ->)]; [contradiction|reflexivity].
    + apply Nat.eqb_neq in El. destruct (counting_bounds test deltas 0%Z ltac:(lia)) as [H1 H2].
      set (r := fold_left _ deltas 0%Z) in *.
      assert (P : (0 < inject_Z (Z.of_nat (length deltas)))%Q) by (unfold Qlt, inject_Z; cbn; lia).
      assert (L0 : Qle_bool 0 (inject_Z r / inject_Z (Z.of_nat (length deltas))) = true).
      { apply Qle_bool_iff. apply Qle_shift_div_l; [exact P|]. unfold Qle, Qmult, inject_Z. cbn. lia. }
      assert (L1 : Qle_bool (inject_Z r / inject_Z (Z.of_nat (length deltas))) 1 = true).
      { apply Qle_bool_iff. apply Qle_shift_div_r; [exact P|]. rewrite Qmult_1_l. rewrite <- Zle_Qle. lia. }
      rewrite L0, L1. cbn [negb]. split; [discriminate|]. intros [[N _]|(_ & -> & _)]; [contradiction|]. exfalso. apply El. reflexivity.
  - assert (N : ~ (threshold < 0)%Q) by (intros H; apply Qltb_lt in H; congruence).
    split; [intros [= <-]; auto|]. intros [[_ ->]|[H _]]; [reflexivity|contradiction].
Qed.

(** ** arrays *)
Lemma stack_fails (columns : list (list Q)) e :
  stack_columns columns = Err e <-> (columns = [] \/ exists c d, In c columns /\ In d columns /\ length c <> length d) /\ e = ValueError.
Proof.
  unfold stack_columns. destruct columns as [|c r]; [split; [intros [= <-]; auto|intros [_ ->]; reflexivity]|].
  destruct (forallb (fun d => length d =? length c) r) eqn:E.
  - split; [discriminate|]. intros [[H|(a & b & Ha & Hb & N)] _]; [discriminate|]. exfalso. apply N.
    rewrite forallb_forall in E. assert (X : forall d, In d (c :: r) -> length d = length c).
    { intros d [<-|Hd]; [reflexivity|]. apply Nat.eqb_eq, E, Hd. }
    rewrite (X a Ha), (X b Hb). reflexivity.
  - split; [|intros [_ ->]; reflexivity]. intros [= <-]. split; [|reflexivity]. right.
    assert (X : exists d, In d r /\ length d <> length c).
    { clear -E. induction r as [|d r IH]; [discriminate|]. cbn in E. destruct (length d =? length c) eqn:El.
      - destruct (IH E) as (d' & H & N). exists d'. split; [right; exact H|exact N].
      - exists d. split; [left; reflexivity|]. apply Nat.eqb_neq, El. }
    destruct X as (d & H & N). exists d, c. split; [right; exact H|]. split; [left; reflexivity|exact N].
Qed.

Lemma broadcast_fails A B C (f : A -> B -> result C) a b e : (forall x y, exists z, f x y = Ok z) ->
  broadcast f a b = Err e <-> length a <> length b /\ length a <> 1 /\ length b <> 1 /\ e = ValueError.
Proof.
  intros Hf. unfold broadcast. set (all2 := fix all2 (a : list A) (b : list B) := _).
  assert (T : forall a b, exists r, all2 a b = Ok r).
  { induction a0 as [|x a0 IH]; intros b0; [exists []; reflexivity|]. destruct b0 as [|y b0]; [exists []; reflexivity|].
    cbn. destruct (Hf x y) as (z & ->). cbn [bind]. destruct (IH b0) as (r & Er). fold all2. rewrite Er. cbn [bind]. eauto. }
  destruct (length a =? length b) eqn:E.
  - apply Nat.eqb_eq in E. destruct (T a b) as (r & ->). split; [discriminate|]. intros [N _]. contradiction.
  - apply Nat.eqb_neq in E. destruct b as [|y [|y' b]].
    + destruct a as [|x [|x' a]]; [contradiction| |].
      * destruct (T (repeat x (length (@nil B))) []) as (r & ->). split; [discriminate|]. intros (_ & N & _). exfalso. apply N. reflexivity.
      * split; [intros [= <-]; cbn; repeat split; discriminate|intros (_ & _ & _ & ->); reflexivity].
    + destruct (T a (repeat y (length a))) as (r & ->). split; [destruct a as [|? [|? ?]]; discriminate|]. intros (_ & _ & N & _). exfalso. apply N. reflexivity.
    + destruct a as [|x [|x' a]].
      * split; [intros [= <-]; cbn; repeat split; discriminate|intros (_ & _ & _ & ->); reflexivity].
      * destruct (T (repeat x (length (y :: y' :: b))) (y :: y' :: b)) as (r & ->). split; [discriminate|]. intros (_ & N & _). exfalso. apply N. reflexivity.
      * split; [intros [= <-]; split; [exact E|cbn; repeat split; discriminate]|intros (_ & _ & _ & ->); reflexivity].
Qed.

(** ** migration *)
Lemma set_nth_length_m {A} i (x : A) l : length (set_nth i x l) = length l.
Proof. revert i. induction l as [|y l IH]; intros [|i]; cbn; auto. Qed.

Lemma immigrate_works G (c : mig_call G) : finds_a_place c -> forall imms i pop, length pop = length (c_pop c) ->
  exists pop' atts, immigrate c i imms pop = Ok (pop', atts) /\ length pop' = length (c_pop c).
Proof.
  intros Hc. induction imms as [|imm rest IH]; intros i pop Hl; [exists pop, []; auto|]. cbn [immigrate].
  destruct (Hc i pop Hl) as (x & idx & r & -> & Hi). destruct (mind_ge (c_coin c i) (c_stamp c i imm) x).
  - assert (B : (idx <? length pop) = true) by (apply Nat.ltb_lt; lia). rewrite B.
    destruct (IH (S i) (set_nth idx (c_stamp c i imm) pop)) as (p' & atts & -> & Hp); [rewrite set_nth_length_m; exact Hl|]. eauto.
  - destruct (IH (S i) pop Hl) as (p' & atts & -> & Hp). eauto.
Qed.

Lemma emigrate_fails G gap neighbors (c : mig_call G) pop st e :
  emigrate gap neighbors c pop st = Err e <->
  gap = 0%Z /\ e = ZeroDivisionError \/
  gap <> 0%Z /\ (gap | c_gen c)%Z /\
    (c_sponsor c pop = Err e \/
     (exists s, c_sponsor c pop = Ok s) /\ e = IndexError /\
       forall dest, nth_error (neighbors (c_island c)) (c_dest c) = Some dest -> length (g_waiting st) <= dest).
Proof.
  unfold emigrate. destruct (gap =? 0)%Z eqn:Eg.
  - apply Z.eqb_eq in Eg. split; [intros [= <-]; auto|]. intros [[_ ->]|[N _]]; [reflexivity|contradiction].
  - apply Z.eqb_neq in Eg. destruct (c_gen c mod gap =? 0)%Z eqn:Em.
    + apply Z.eqb_eq in Em. assert (D : (gap | c_gen c)%Z) by (apply Z.mod_divide; assumption).
      destruct (c_sponsor c pop) as [s|e1] eqn:Es.
      * destruct (nth_error (neighbors (c_island c)) (c_dest c)) as [dest|] eqn:Ed.
        -- destruct (nth_error (g_waiting st) dest) as [w|] eqn:Ew.
           ++ split; [discriminate|]. intros [[N _]|(_ & _ & [H|(_ & _ & H)])]; [contradiction|discriminate|].
              specialize (H dest eq_refl). assert (dest < length (g_waiting st)) by (apply nth_error_Some; congruence). lia.
           ++ split.
              ** intros [= <-]. right. split; [exact Eg|]. split; [exact D|]. right. split; [eauto|]. split; [reflexivity|].
                 intros d [= <-]. apply nth_error_None, Ew.
              ** intros [[N _]|(_ & _ & [H|(_ & -> & _)])]; [contradiction|discriminate|reflexivity].
        -- split.
           ++ intros [= <-]. right. split; [exact Eg|]. split; [exact D|]. right. split; [eauto|]. split; [reflexivity|]. discriminate.
           ++ intros [[N _]|(_ & _ & [H|(_ & -> & _)])]; [contradiction|discriminate|reflexivity].
      * split.
        -- intros [= <-]. right. auto.
        -- intros [[N _]|(_ & _ & [H|((s & H) & _)])]; [contradiction|congruence|discriminate].
    + apply Z.eqb_neq in Em. split; [discriminate|]. intros [[N _]|(_ & D & _)]; [contradiction|]. exfalso. apply Em, Z.mod_divide; assumption.
Qed.

Lemma migration_fails G gap neighbors (c : mig_call G) st e : finds_a_place c ->
  (forall pop, length pop = length (c_pop c) -> exists s, c_sponsor c pop = Ok s) ->
  do_migrate gap neighbors st c = Err e <->
  length (g_waiting st) <= c_island c /\ e = IndexError \/
  c_island c < length (g_waiting st) /\
    (gap = 0%Z /\ e = ZeroDivisionError \/
     gap <> 0%Z /\ (gap | c_gen c)%Z /\ e = IndexError /\
       forall dest, nth_error (neighbors (c_island c)) (c_dest c) = Some dest -> length (g_waiting st) <= dest).
Proof.
  intros Hc Hs. unfold do_migrate. destruct (nth_error (g_waiting st) (c_island c)) as [imms|] eqn:Ei.
  - assert (Hi : c_island c < length (g_waiting st)) by (apply nth_error_Some; congruence).
    destruct (immigrate_works G c Hc imms 0 (c_pop c) eq_refl) as (pop' & atts & -> & Hp).
    set (st1 := mk_mig (set_nth (c_island c) [] (g_waiting st)) (g_next st)).
    assert (L1 : length (g_waiting st1) = length (g_waiting st)) by (unfold st1; cbn [g_waiting]; apply set_nth_length_m).
    pose proof (emigrate_fails G gap neighbors c pop' st1) as E. destruct (emigrate gap neighbors c pop' st1) as [[st2 sent]|e1].
    + split; [discriminate|]. intros [[N _]|[_ H]]; [lia|]. exfalso. assert (X : @Ok (mig_state G * option (nat * mind G * mind G)) (st2, sent) = Err e); [|discriminate X].
      apply E. destruct H as [H|(H1 & H2 & -> & H3)]; [left; exact H|]. right. split; [exact H1|]. split; [exact H2|]. right. rewrite L1. auto.
    + assert (X : @Err (mig_out G * mig_state G) e1 = Err e <-> e1 = e) by (split; [intros [= ->]; reflexivity|intros ->; reflexivity]). rewrite X.
      assert (Y : @Err (mig_state G * option (nat * mind G * mind G)) e1 = Err e <-> e1 = e) by (split; [intros [= ->]; reflexivity|intros ->; reflexivity]).
      rewrite <- Y, E, L1. destruct (Hs pop' Hp) as (s & Es). split.
      * intros [H|(H1 & H2 & [H|(_ & -> & H)])]; [right; auto|congruence|right; split; [exact Hi|]; right; auto].
      * intros [[N _]|[_ [H|(H1 & H2 & -> & H)]]]; [lia|left; exact H|]. right. split; [exact H1|]. split; [exact H2|]. right. eauto.
  - apply nth_error_None in Ei. split; [intros [= <-]; auto|]. intros [[_ ->]|[N _]]; [reflexivity|lia].
Qed.

(** a replacement selector that does not work, on the first immigrant *)
Lemma immigrant_without_place G gap neighbors (c : mig_call G) st imm rest :
  nth_error (g_waiting st) (c_island c) = Some (imm :: rest) ->
  (forall e, c_replace c 0 (c_pop c) = Err e -> do_migrate gap neighbors st c = Err e) /\
  (forall x, c_replace c 0 (c_pop c) = Ok (x, []) -> do_migrate gap neighbors st c = Err IndexError) /\
  (forall x idx r, c_replace c 0 (c_pop c) = Ok (x, idx :: r) -> length (c_pop c) <= idx ->
     mind_ge (c_coin c 0) (c_stamp c 0 imm) x = true -> do_migrate gap neighbors st c = Err IndexError).
Proof.
  intros E. unfold do_migrate. rewrite E. cbn [immigrate]. split; [|split].
  - intros e ->. reflexivity.
  - intros x ->. reflexivity.
  - intros x idx r -> Hi ->. assert (B : (idx <? length (c_pop c)) = false) by (apply Nat.ltb_ge; exact Hi). rewrite B. reflexivity.
Qed.

(** ** the rest *)
Lemma box_fails xlim ylim (r : rule) e :
  rule_box xlim ylim r = Err e <->
  length (conditions r) < 2 /\ e = ValueError \/ 2 <= length (conditions r) /\ actions r = [] /\ e = IndexError.
Proof.
  unfold rule_box. destruct (conditions r) as [|cx [|cy cs]].
  - cbn. split; [intros [= <-]; left; split; [lia|reflexivity]|intros [[_ ->]|[H _]]; [reflexivity|lia]].
  - cbn. split; [intros [= <-]; left; split; [lia|reflexivity]|intros [[_ ->]|[H _]]; [reflexivity|lia]].
  - destruct (if gene_ltb (snd cx) (fst cx) then (Some (fst xlim), Some (snd xlim)) else cx) as [xl xh].
    destruct (if gene_ltb (snd cy) (fst cy) then (Some (fst ylim), Some (snd ylim)) else cy) as [yl yh].
    destruct (actions r) as [|a rest].
    + split; [intros [= <-]; right; cbn; repeat split; lia|]. intros [[H _]|(_ & _ & ->)]; [cbn in H; lia|reflexivity].
    + split; [discriminate|]. intros [[H _]|(_ & H & _)]; [cbn in H; lia|discriminate].
Qed.
Lemma crowding_fails mx rank population d e :
  crowding_distance_calc mx rank population d = Err e <-> population = [] /\ e = IndexError.
Proof.
  unfold crowding_distance_calc. destruct population; [split; [intros [= <-]; auto|intros [_ ->]; reflexivity]|].
  split; [discriminate|intros [H _]; discriminate].
Qed.
Lemma image_fails img l e : image_problem img l = Err e <-> length l <> length img /\ e = AssertionError.
Proof.
  unfold image_problem. destruct (length l =? length img) eqn:E.
  - apply Nat.eqb_eq in E. split; [discriminate|]. intros [N _]. contradiction.
  - apply Nat.eqb_neq in E. split; [intros [= <-]; auto|intros [_ ->]; reflexivity].
Qed.
Lemma parse_fails parse : forall lines e,
  parse_all parse lines = Err e <-> e = ValueError /\ exists l, In l lines /\ parse l = None.
Proof.
  induction lines as [|l r IH]; intros e; [cbn; split; [discriminate|intros (_ & l & [] & _)]|]. cbn [parse_all].
  destruct (parse l) as [f|] eqn:El.
  - destruct (parse_all parse r) as [fs|e1] eqn:Er; cbn [bind].
    + split; [discriminate|]. intros (-> & l' & [<-|H] & N); [congruence|]. assert (X : Ok fs = Err ValueError) by (apply IH; eauto). discriminate X.
    + rewrite IH. split.
      * intros (-> & l' & H & N). split; [reflexivity|]. exists l'. split; [right; exact H|exact N].
      * intros (-> & l' & [<-|H] & N); [congruence|]. eauto.
  - split; [intros [= <-]; split; [reflexivity|]; exists l; cbn; auto|]. intros (-> & _). reflexivity.
Qed.
Lemma external_fails X show run parse (phenomes : list (list X)) e :
  external_multiple show run parse phenomes = Err e <->
  let '(code, out) := run (process_input show phenomes) in
  let lines := removelast (split 10 out) in
  code <> 0%Z /\ e = RuntimeError \/
  code = 0%Z /\ (exists l, In l lines /\ parse l = None) /\ e = ValueError \/
  code = 0%Z /\ (forall l, In l lines -> parse l <> None) /\ length lines <> length phenomes /\ e = RuntimeError.
Proof.
  unfold external_multiple. destruct (run (process_input show phenomes)) as [code out]. cbn zeta.
  set (lines := removelast (split 10 out)). destruct (code =? 0)%Z eqn:Ec; cbn [negb].
  - apply Z.eqb_eq in Ec. pose proof (parse_fails parse lines) as P. destruct (parse_all parse lines) as [fs|e1] eqn:Ep; cbn [bind].
    + assert (Hl : length fs = length lines).
      { clear -Ep. revert fs Ep. induction lines as [|l r IH]; intros fs E; cbn in E; [injection E as <-; reflexivity|].
        destruct (parse l); [|discriminate]. destruct (parse_all parse r) as [gs|]; [|discriminate]. injection E as <-. cbn. f_equal. apply IH. reflexivity. }
      assert (Hn : forall l, In l lines -> parse l <> None).
      { intros l H N. assert (Y : Ok fs = Err ValueError) by (apply P; eauto). discriminate Y. }
      rewrite Hl. destruct (length lines =? length phenomes) eqn:El.
      * apply Nat.eqb_eq in El. split; [discriminate|]. intros [[N _]|[(_ & (l & H & N) & _)|(_ & _ & N & _)]]; [contradiction|exfalso; exact (Hn l H N)|contradiction].
      * apply Nat.eqb_neq in El. split; [intros [= <-]; right; right; auto|].
        intros [[N _]|[(_ & (l & H & N) & _)|(_ & _ & _ & ->)]]; [contradiction|exfalso; exact (Hn l H N)|reflexivity].
    + destruct (proj1 (P e1) eq_refl) as (-> & l & H & N). split.
      * intros [= <-]. right; left. eauto.
      * intros [[Nc _]|[(_ & _ & ->)|(_ & Ha & _)]]; [contradiction|reflexivity|exfalso; exact (Ha l H N)].
  - apply Z.eqb_neq in Ec. split; [intros [= <-]; auto|]. intros [[_ ->]|[(N & _)|(N & _)]]; [reflexivity|contradiction|contradiction].
Qed.

(** ** populations without individuals *)
Lemma fast_sort_fails gt fuel population parents before e :
  fast_nondominated_sort gt fuel population parents before = Some (Err e) <-> population = [] /\ e = IndexError.
Proof.
  unfold fast_nondominated_sort. destruct population as [|x r]; [split; [intros [= <-]; auto|intros [_ ->]; reflexivity]|].
  destruct (fns_first _ _ _ _ _) as [st front]. destruct (fns_loop _ _ _ _) as [st'|]; split; try discriminate; intros [H _]; discriminate.
Qed.
Lemma ordinal_sort_fails mx population parents before e :
  rank_ordinal_sort mx population parents before = Err e <->
  population = [] /\ (parents = None \/ parents = Some []) /\ e = IndexError.
Proof.
  unfold rank_ordinal_sort. destruct parents as [ps|].
  - destruct population as [|x r].
    + destruct ps as [|y ps]; cbn [app].
      * split; [intros [= <-]; auto|intros (_ & _ & ->); reflexivity].
      * split; [discriminate|]. intros (_ & [H|H] & _); discriminate.
    + cbn [app]. split; [discriminate|]. intros (H & _). discriminate.
  - destruct population as [|x r]; [split; [intros [= <-]; auto|intros (_ & _ & ->); reflexivity]|].
    split; [discriminate|]. intros (H & _). discriminate.
Qed.
Lemma cat_fails files e : cat_csv_files files = Err e <-> files = [] /\ e = ValueError.
Proof. destruct files; cbn; split; try discriminate; try (intros [H _]; discriminate); [intros [= <-]; auto|intros [_ ->]; reflexivity]. Qed.

(** ** individuals in memory *)
Lemma compared_none G P (w : world G P num) : forall l, compared w l = None <-> exists i, In i l /\ i_fitness (w_ind w i) = None.
Proof.
  induction l as [|i r IH]; cbn [compared]; [split; [discriminate|intros (i & [] & _)]|].
  destruct (i_fitness (w_ind w i)) as [f|] eqn:E.
  - destruct (compared w r) as [s|].
    + split; [discriminate|]. intros (j & [<-|H] & N); [congruence|]. assert (X : Some s = None) by (apply IH; eauto). discriminate X.
    + split; [|reflexivity]. intros _. destruct (proj1 IH eq_refl) as (j & H & N). exists j. split; [right; exact H|exact N].
  - split; [|reflexivity]. intros _. exists i. split; [left; reflexivity|exact E].
Qed.
Lemma survive_fails G P (mx : bool) coin k i (w : world G P num) offspring parents e :
  survive mx coin k i w offspring parents = Err e <->
  (exists x, In x (offspring ++ parents) /\ i_fitness (w_ind w x) = None) /\ e = TypeError.
Proof.
  unfold survive. pose proof (compared_none G P w offspring) as A. pose proof (compared_none G P w parents) as B.
  destruct (compared w offspring) as [o|]; [destruct (compared w parents) as [p|]|].
  - split; [discriminate|]. intros ((x & Hx & N) & _). apply in_app_or in Hx as [Hx|Hx].
    + assert (X : Some o = None) by (apply A; eauto). discriminate X.
    + assert (X : Some p = None) by (apply B; eauto). discriminate X.
  - destruct (proj1 B eq_refl) as (x & Hx & N). split; [intros [= <-]|intros [_ ->]; reflexivity].
    split; [|reflexivity]. exists x. split; [apply in_or_app; auto|exact N].
  - destruct (proj1 A eq_refl) as (x & Hx & N). split; [intros [= <-]|intros [_ ->]; reflexivity].
    split; [|reflexivity]. exists x. split; [apply in_or_app; auto|exact N].
Qed.

Lemma heap_emigration_fails G P sponsor draw neighbors gap g i generation (w : world G P num) pop waiting e :
  emigration sponsor draw neighbors gap g i generation w pop waiting = Err e <->
  gap = 0%Z /\ e = ZeroDivisionError \/
  gap <> 0%Z /\ (gap | generation)%Z /\ e = IndexError /\
    (length pop <= sponsor g i w pop \/
     forall dest, nth_error (neighbors i) (draw g i) = Some dest -> length waiting <= dest).
Proof.
  unfold emigration. destruct (gap =? 0)%Z eqn:Eg.
  - apply Z.eqb_eq in Eg. split; [intros [= <-]; auto|]. intros [[_ ->]|[N _]]; [reflexivity|contradiction].
  - apply Z.eqb_neq in Eg. destruct (generation mod gap =? 0)%Z eqn:Em.
    + apply Z.eqb_eq in Em. assert (D : (gap | generation)%Z) by (apply Z.mod_divide; assumption).
      destruct (nth_error pop (sponsor g i w pop)) as [s|] eqn:Es.
      * assert (Hs : sponsor g i w pop < length pop) by (apply nth_error_Some; congruence).
        destruct (clone w s) as [emi w1]. destruct (nth_error (neighbors i) (draw g i)) as [dest|] eqn:Ed.
        -- destruct (nth_error waiting dest) as [l|] eqn:Ew.
           ++ split; [discriminate|]. intros [[N _]|(_ & _ & _ & [H|H])]; [contradiction|lia|].
              specialize (H dest eq_refl). assert (dest < length waiting) by (apply nth_error_Some; congruence). lia.
           ++ split; [|intros [[N _]|(_ & _ & -> & _)]; [contradiction|reflexivity]].
              intros [= <-]. right. split; [exact Eg|]. split; [exact D|]. split; [reflexivity|]. right. intros d [= <-]. apply nth_error_None, Ew.
        -- split; [|intros [[N _]|(_ & _ & -> & _)]; [contradiction|reflexivity]].
           intros [= <-]. right. split; [exact Eg|]. split; [exact D|]. split; [reflexivity|]. right. discriminate.
      * split; [|intros [[N _]|(_ & _ & -> & _)]; [contradiction|reflexivity]].
        intros [= <-]. right. split; [exact Eg|]. split; [exact D|]. split; [reflexivity|]. left. apply nth_error_None, Es.
    + apply Z.eqb_neq in Em. split; [discriminate|]. intros [[N _]|(_ & D & _)]; [contradiction|]. exfalso. apply Em, Z.mod_divide; assumption.
Qed.

Lemma heap_migration_fails G P decoder_of problem_of direction island_problem stamps replace coin sponsor draw neighbors gap g i generation
    (w : world G P num) pop waiting :
  let run := migration decoder_of problem_of direction island_problem stamps replace coin sponsor draw neighbors gap g i generation w pop waiting in
  (length waiting <= i -> run = Err IndexError) /\
  (nth_error waiting i = Some [] -> forall e, run = Err e <->
     emigration sponsor draw neighbors gap g i generation w pop waiting = Err e) /\
  (forall imm rest, nth_error waiting i = Some (imm :: rest) ->
     let '(r, w1) := customs decoder_of problem_of island_problem stamps i w imm in
     (forall e, r = Err e -> run = Err e) /\
     (r = Ok tt -> length pop <= replace g i 0 w1 pop -> run = Err IndexError) /\
     (r = Ok tt -> forall x, nth_error pop (replace g i 0 w1 pop) = Some x ->
        i_fitness (w_ind w1 imm) = None \/ i_fitness (w_ind w1 x) = None -> run = Err TypeError)).
Proof.
  intros run. unfold run, migration. split; [|split].
  - intros H. apply nth_error_None in H. rewrite H. reflexivity.
  - intros E e. rewrite E. cbn [immigration bind].
    assert (L : length (set_nth i [] waiting) = length waiting) by apply set_nth_length_m.
    rewrite heap_emigration_fails. rewrite <- L, <- (heap_emigration_fails G P sponsor draw neighbors gap g i generation w pop (set_nth i [] waiting) e).
    destruct (emigration sponsor draw neighbors gap g i generation w pop (set_nth i [] waiting)) as [[wt w2]|e1]; cbn [bind];
      [split; discriminate|split; intros [= ->]; reflexivity].
  - intros imm rest E. rewrite E. cbn [immigration]. destruct (customs decoder_of problem_of island_problem stamps i w imm) as [[[]|e0] w1].
    + split; [discriminate|]. split.
      * intros _ H. apply nth_error_None in H. rewrite H. reflexivity.
      * intros _ x Hx N. rewrite Hx. unfold admitted. destruct N as [-> | ->]; [reflexivity|].
        destruct (i_fitness (w_ind w1 imm)); reflexivity.
    + split; [intros e [= ->]; reflexivity|]. split; discriminate.
Qed.

(** ** cooperative coevolution *)
Lemma chunks_fail G sel trials combine score n g (v : view (member G)) : forall fuel k population e, length population <= fuel -> 0 < n ->
  evaluate_chunks sel trials combine score fuel n k g v population = Err e ->
  exists j, j < length population /\ evaluate_multiple sel trials combine score (k + j) g v (firstn n (skipn j population)) = Err e.
Proof.
  induction fuel as [|fuel IH]; intros k population e Hl Hn E; [destruct population; [discriminate|cbn in Hl; lia]|].
  destruct population as [|m r]; [discriminate|]. cbn [evaluate_chunks] in E.
  destruct (evaluate_multiple sel trials combine score k g v (firstn n (m :: r))) as [fs|e1] eqn:E1; cbn [bind] in E.
  - destruct (evaluate_chunks sel trials combine score fuel n (k + n) g v (skipn n (m :: r))) as [gs|e2] eqn:E2; cbn [bind] in E; [discriminate|].
    injection E as ->. apply IH in E2 as (j & Hj & E2); [|rewrite skipn_length; cbn [length] in *; lia|exact Hn].
    exists (n + j). rewrite skipn_length in Hj. split; [lia|]. rewrite Nat.add_assoc.
    replace (skipn (n + j) (m :: r)) with (skipn j (skipn n (m :: r))); [exact E2|].
    clear. generalize (m :: r). induction n as [|n IHn]; intros l; [reflexivity|]. destruct l; [rewrite !skipn_nil; reflexivity|]. cbn [skipn Nat.add]. apply IHn.
  - injection E as ->. exists 0. rewrite Nat.add_0_r. cbn [skipn]. split; [cbn; lia|exact E1].
Qed.
Lemma grouped_fails G sel trials combine score chunk g (v : view (member G)) population :
  (population = [] -> grouped_coop sel trials combine score chunk g v population = Err IndexError) /\
  (population <> [] -> chunk = Some 0 -> grouped_coop sel trials combine score chunk g v population = Err ValueError) /\
  (population <> [] -> chunk <> Some 0 -> forall e, grouped_coop sel trials combine score chunk g v population = Err e ->
     exists j n, j < length population /\ 0 < n /\
       evaluate_multiple sel trials combine score j g v (firstn n (skipn j population)) = Err e).
Proof.
  unfold grouped_coop. split; [intros ->; reflexivity|]. destruct population as [|m r]; [split; congruence|]. split.
  - intros _ ->. reflexivity.
  - intros _ Hc e. set (n := match chunk with Some n => n | None => length (m :: r) end).
    assert (Hn : 0 < n) by (unfold n; destruct chunk as [[|c]|]; [congruence|lia|cbn; lia]).
    assert (B : (n =? 0) = false) by (apply Nat.eqb_neq; lia). rewrite B.
    destruct (evaluate_chunks sel trials combine score (length (m :: r)) n 0 g v (m :: r)) as [fs|e1] eqn:E; cbn [bind]; [discriminate|].
    intros [= ->]. apply chunks_fail in E as (j & Hj & E); [|lia|exact Hn]. exists j, n. auto.
Qed.
Lemma no_trials G sel generation subpopulation show_int show show_genome own_fitness (x : cind G) current subpops out :
  coop_op_logged sel generation subpopulation show_int show show_genome own_fitness 0 x current subpops out = (Err ValueError, out).
Proof. reflexivity. Qed.

(** ** keywords *)
Lemma keywords_fail required optional given e :
  bind_keywords required optional given = Err e <->
  e = TypeError /\ ((exists c, In c given /\ ~ In c (required ++ optional)) \/ exists c, In c required /\ ~ In c given).
Proof.
  assert (T : forall l c, existsb (text_eqb c) l = true <-> In c l).
  { intros l c. rewrite existsb_exists. split.
    - intros (d & Hd & E). apply text_eqb_eq in E. subst d. exact Hd.
    - intros H. exists c. split; [exact H|]. apply text_eqb_eq. reflexivity. }
  assert (D : forall l l', forallb (fun c => existsb (text_eqb c) l) l' = false <-> exists c, In c l' /\ ~ In c l).
  { intros l. induction l' as [|c l' IH]; cbn [forallb]; [split; [discriminate|intros (c & [] & _)]|].
    destruct (existsb (text_eqb c) l) eqn:E; cbn [andb].
    - rewrite IH. split; [intros (d & H & N); exists d; split; [right; exact H|exact N]|].
      intros (d & [<-|H] & N); [exfalso; apply N, T, E|eauto].
    - split; [|reflexivity]. intros _. exists c. split; [left; reflexivity|]. intros H. apply T in H. congruence. }
  unfold bind_keywords. cbn zeta.
  pose proof (D (required ++ optional) given) as D1. pose proof (D given required) as D2.
  destruct (forallb (fun c => existsb (text_eqb c) (required ++ optional)) given); cbn [negb].
  - destruct (forallb (fun c => existsb (text_eqb c) given) required); cbn [negb].
    + split; [discriminate|]. intros (_ & [H|H]); [apply D1 in H|apply D2 in H]; discriminate.
    + split; [intros [= <-]; split; [reflexivity|right; apply D2; reflexivity]|intros [-> _]; reflexivity].
  - split; [intros [= <-]; split; [reflexivity|left; apply D1; reflexivity]|intros [-> _]; reflexivity].
Qed.

(** ** rule systems and branding *)
Lemma rules_fail n rules m mem e :
  make_executable n rules m mem = Err e <-> rules = [] /\ e = AssertionError \/ rules <> [] /\ m <> Some RULE_ORDER /\ e = ValueError.
Proof.
  unfold make_executable. destruct rules as [|r rules].
  - split; [intros [= <-]; auto|]. intros [[_ ->]|[N _]]; [reflexivity|congruence].
  - assert (P : forall k a, m = Some RULE_ORDER -> exists ps, priorities_from a k m = Ok ps).
    { induction k as [|k IH]; intros a ->; cbn; [eauto|]. destruct (IH (S a) eq_refl) as (ps & ->). cbn. eauto. }
    destruct m as [[]|] eqn:Em.
    all: try (destruct (P (length (r :: rules)) 0 eq_refl) as (ps & ->); cbn [bind]; split; [discriminate|]; intros [[H _]|(_ & N & _)]; [discriminate|congruence]).
    all: cbn; split; [intros [= <-]; right; repeat split; discriminate|]; intros [[H _]|(_ & _ & ->)]; [discriminate|reflexivity].
Qed.
Lemma branding_ends len b l e :
  (fst (brand_pull len (SGen l) b) = Err e <-> l = [] /\ e = RuntimeError) /\
  (br_iter b = None -> (fst (brand_pull len (SList l) b) = Err e <-> l = [] /\ e = RuntimeError)).
Proof.
  split; [|intros Hb]; destruct l as [|x r]; cbn; rewrite ?Hb; cbn; split; try discriminate; try (intros [H _]; discriminate);
    try (intros [= <-]; auto); try (intros [_ ->]; reflexivity).
Qed.

(** examples: a target that raises, and then has no outputs; an island with one individual *)
Definition x104_target (i : list Z) : result (list Z) :=
  match i with [1; 0]%Z => Err (UserError 7) | [1; 1]%Z => Ok [] | _ => Ok [0%Z] end.
Definition x104_call (gen : Z) : mig_call nat :=
  let x := mk_mind 0 7 true (NInt 1) in
  mk_call 0 gen [x] (fun _ m => m) (fun _ pop => Ok (hd x pop, [0])) (fun _ => true) (fun pop => Ok (hd x pop)) 0.
