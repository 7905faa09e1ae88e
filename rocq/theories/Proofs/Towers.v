From Verif Require Import Model.Base Model.RealProblems Model.Towers Spec.Problems Spec.RealProblems Spec.Towers.
From Verif Require Import Proofs.Sums Proofs.RealProblems.
From Coq Require Import Lia Lqa Qfield.
Local Open Scope nat_scope.
Local Open Scope list_scope.

(** ** Building *)
Lemma list_eq_nil_or_snoc {A} (l : list A) : l = [] \/ exists x r, l = r ++ [x].
Proof. induction l as [|x l _] using rev_ind; [left; reflexivity|right; eauto]. Qed.
Lemma declared_app b ws vs : declared b (ws ++ vs) = declared (declared b ws) vs.
Proof. revert b. induction ws as [|w ws IH]; intros b; [reflexivity|]. destruct w; cbn [app declared]; apply IH. Qed.
Lemma build_app base ws vs : build base (ws ++ vs) = bind (build base ws) (fun o => build o vs).
Proof.
  revert base. induction ws as [|w ws IH]; intros base; [reflexivity|]. cbn [app build]. destruct (wrap w base) as [o|e]; cbn [bind]; [apply IH|reflexivity].
Qed.

Lemma inherit_ok m o : (exists r, inherit m o = Ok r) <-> (m <> None \/ o_maximize o <> None).
Proof.
  unfold inherit. destruct m as [m|]; [split; [intros _; left; discriminate|eauto]|]. destruct (o_maximize o).
  - split; [intros _; right; discriminate|eauto].
  - split; [intros [? [=]]|intros [[]|[]]; reflexivity].
Qed.

Lemma wrap_facts w o o' : wrap w o = Ok o' ->
  o_bounds o' = declared (o_bounds o) [w] /\ (o_maximize o' <> None <-> ~ averages w) /\
  (exists r, inherit (told w) o = Ok r /\ o_direction o' = r /\ o_maximize o' = Some r) \/
  averages w /\ o_bounds o' = None /\ o_maximize o' = None /\ o_direction o' = o_direction o.
Proof.
  destruct w as [of mx|nb mx|mat mx|v mx|n]; cbn [wrap told declared].
  - destruct (inherit mx o) as [r|]; cbn [bind]; [|discriminate]. intros [= <-]. left. cbn. split; [reflexivity|]. split.
    + split; [intros _ [? [=]]|discriminate].
    + eauto.
  - destruct (inherit mx o) as [r|]; cbn [bind]; [|discriminate]. destruct (o_bounds o); [|discriminate]. intros [= <-]. left. cbn. split; [reflexivity|]. split.
    + split; [intros _ [? [=]]|discriminate].
    + eauto.
  - destruct (inherit mx o) as [r|]; cbn [bind]; [|discriminate]. destruct (matrix_problem mat); cbn [bind]; [|discriminate]. intros [= <-]. left. cbn. split; [reflexivity|]. split.
    + split; [intros _ [? [=]]|discriminate].
    + eauto.
  - destruct (inherit mx o) as [r|]; cbn [bind]; [|discriminate]. intros [= <-]. left. cbn. split; [reflexivity|]. split.
    + split; [intros _ [? [=]]|discriminate].
    + eauto.
  - destruct (0 <? n); [|discriminate]. intros [= <-]. right. cbn. split; [exists n; reflexivity|]. auto.
Qed.
Lemma wrap_bounds w o o' : wrap w o = Ok o' -> o_bounds o' = declared (o_bounds o) [w].
Proof. intros H. destruct (wrap_facts _ _ _ H) as [[E _]|((n & ->) & E & _)]; exact E. Qed.
Lemma wrap_says w o o' : wrap w o = Ok o' -> (o_maximize o' <> None <-> ~ averages w).
Proof. intros H. destruct (wrap_facts _ _ _ H) as [(_ & E & _)|(A & _ & E & _)]; [exact E|]. rewrite E. tauto. Qed.

Lemma build_bounds ws : forall o o', build o ws = Ok o' -> o_bounds o' = declared (o_bounds o) ws.
Proof.
  induction ws as [|w ws IH]; intros o o'; cbn [build]; [intros [= <-]; reflexivity|].
  destruct (wrap w o) as [p|] eqn:E; cbn [bind]; [|discriminate]. intros H. rewrite (IH _ _ H), (wrap_bounds _ _ _ E).
  symmetry. apply (declared_app _ [w] ws).
Qed.
Lemma build_says ws o o' : build o ws = Ok o' -> (o_maximize o' <> None <-> says o ws).
Proof.
  unfold says. destruct (list_eq_nil_or_snoc ws) as [->|(w & ws' & ->)]; [intros [= <-]; reflexivity|]. rename ws' into ws. rewrite rev_app_distr. cbn [rev app].
  rewrite build_app. destruct (build o ws) as [p|]; cbn [bind build]; [|discriminate].
  destruct (wrap w p) as [q|] eqn:E; cbn [bind]; [|discriminate]. intros [= <-]. exact (wrap_says _ _ _ E).
Qed.

Lemma wrap_ok o p inner w : build o inner = Ok p -> (exists q, wrap w p = Ok q) <-> allowed o inner w.
Proof.
  intros H. pose proof (build_says _ _ _ H) as S'. pose proof (build_bounds _ _ _ H) as B.
  assert (I : forall m, (exists r, inherit m p = Ok r) <-> (m <> None \/ says o inner)).
  { intros m. rewrite inherit_ok. tauto. }
  destruct w as [of mx|nb mx|mat mx|v mx|n]; cbn [wrap allowed].
  - rewrite <- I. destruct (inherit mx p) as [r|]; cbn [bind]; split; intros [? K]; try discriminate; eauto.
  - rewrite <- I, <- B. destruct (inherit mx p) as [r|]; cbn [bind].
    + destruct (o_bounds p); [split; [intros _; split; [eauto|discriminate]|eauto]|].
      split; [intros [? [=]]|intros [_ K]; destruct K; reflexivity].
    + split; [intros [? [=]]|intros [[? [=]] _]].
  - rewrite <- I, <- matrix_problem_spec. destruct (inherit mx p) as [r|]; cbn [bind].
    + destruct (matrix_problem mat) as [m|]; cbn [bind]; [split; [intros _; split; eauto|eauto]|].
      split; [intros [? [=]]|intros [_ [? [=]]]].
    + split; [intros [? [=]]|intros [[? [=]] _]].
  - rewrite <- I. destruct (inherit mx p) as [r|]; cbn [bind]; split; intros [? K]; try discriminate; eauto.
  - destruct (0 <? n) eqn:E; [apply Nat.ltb_lt in E; split; eauto|]. apply Nat.ltb_ge in E. split; [intros [? [=]]|lia].
Qed.

Lemma build_ok base ws : (exists o, build base ws = Ok o) <-> forall inner w outer, ws = inner ++ w :: outer -> allowed base inner w.
Proof.
  induction ws as [|w ws IH] using rev_ind.
  - split; [intros _ [|? ?] ? ? K; discriminate K|intros _; eexists; reflexivity].
  - split.
    + intros [o H]. rewrite build_app in H. destruct (build base ws) as [p|] eqn:E; cbn [bind build] in H; [|discriminate].
      destruct (wrap w p) as [q|] eqn:F; cbn [bind] in H; [|discriminate]. intros inner w' outer K.
      destruct (list_eq_nil_or_snoc outer) as [->|(u & outer' & ->)].
      * apply app_inj_tail in K. destruct K as [-> ->]. apply (wrap_ok base p inner w' E). eauto.
      * rewrite app_comm_cons, app_assoc in K. apply app_inj_tail in K. destruct K as [K _]. apply (proj1 IH (ex_intro _ p eq_refl) inner w' outer' K).
    + intros H. destruct (proj2 IH) as [p E].
      { intros inner w' outer K. apply (H inner w' (outer ++ [w])). rewrite K, <- app_assoc. reflexivity. }
      destruct (proj2 (wrap_ok base p ws w E)) as [q F]; [apply (H ws w []); reflexivity|].
      exists q. rewrite build_app, E. cbn [bind build]. rewrite F. reflexivity.
Qed.

(** ** Direction and bounds *)
Lemma inherit_err m p e : inherit m p = Err e -> e = AttributeError /\ m = None /\ o_maximize p = None.
Proof. unfold inherit. destruct m; [discriminate|]. destruct (o_maximize p); [discriminate|]. intros [= <-]. auto. Qed.

Lemma wrap_err o p inner w e : build o inner = Ok p -> wrap w p = Err e -> refused_with o inner w e.
Proof.
  intros H. pose proof (build_says _ _ _ H) as S'. pose proof (build_bounds _ _ _ H) as B.
  assert (I : forall m e, inherit m p = Err e -> e = AttributeError /\ m = None /\ ~ says o inner).
  { intros m e' K. apply inherit_err in K. destruct K as (-> & -> & K). repeat split; auto. rewrite <- S'. intros C. contradiction. }
  destruct w as [of mx|nb mx|mat mx|v mx|n]; cbn [wrap refused_with]; intros K.
  - destruct (inherit mx p) eqn:E; cbn [bind] in K; [discriminate|]. injection K as ->. apply (I _ _ E).
  - destruct (inherit mx p) eqn:E; cbn [bind] in K; [|injection K as ->; left; apply (I _ _ E)].
    rewrite <- B. destruct (o_bounds p); [discriminate|]. injection K as <-. auto.
  - destruct (inherit mx p) eqn:E; cbn [bind] in K; [|injection K as ->; left; apply (I _ _ E)]. right.
    destruct mat as [|r mat]; cbn [matrix_problem bind] in K; [injection K as <-; auto|]. right.
    cbn [hd]. destruct (Nat.eqb_spec (length (r :: mat)) (length r)) as [Hl|Hl].
    + destruct (forallb (fun row => length row =? length r) (r :: mat)) eqn:F; cbn [bind] in K; [discriminate|]. injection K as <-.
      right. split; auto. assert (G : exists x, In x (r :: mat) /\ (length x =? length r) = false).
      { clear - F. induction (r :: mat) as [|a l IH]; [discriminate|]. cbn [forallb] in F. apply Bool.andb_false_iff in F.
        destruct F as [F|F]; [exists a; split; [left; auto|auto]|]. destruct (IH F) as (x & A & C). exists x. split; [right; auto|auto]. }
      destruct G as (x & A & C). exists x. split; auto. apply Nat.eqb_neq. auto.
    + cbn [bind] in K. injection K as <-. auto.
  - destruct (inherit mx p) eqn:E; cbn [bind] in K; [discriminate|]. injection K as ->. apply (I _ _ E).
  - destruct (0 <? n); [discriminate|]. injection K as <-. auto.
Qed.

Lemma build_err base ws e : build base ws = Err e ->
  exists inner w outer, ws = inner ++ w :: outer /\ (exists p, build base inner = Ok p) /\ ~ allowed base inner w /\
    refused_with base inner w e.
Proof.
  induction ws as [|w ws IH] using rev_ind; [discriminate|]. intros H. rewrite build_app in H.
  destruct (build base ws) as [p|e'] eqn:E; cbn [bind build] in H.
  - destruct (wrap w p) as [q|e'] eqn:F; cbn [bind] in H; [discriminate|]. injection H as ->.
    exists ws, w, []. split; auto. split; [eauto|]. split; [|eapply wrap_err; eauto].
    intros A. apply (proj2 (wrap_ok base p ws w E)) in A. destruct A as [q C]. congruence.
  - injection H as ->. destruct (IH eq_refl) as (inner & w' & outer & -> & A & B & C).
    exists inner, w', (outer ++ [w]). rewrite <- app_assoc. auto.
Qed.

Lemma wrap_honest w o o' : honest o -> wrap w o = Ok o' ->
  honest o' /\ (forall m, told w = Some m -> o_direction o' = m) /\ (told w = None -> o_direction o' = o_direction o).
Proof.
  intros Ho H. destruct (wrap_facts _ _ _ H) as [(_ & _ & r & I & D & M)|((n & ->) & _ & M & D)].
  - split; [intros m E; congruence|]. unfold inherit in I. split.
    + intros m E. rewrite E in I. congruence.
    + intros E. rewrite E in I. destruct (o_maximize o) as [k|] eqn:F; [|discriminate]. injection I as <-. rewrite D. symmetry. apply Ho, F.
  - cbn [told]. split; [intros m E; congruence|]. split; [discriminate|auto].
Qed.
Lemma build_honest ws : forall o o', honest o -> build o ws = Ok o' ->
  honest o' /\ (Forall (fun w => told w = None) ws -> o_direction o' = o_direction o).
Proof.
  induction ws as [|w ws IH]; intros o o' Ho; cbn [build]; [intros [= <-]; auto|].
  destruct (wrap w o) as [p|] eqn:E; cbn [bind]; [|discriminate]. intros H. destruct (wrap_honest _ _ _ Ho E) as (Hp & _ & D).
  destruct (IH _ _ Hp H) as [K1 K2]. split; [exact K1|]. intros F. rewrite K2 by exact (Forall_inv_tail F). apply D. exact (Forall_inv F).
Qed.
Lemma build_direction base ws o : honest base -> build base ws = Ok o ->
  (Forall (fun w => told w = None) ws -> o_direction o = o_direction base) /\
  (forall inner w outer m, ws = inner ++ w :: outer -> told w = Some m -> Forall (fun u => told u = None) outer -> o_direction o = m).
Proof.
  intros Hb H. split; [apply (build_honest _ _ _ Hb H)|]. intros inner w outer m -> T F.
  rewrite build_app in H. destruct (build base inner) as [p|] eqn:E; cbn [bind build] in H; [|discriminate].
  destruct (wrap w p) as [q|] eqn:K; cbn [bind] in H; [|discriminate].
  destruct (build_honest _ _ _ Hb E) as [Hp _]. destruct (wrap_honest _ _ _ Hp K) as (Hq & D & _).
  destruct (build_honest _ _ _ Hq H) as [_ D']. rewrite (D' F). apply D, T.
Qed.
Lemma declared_kept b ws : Forall keeps_bounds ws -> declared b ws = b.
Proof.
  induction 1 as [|w ws [A R] _ IH]; [reflexivity|]. destruct w; cbn [declared]; try exact IH.
  - destruct R. do 2 eexists. reflexivity.
  - destruct A. eexists. reflexivity.
Qed.
Lemma build_declares base ws o : build base ws = Ok o ->
  (Forall keeps_bounds ws -> o_bounds o = o_bounds base) /\
  (forall inner nb m outer, ws = inner ++ Scale nb m :: outer -> Forall keeps_bounds outer -> o_bounds o = Some nb) /\
  (forall inner n outer, ws = inner ++ Average n :: outer -> o_bounds o = None /\ Forall (fun w => ~ rescales w) outer).
Proof.
  intros H. pose proof (build_bounds _ _ _ H) as B. split; [intros F; rewrite B; apply declared_kept, F|]. split.
  - intros inner nb m outer -> F. rewrite B, declared_app. cbn [declared]. apply declared_kept, F.
  - intros inner n outer ->.
    assert (P : Forall (fun w => ~ rescales w) outer /\ declared None outer = None).
    { rewrite build_app in H. destruct (build base inner) as [p|]; cbn [bind build] in H; [|discriminate].
      destruct (wrap (Average n) p) as [q|] eqn:K; cbn [bind] in H; [|discriminate]. apply wrap_bounds in K. cbn in K.
      clear -H K. revert q K H. induction outer as [|w outer IH]; intros q K H; [split; [constructor|reflexivity]|].
      cbn [build] in H. destruct (wrap w q) as [r|] eqn:E; cbn [bind] in H; [|discriminate].
      assert (N : ~ rescales w).
      { intros (nb & m & ->). cbn [wrap] in E. destruct (inherit m q); cbn [bind] in E; [|discriminate]. rewrite K in E. discriminate. }
      assert (D : declared None [w] = None) by (destruct w; try reflexivity; destruct N; do 2 eexists; reflexivity).
      pose proof (wrap_bounds _ _ _ E) as B. rewrite K, D in B. destruct (IH r B H) as [F G]. split; [constructor; assumption|].
      change (w :: outer) with ([w] ++ outer). rewrite declared_app, D. exact G. }
    split; [|apply P]. rewrite B, declared_app. cbn [declared]. apply P.
Qed.

(** ** Points *)
Lemma same_refl x : same_point x x.
Proof. induction x; constructor; [reflexivity|assumption]. Qed.
Lemma same_at x y : same_point x y <-> length x = length y /\ forall i, i < length x -> (at_ x i == at_ y i)%Q.
Proof.
  unfold at_. split.
  - induction 1 as [|a b x y E _ [L IH]]; [split; [reflexivity|intros i Hi; cbn in Hi; lia]|]. split; [cbn; congruence|].
    intros [|i] Hi; [exact E|]. apply IH. cbn in Hi. lia.
  - revert y. induction x as [|a x IH]; intros [|b y] [L H]; cbn in L; try lia; [constructor|]. constructor.
    + apply (H 0). cbn. lia.
    + apply IH. split; [lia|]. intros i Hi. apply (H (S i)). cbn. lia.
Qed.
Lemma same_length x y : same_point x y -> length x = length y.
Proof. intros H. apply same_at in H. apply H. Qed.
Lemma same_n n x y : length x = n -> length y = n -> (forall i, i < n -> (at_ x i == at_ y i)%Q) -> same_point x y.
Proof. intros Lx Ly H. apply same_at. split; [congruence|]. intros i Hi. apply H. lia. Qed.
Lemma same_sym x y : same_point x y -> same_point y x.
Proof. intros H. apply same_at in H. destruct H as [L H]. apply same_at. split; [auto|]. intros i Hi. symmetry. apply H. lia. Qed.
Lemma same_trans x y z : same_point x y -> same_point y z -> same_point x z.
Proof.
  rewrite !same_at. intros [L H] [L' H']. split; [congruence|]. intros i Hi. rewrite H by exact Hi. apply H'. lia.
Qed.
Lemma image_same n m x y i : length x = n -> same_point x y -> (image n m x i == image n m y i)%Q.
Proof.
  intros L H. apply same_at in H. destruct H as [_ H]. unfold image. apply sumn_ext. intros j Hj. rewrite H by lia. reflexivity.
Qed.

(** one wrapper sends a point to a point, which is determined *)
Lemma sends_same n b w x x' y y' : fits n w -> length x = n -> same_point x x' -> sends n b w x y -> sends n b w x' y' -> same_point y y'.
Proof.
  intros F L S' [Ly H] [Ly' H']. apply (same_n n); [assumption..|]. intros i Hi. specialize (H i Hi). specialize (H' i Hi).
  assert (E : (at_ x i == at_ x' i)%Q) by (apply same_at in S'; apply S'; lia).
  destruct w as [of mx|nb mx|mat mx|v mx|k]; cbn [fits] in F.
  - rewrite H, H', E. reflexivity.
  - destruct H as (old & B & H). destruct H' as (old' & B' & H'). rewrite B in B'. injection B' as <-. rewrite E, <- H' in H.
    assert (NZ : ~ (snd nb - fst nb == 0)%Q) by lra. apply (proj1 (Qmult_inj_r _ _ _ NZ)) in H. lra.
  - rewrite H, H'. apply image_same; assumption.
  - rewrite H, H'. exact E.
  - rewrite H, H'. exact E.
Qed.
Lemma arrives_length n b ws x y : arrives n b ws x y -> length y = n.
Proof. destruct ws; cbn [arrives]; [intros H; apply H|intros (z & _ & H); apply H]. Qed.
Lemma arrives_same n ws : forall b x y y', Forall (fits n) ws -> arrives n b ws x y -> arrives n b ws x y' -> same_point y y'.
Proof.
  induction ws as [|w ws IH]; intros b x y y' F H H'; cbn [arrives] in H, H'.
  - apply (same_trans _ x); [apply same_sym|]; tauto.
  - destruct H as (z & A & S1). destruct H' as (z' & A' & S2). apply (sends_same n b w z z'); try assumption; [exact (Forall_inv F)|exact (arrives_length _ _ _ _ _ A)|].
    exact (IH _ x z z' (Forall_inv_tail F) A A').
Qed.

(** ** Evaluation *)
Lemma repeated_ok n v : repeated n (Ok v) = Ok (repeat v n).
Proof. induction n as [|n IH]; [reflexivity|]. cbn [repeated bind]. rewrite IH. reflexivity. Qed.
Lemma Qsum_repeat v n : (Qsum (repeat v n) == inject_Z (Z.of_nat n) * v)%Q.
Proof.
  induction n as [|n IH]; [cbn; ring|]. cbn [repeat]. unfold Qsum in *. cbn [fold_right]. rewrite IH, Nat2Z.inj_succ. unfold Z.succ. rewrite inject_Z_plus. ring.
Qed.
Lemma mean_same v n : 0 < n -> exists w, mean_value (Ok v) n = Ok w /\ (w == v)%Q.
Proof.
  intros H. unfold mean_value. rewrite repeated_ok. cbn [bind]. eexists. split; [reflexivity|].
  rewrite repeat_length, np_sum_Qsum, Qsum_repeat. field. change 0%Q with (inject_Z 0). rewrite inject_Z_injective. lia.
Qed.

(** the function a wrapper computes, given the function inside *)
Lemma wrap_value n w o o' f : wrap w o = Ok o' -> fits n w -> computes n o f ->
  forall x, length x = n -> exists y v, sends n (o_bounds o) w x y /\ o_evaluate o' true x = Ok v /\ (v == f y + shift w)%Q.
Proof.
  intros H F [C1 C2] x L. destruct w as [of mx|nb mx|mat mx|v mx|k]; cbn [wrap] in H; cbn [fits] in F.
  - destruct (inherit mx o) as [r|]; cbn [bind] in H; [|discriminate]. injection H as <-. cbn [o_evaluate].
    destruct (translated_spec (o_evaluate o true) of x) as (y & E & Ly & Hy); [congruence|]. destruct (C1 y) as (v & Ev & Vv); [congruence|].
    exists y, v. split; [split; [congruence|]; intros i Hi; apply Hy; lia|]. rewrite E. split; [exact Ev|]. rewrite Vv. cbn [shift]. ring.
  - destruct (inherit mx o) as [r|]; cbn [bind] in H; [|discriminate]. destruct (o_bounds o) as [old|]; [|discriminate]. injection H as <-. cbn [o_evaluate].
    destruct (scaled_spec (o_evaluate o true) old nb x F) as (_ & y & E & Ly & Hy). destruct (C1 y) as (v & Ev & Vv); [congruence|].
    exists y, v. split; [split; [congruence|]; intros i Hi; exists old; split; [reflexivity|]; apply Hy; lia|]. rewrite E. split; [exact Ev|]. rewrite Vv. cbn [shift]. ring.
  - destruct (inherit mx o) as [r|]; cbn [bind] in H; [|discriminate].
    assert (M : forall m', matrix_problem mat = Ok m' -> m' = mat).
    { unfold matrix_problem. destruct mat as [|r0 mat]; [discriminate|]. destruct (_ =? _); [|discriminate]. destruct (forallb _ _); [|discriminate]. congruence. }
    destruct (matrix_problem mat) as [m'|]; cbn [bind] in H; [|discriminate]. rewrite (M m' eq_refl) in H. injection H as <-. cbn [o_evaluate].
    destruct (matrix_spec (o_evaluate o true) n mat x F L) as (y & E & Ly & Hy & _). destruct (C1 y) as (v & Ev & Vv); [congruence|].
    exists y, v. split; [split; [congruence|]; intros i Hi; apply Hy; lia|]. rewrite E. split; [exact Ev|]. rewrite Vv. cbn [shift]. ring.
  - destruct (inherit mx o) as [r|]; cbn [bind] in H; [|discriminate]. injection H as <-. cbn [o_evaluate].
    destruct (C1 x L) as (u & Eu & Vu). exists x, (u + v)%Q. split; [split; [exact L|]; intros; reflexivity|]. rewrite Eu. split; [reflexivity|]. cbn [shift]. rewrite Vu. reflexivity.
  - destruct (0 <? k) eqn:K; [|discriminate]. apply Nat.ltb_lt in K. injection H as <-. cbn [o_evaluate].
    destruct (C1 x L) as (u & Eu & Vu). destruct (mean_same u k K) as (w & Ew & Vw). exists x, w. split; [split; [exact L|]; intros; reflexivity|]. rewrite Eu. split; [exact Ew|].
    cbn [shift]. rewrite Vw, Vu. ring.
Qed.

(** a function of where the wrapper sends the point; stated as a choice made by evaluation *)
Definition seen (o : object) (x : list Q) : Q := match o_evaluate o true x with Ok v => v | Err _ => 0%Q end.
Lemma wrap_computes n w o o' f : wrap w o = Ok o' -> fits n w -> computes n o f -> computes n o' (seen o').
Proof.
  intros H F C. split.
  - intros x L. destruct (wrap_value _ _ _ _ _ H F C x L) as (y & v & _ & E & _). exists v. unfold seen. rewrite E. split; reflexivity.
  - intros x x' L S'. destruct (wrap_value _ _ _ _ _ H F C x L) as (y & v & Sy & E & V).
    destruct (wrap_value _ _ _ _ _ H F C x') as (y' & v' & Sy' & E' & V'); [rewrite <- (same_length _ _ S'); exact L|].
    unfold seen. rewrite E, E', V, V'. destruct C as [_ C2]. rewrite (C2 y y'); [reflexivity|apply Sy|].
    exact (sends_same _ _ _ _ _ _ _ F L S' Sy Sy').
Qed.
Lemma build_value n ws : forall base o f, build base ws = Ok o -> Forall (fits n) ws -> computes n base f ->
  forall x, length x = n -> exists y v, arrives n (o_bounds base) ws x y /\ o_evaluate o true x = Ok v /\ (v == f y + total ws)%Q.
Proof.
  induction ws as [|w ws IH]; intros base o f H F C x L; cbn [build] in H.
  - injection H as <-. destruct (proj1 C x L) as (v & E & V). exists x, v. split; [split; [exact L|apply same_refl]|]. split; [exact E|]. rewrite V. unfold total, Qsum. cbn. ring.
  - destruct (wrap w base) as [p|] eqn:E; cbn [bind] in H; [|discriminate].
    pose proof (wrap_computes _ _ _ _ _ E (Forall_inv F) C) as Cp.
    destruct (IH p o (seen p) H (Forall_inv_tail F) Cp x L) as (z & v & A & Ev & Vv).
    pose proof (arrives_length _ _ _ _ _ A) as Lz.
    destruct (wrap_value _ _ _ _ _ E (Forall_inv F) C z Lz) as (y & u & Sy & Eu & Vu).
    exists y, v. split; [exists z; split; [rewrite <- (wrap_bounds _ _ _ E); exact A|exact Sy]|]. split; [exact Ev|].
    rewrite Vv. unfold seen. rewrite Eu, Vu. unfold total, Qsum. cbn [map fold_right]. ring.
Qed.
Lemma tower_value n base ws o f : build base ws = Ok o -> Forall (fits n) ws -> computes n base f ->
  forall x, length x = n ->
  (exists y, arrives n (o_bounds base) ws x y) /\
  forall y, arrives n (o_bounds base) ws x y -> exists v, o_evaluate o true x = Ok v /\ (v == f y + total ws)%Q.
Proof.
  intros H F C x L. destruct (build_value n ws base o f H F C x L) as (y & v & A & E & V). split; [eauto|].
  intros y' A'. exists v. split; [exact E|]. rewrite V. destruct C as [_ C2]. rewrite (C2 y y'); [reflexivity|exact (arrives_length _ _ _ _ _ A)|].
  exact (arrives_same n ws _ x y y' F A A').
Qed.

(** ** Every point is reached *)
Lemma tabulate n (g : nat -> Q) : exists x, length x = n /\ forall i, i < n -> at_ x i = g i.
Proof.
  exists (map g (seq 0 n)). split; [rewrite map_length, seq_length; reflexivity|]. intros i Hi. unfold at_.
  rewrite (nth_indep _ 0%Q (g 0)) by (rewrite map_length, seq_length; exact Hi). rewrite map_nth, seq_nth by exact Hi. reflexivity.
Qed.

Lemma sends_back n b w y : fits n w -> rigid n w -> proper b -> (rescales w -> b <> None) -> length y = n -> exists x, length x = n /\ sends n b w x y.
Proof.
  intros F R P N L. destruct w as [of mx|nb mx|mat mx|v mx|k]; cbn [fits rigid] in F, R.
  - destruct (tabulate n (fun i => at_ y i + at_ of i)%Q) as (x & Lx & Hx). exists x. split; [exact Lx|]. split; [exact L|]. intros i Hi. rewrite Hx by exact Hi. ring.
  - destruct b as [old|]; [|destruct N; [do 2 eexists; reflexivity|reflexivity]]. pose proof (P old eq_refl) as Po.
    destruct (tabulate n (fun i => fst nb + (at_ y i - fst old) * (snd nb - fst nb) / (snd old - fst old))%Q) as (x & Lx & Hx).
    exists x. split; [exact Lx|]. split; [exact L|]. intros i Hi. exists old. split; [reflexivity|]. rewrite Hx by exact Hi. field. lra.
  - destruct (tabulate n (fun j => sumn n (fun i => entry mat i j * at_ y i))%Q) as (x & Lx & Hx). exists x. split; [exact Lx|]. split; [exact L|]. intros i Hi.
    unfold image. transitivity (sumn n (fun j => sumn n (fun k => entry mat i j * (entry mat k j * at_ y k))))%Q.
    + rewrite sumn_swap. transitivity (sumn n (fun k => if i =? k then at_ y k else 0))%Q; [rewrite sumn_delta_r by exact Hi; reflexivity|].
      apply sumn_ext. intros k Hk. transitivity (sumn n (fun j => entry mat i j * entry mat k j) * at_ y k)%Q.
      * rewrite (R i k Hi Hk). destruct (i =? k); ring.
      * rewrite <- sumn_scale_r. apply sumn_ext. intros j _. ring.
    + apply sumn_ext. intros j Hj. rewrite Hx by exact Hj. apply sumn_scale.
  - exists y. split; [exact L|]. split; [exact L|]. intros; reflexivity.
  - exists y. split; [exact L|]. split; [exact L|]. intros; reflexivity.
Qed.
Lemma wrap_rescales w o o' : wrap w o = Ok o' -> rescales w -> o_bounds o <> None.
Proof.
  intros H (nb & m & ->). cbn [wrap] in H. destruct (inherit m o); cbn [bind] in H; [|discriminate]. destruct (o_bounds o); discriminate.
Qed.
Lemma proper_after n b w : fits n w -> proper b -> proper (declared b [w]).
Proof.
  intros F P. destruct w as [of mx|nb mx|mat mx|v mx|k]; cbn [declared]; try exact P.
  - intros q [= <-]. exact F.
  - intros q [=].
Qed.
Lemma arrives_back n ws : forall base o y, build base ws = Ok o -> Forall (fits n) ws -> Forall (rigid n) ws -> proper (o_bounds base) -> length y = n ->
  exists x, length x = n /\ arrives n (o_bounds base) ws x y.
Proof.
  induction ws as [|w ws IH]; intros base o y H F R P L; cbn [build arrives] in *.
  - exists y. split; [exact L|]. split; [exact L|apply same_refl].
  - destruct (wrap w base) as [p|] eqn:E; cbn [bind] in H; [|discriminate].
    destruct (sends_back n (o_bounds base) w y (Forall_inv F) (Forall_inv R) P (wrap_rescales _ _ _ E) L) as (z & Lz & Sz).
    destruct (IH p o z H (Forall_inv_tail F) (Forall_inv_tail R)) as (x & Lx & A); [|exact Lz|].
    + rewrite (wrap_bounds _ _ _ E). exact (proper_after n _ _ (Forall_inv F) P).
    + exists x. split; [exact Lx|]. exists z. split; [|exact Sz]. rewrite <- (wrap_bounds _ _ _ E). exact A.
Qed.

Lemma tower_optimum n base ws o f : build base ws = Ok o -> Forall (fits n) ws -> Forall (rigid n) ws -> proper (o_bounds base) -> computes n base f ->
  forall best, length best = n -> (forall y, length y = n -> ~ beats (o_direction o) (f y) (f best)) ->
  exists x top, length x = n /\ arrives n (o_bounds base) ws x best /\ o_evaluate o true x = Ok top /\ (top == f best + total ws)%Q /\
    forall x' v, length x' = n -> o_evaluate o true x' = Ok v -> ~ beats (o_direction o) v top.
Proof.
  intros H F R P C best L B. destruct (arrives_back n ws base o best H F R P L) as (x & Lx & A).
  destruct (tower_value n base ws o f H F C x Lx) as [_ T]. destruct (T best A) as (top & Et & Vt).
  exists x, top. split; [exact Lx|]. split; [exact A|]. split; [exact Et|]. split; [exact Vt|].
  intros x' v Lx' Ev. destruct (tower_value n base ws o f H F C x' Lx') as [[y Ay] T']. destruct (T' y Ay) as (v' & Ev' & Vv'). rewrite Ev in Ev'. injection Ev' as <-.
  specialize (B y (arrives_length _ _ _ _ _ Ay)). unfold beats in *. destruct (o_direction o); rewrite Vt, Vv'; intros K; apply B; lra.
Qed.

(** ** Boxes *)
Lemma in_box_at n b x : length x = n -> in_box b x <-> forall i, i < n -> (fst b <= at_ x i <= snd b)%Q.
Proof.
  intros L. unfold in_box. rewrite Forall_forall. split.
  - intros H i Hi. apply H. unfold at_. apply nth_In. lia.
  - intros H v I. destruct (In_nth x v 0%Q I) as (i & Hi & <-). apply H. lia.
Qed.
Lemma box_same n b x y : length x = n -> same_point x y -> in_box b x <-> in_box b y.
Proof.
  intros L S'. apply same_at in S'. destruct S' as [L' E]. rewrite (in_box_at n), (in_box_at n) by congruence.
  split; intros H i Hi; specialize (H i Hi); assert (K : (at_ x i == at_ y i)%Q) by (apply E; lia); lra.
Qed.

Lemma scaled_box lo hi lo' hi' x y : (lo < hi)%Q -> (lo' < hi')%Q ->
  ((y - lo') * (hi - lo) == (x - lo) * (hi' - lo'))%Q -> (lo <= x <= hi)%Q <-> (lo' <= y <= hi')%Q.
Proof.
  intros H H' E. split; intros [K1 K2]; split.
  - assert (0 <= (y - lo') * (hi - lo))%Q by (rewrite E; apply Qmult_le_0_compat; lra). nra.
  - assert (0 <= (hi - x) * (hi' - lo'))%Q by (apply Qmult_le_0_compat; lra). nra.
  - assert (0 <= (x - lo) * (hi' - lo'))%Q by (rewrite <- E; apply Qmult_le_0_compat; lra). nra.
  - assert (0 <= (hi' - y) * (hi - lo))%Q by (apply Qmult_le_0_compat; lra). nra.
Qed.
Lemma sends_box n b b' w x y : fits n w -> straight w -> (fst b < snd b)%Q -> declared (Some b) [w] = Some b' ->
  length x = n -> sends n (Some b) w x y -> in_box b' x <-> in_box b y.
Proof.
  intros F St P D L [Ly H]. rewrite (in_box_at n) by exact L. rewrite (in_box_at n) by exact Ly.
  destruct w as [of mx|nb mx|mat mx|v mx|k]; cbn [declared fits] in *.
  - destruct St as [[[? [=]]|(? & ? & [=])]|(? & ? & [=])].
  - injection D as <-. assert (K : forall i, i < n -> (fst nb <= at_ x i <= snd nb)%Q <-> (fst b <= at_ y i <= snd b)%Q).
    { intros i Hi. destruct (H i Hi) as (old & [= <-] & E). exact (scaled_box _ _ _ _ _ _ F P E). }
    split; intros G i Hi; apply K; auto.
  - destruct St as [[[? [=]]|(? & ? & [=])]|(? & ? & [=])].
  - injection D as <-. split; intros G i Hi; specialize (G i Hi); specialize (H i Hi); lra.
  - discriminate.
Qed.
Lemma declared_none ws b : declared None ws = Some b -> exists nb, In nb ws /\ rescales nb.
Proof.
  induction ws as [|w ws IH]; [discriminate|].
  assert (K : declared None ws = Some b -> exists nb, In nb (w :: ws) /\ rescales nb).
  { intros H. destruct (IH H) as (nb & I & R). exists nb. split; [right; exact I|exact R]. }
  destruct w as [of mx|nb mx|mat mx|v mx|k]; cbn [declared]; try exact K. intros _. eexists. split; [left; reflexivity|do 2 eexists; reflexivity].
Qed.
Lemma build_none ws : forall base o, build base ws = Ok o -> o_bounds base = None -> o_bounds o = None.
Proof.
  induction ws as [|w ws IH]; intros base o H B; cbn [build] in H; [congruence|].
  destruct (wrap w base) as [p|] eqn:E; cbn [bind] in H; [|discriminate]. apply (IH p o H). pose proof (wrap_rescales _ _ _ E) as R.
  rewrite (wrap_bounds _ _ _ E), B. destruct w; try reflexivity. exfalso. apply R; [do 2 eexists; reflexivity|exact B].
Qed.
Lemma tower_box n ws : forall base o b b', build base ws = Ok o -> Forall (fits n) ws -> Forall straight ws ->
  o_bounds base = Some b -> (fst b < snd b)%Q -> o_bounds o = Some b' ->
  forall x y, length x = n -> arrives n (o_bounds base) ws x y -> in_box b' x <-> in_box b y.
Proof.
  induction ws as [|w ws IH]; intros base o b b' H F St B P B' x y L A; cbn [build arrives] in *.
  - injection H as <-. rewrite B in B'. injection B' as <-. apply (box_same n); tauto.
  - destruct (wrap w base) as [p|] eqn:E; cbn [bind] in H; [|discriminate]. destruct A as (z & A & Sz).
    pose proof (wrap_bounds _ _ _ E) as Bp. destruct (o_bounds p) as [bp|] eqn:Ep.
    + rewrite B in Bp, A, Sz. pose proof (proper_after n (Some b) w (Forall_inv F)) as Pp.
      assert (Pb : (fst bp < snd bp)%Q) by (apply Pp; [intros q [= <-]; exact P|symmetry; exact Bp]).
      rewrite (IH p o bp b' H (Forall_inv_tail F) (Forall_inv_tail St) Ep Pb B' x z L).
      * apply (sends_box n b bp w z y (Forall_inv F) (Forall_inv St) P); [symmetry; exact Bp|exact (arrives_length _ _ _ _ _ A)|exact Sz].
      * rewrite Ep, Bp. exact A.
    + rewrite (build_none ws p o H Ep) in B'. discriminate.
Qed.

(** ** Python lists *)
Lemma mean_err e n : 0 < n -> mean_value (Err e) n = Err e.
Proof. destruct n; [lia|reflexivity]. Qed.
Lemma kept_calls ws : forall base o, build base ws = Ok o -> Forall keeps_point ws -> forall x,
  (forall a e, o_evaluate base a x = Err e -> o_evaluate o a x = Err e) /\
  (forall a a', o_evaluate base a x = o_evaluate base a' x -> o_evaluate o a x = o_evaluate o a' x).
Proof.
  induction ws as [|w ws IH]; intros base o H K x; cbn [build] in H; [injection H as <-; auto|].
  destruct (wrap w base) as [p|] eqn:E; cbn [bind] in H; [|discriminate]. destruct (IH p o H (Forall_inv_tail K) x) as [I1 I2].
  assert (J : (forall a e, o_evaluate base a x = Err e -> o_evaluate p a x = Err e) /\
              (forall a a', o_evaluate base a x = o_evaluate base a' x -> o_evaluate p a x = o_evaluate p a' x)).
  { destruct (Forall_inv K) as [(n & ->)|(v & m & ->)]; cbn [wrap] in E.
    - destruct (0 <? n) eqn:N; [|discriminate]. apply Nat.ltb_lt in N. injection E as <-. cbn [o_evaluate]. split.
      + intros a e ->. apply mean_err, N.
      + intros a a' ->. reflexivity.
    - destruct (inherit m base) as [r|]; cbn [bind] in E; [|discriminate]. injection E as <-. cbn [o_evaluate]. split.
      + intros a e ->. reflexivity.
      + intros a a' ->. reflexivity. }
  destruct J as [J1 J2]. split; [intros a e Ha; apply I1, J1, Ha|intros a a' Ha; apply I2, J2, Ha].
Qed.
Lemma tower_lists base ws o x inner w outer : build base ws = Ok o -> ws = inner ++ w :: outer -> Forall keeps_point outer ->
  (rescales w \/ (exists of m, w = Translate of m /\ length of = length x) -> o_evaluate o false x = Err ValueError) /\
  ((exists mat m, w = Matrix mat m) -> o_evaluate o false x = o_evaluate o true x).
Proof.
  intros H -> K. rewrite build_app in H. destruct (build base inner) as [p|]; cbn [bind build] in H; [|discriminate].
  destruct (wrap w p) as [q|] eqn:E; cbn [bind] in H; [|discriminate]. destruct (kept_calls outer q o H K x) as [K1 K2]. split.
  - intros D. apply K1. destruct D as [(nb & m & ->)|(of & m & -> & L)]; cbn [wrap] in E.
    + destruct (inherit m p) as [r|]; cbn [bind] in E; [|discriminate]. destruct (o_bounds p); [|discriminate]. injection E as <-. reflexivity.
    + destruct (inherit m p) as [r|]; cbn [bind] in E; [|discriminate]. injection E as <-. cbn [o_evaluate]. apply (proj2 (translated_errors (o_evaluate p true) of true x)). auto.
  - intros (mat & m & ->). apply K2. cbn [wrap] in E. destruct (inherit m p) as [r|]; cbn [bind] in E; [|discriminate].
    destruct (matrix_problem mat); cbn [bind] in E; [|discriminate]. injection E as <-. reflexivity.
Qed.
Lemma tower_lists_kept base ws o x : build base ws = Ok o -> Forall keeps_point ws -> o_evaluate base false x = o_evaluate base true x ->
  o_evaluate o false x = o_evaluate o true x.
Proof. intros H K E. exact (proj2 (kept_calls ws base o H K x) false true E). Qed.

(** ** The sphere *)
Lemma sq_length_same x y : same_point x y -> (sq_length x == sq_length y)%Q.
Proof. unfold sq_length, Qsum. induction 1 as [|a b x y E _ IH]; [reflexivity|]. cbn [map fold_right]. rewrite IH, E. reflexivity. Qed.
Lemma sphere_computes n : computes n sphere sq_length.
Proof.
  split; [intros x _; eexists; split; reflexivity|]. intros x y _ H. apply sq_length_same, H.
Qed.
Lemma sq_length_pos x : (0 <= sq_length x)%Q.
Proof. unfold sq_length, Qsum. induction x as [|a x IH]; cbn [map fold_right]; [lra|]. nra. Qed.
Lemma sphere_honest : honest sphere.
Proof. intros m [= <-]. reflexivity. Qed.
Lemma tall_tower_fits : honest sphere /\ Forall (fits 2) tall_tower /\ Forall (rigid 2) tall_tower /\ proper (o_bounds sphere) /\
  computes 2 sphere sq_length /\ (forall y, length y = 2 -> ~ beats false (sq_length y) (sq_length [0; 0]%Q)).
Proof.
  split; [exact sphere_honest|]. split.
  { unfold tall_tower. repeat constructor. }
  split.
  { unfold tall_tower. repeat (constructor; [cbn [rigid]; try exact I|]); [|constructor].
    intros i k Hi Hk. destruct i as [|[|i]]; [..|lia]; (destruct k as [|[|k]]; [..|lia]); reflexivity. }
  split; [intros q [= <-]; reflexivity|]. split; [apply sphere_computes|]. intros y _. unfold beats.
  pose proof (sq_length_pos y). unfold sq_length at 2. cbn. lra.
Qed.
Lemma translated_bounds :
  ~ (forall base ws o f b best, honest base -> build base ws = Ok o -> Forall (fits 1) ws -> computes 1 base f -> o_bounds base = Some b ->
     length best = 1 -> in_box b best -> (forall y, length y = 1 -> ~ beats (o_direction o) (f y) (f best)) ->
     exists b' x top, o_bounds o = Some b' /\ in_box b' x /\ length x = 1 /\ o_evaluate o true x = Ok top /\
       forall x' v, length x' = 1 -> o_evaluate o true x' = Ok v -> ~ beats (o_direction o) v top).
Proof.
  intros H. destruct (H sphere [Translate [10%Q] None] _ sq_length (-(512#100), 512#100)%Q [0%Q] sphere_honest eq_refl) as (b' & x & top & B & I & L & E & Op).
  - repeat constructor.
  - apply sphere_computes.
  - reflexivity.
  - reflexivity.
  - constructor; [cbn; lra|constructor].
  - intros y _. cbn [o_direction]. unfold beats. pose proof (sq_length_pos y). unfold sq_length at 2. cbn. lra.
  - cbn in B. injection B as <-. destruct x as [|a [|? ?]]; try discriminate L. cbn in E. injection E as <-.
    pose proof (Forall_inv I) as K. cbn in K.
    apply (Op [10%Q] _ eq_refl eq_refl). cbn [o_direction]. unfold beats, sq_length, Qsum. cbn [map fold_right map2 combine fst snd].
    assert (0 < (10 - a) * (10 - a))%Q by nra. setoid_replace ((10 - 10) * (10 - 10) + 0)%Q with 0%Q by ring.
    setoid_replace ((a - 10) * (a - 10) + 0)%Q with ((10 - a) * (10 - a))%Q by ring. assumption.
Qed.
