From Verif Require Import Model.Base Model.Exploratory Spec.Exploratory Proofs.Order.
From Coq Require Import Lia Lqa.

Lemma mix_between a x y : length x = length y -> mix a (1 - a) x y = Ok (between a x y).
Proof.
  intros L. unfold mix. rewrite L, Nat.eqb_refl. f_equal. unfold between. revert y L. induction x as [|u x IH]; intros [|v y] L; try discriminate; [reflexivity|].
  cbn [combine map length seq nth fst snd]. f_equal. rewrite IH by (cbn in L; lia). rewrite <- seq_shift, map_map. reflexivity.
Qed.
Definition gap_of (f : list Q -> Q) (design : list (list Q * Q)) (draw : nat * nat * Q) (d : Q) : Prop :=
  exists x vx y vy, nth_error design (fst (fst draw)) = Some (x, vx) /\ nth_error design (snd (fst draw)) = Some (y, vy) /\
    (d == chord_gap f (snd draw) x y)%Q.
Lemma deltas_spec n f score design draws : evaluated n f design -> good_draws (length design) draws ->
  (forall x, length x = n -> score x = Ok (f x)) ->
  exists deltas, compute_deltas score design draws = Ok deltas /\ Forall2 (gap_of f design) draws deltas.
Proof.
  intros Ev G Sc. induction draws as [|[[i j] a] r IH]; [exists []; split; [reflexivity|constructor]|].
  destruct IH as (ds & E & F); [intros i' j' a' I; apply G; right; exact I|].
  destruct (G i j a (or_introl eq_refl)) as (Hi & Hj & _). cbn [compute_deltas convexity_test].
  destruct (nth_error design i) as [[x vx]|] eqn:Ei; [|apply nth_error_None in Ei; lia].
  destruct (nth_error design j) as [[y vy]|] eqn:Ej; [|apply nth_error_None in Ej; lia].
  destruct (Ev x vx (nth_error_In _ _ Ei)) as [Lx Vx]. destruct (Ev y vy (nth_error_In _ _ Ej)) as [Ly Vy].
  rewrite mix_between by congruence. cbn [bind]. rewrite Sc by (unfold between; rewrite map_length, seq_length; exact Lx). cbn [bind].
  rewrite E. cbn [bind]. eexists. split; [reflexivity|]. constructor; [|exact F].
  exists x, vx, y, vy. split; [exact Ei|]. split; [exact Ej|]. cbn [snd]. unfold chord_gap. rewrite Vx, Vy. reflexivity.
Qed.
Lemma init_spec n f score design draws : evaluated n f design -> good_draws (length design) draws ->
  (forall x, length x = n -> score x = Ok (f x)) -> 2 < length design -> draws <> [] ->
  exists deltas, ela_init score design draws = Ok deltas /\ length deltas = length draws /\ Forall2 (gap_of f design) draws deltas.
Proof.
  intros Ev G Sc L N. destruct (deltas_spec n f score design draws Ev G Sc) as (ds & E & F). exists ds. split; [|split; [|exact F]].
  - unfold ela_init. destruct (Nat.ltb_spec 2 (length design)); [|lia]. destruct draws; [congruence|]. cbn [negb length Nat.ltb Nat.leb]. exact E.
  - clear -F. induction F; cbn; congruence.
Qed.
Lemma shape_deltas (P : Q -> Q -> Prop) (R : Q -> Prop) n f design draws deltas :
  (forall p c d, P p c -> (d == p - c)%Q -> R d) -> on_segments n f P -> evaluated n f design -> good_draws (length design) draws ->
  Forall2 (gap_of f design) draws deltas -> Forall R deltas.
Proof.
  intros HR Seg Ev G F. induction F as [|[[i j] a] d draws deltas (x & vx & y & vy & Ei & Ej & E) F IH]; [constructor|].
  cbn [fst snd] in *. destruct (G i j a (or_introl eq_refl)) as (_ & _ & _ & A0 & A1). constructor; [|apply IH; intros ? ? ? I; apply G; right; exact I].
  eapply HR; [apply Seg|exact E]; [apply (Ev x vx (nth_error_In _ _ Ei))|apply (Ev y vy (nth_error_In _ _ Ej))|exact A0|exact A1].
Qed.

Lemma count_fold (test : Q -> bool) l : forall c, fold_left (fun c d => if test d then c + 1 else c)%Z l c = (c + Z.of_nat (length (filter test l)))%Z.
Proof. induction l as [|x l IH]; intros c; cbn [fold_left filter]; [cbn; lia|]. rewrite IH. destruct (test x); cbn [length]; lia. Qed.
Lemma filter_le {A} (test : A -> bool) l : length (filter test l) <= length l.
Proof. induction l as [|x l IH]; [reflexivity|]. cbn. destruct (test x); cbn; lia. Qed.
Lemma ratio_spec test t deltas : (t < 0)%Q -> deltas <> [] ->
  exists q, ratio_p test t deltas = Ok q /\ share test deltas q /\ (0 <= q)%Q /\ (q <= 1)%Q.
Proof.
  intros T N. unfold ratio_p. apply Qltb_lt in T. rewrite T. cbn [negb]. rewrite count_fold. cbn [Z.add].
  assert (L : 0 < length deltas) by (destruct deltas; [congruence|cbn; lia]). destruct (Nat.eqb_spec (length deltas) 0); [lia|].
  assert (K := filter_le test deltas). set (k := length (filter test deltas)) in *. set (m := length deltas) in *.
  assert (Pm : (0 < inject_Z (Z.of_nat m))%Q) by (change 0%Q with (inject_Z 0); rewrite <- Zlt_Qlt; lia).
  assert (K0 : (0 <= inject_Z (Z.of_nat k))%Q) by (change 0%Q with (inject_Z 0); rewrite <- Zle_Qle; lia).
  assert (K1 : (inject_Z (Z.of_nat k) <= inject_Z (Z.of_nat m))%Q) by (rewrite <- Zle_Qle; lia).
  assert (E : (inject_Z (Z.of_nat k) / inject_Z (Z.of_nat m) * inject_Z (Z.of_nat m) == inject_Z (Z.of_nat k))%Q) by (field; lra).
  set (q := (inject_Z (Z.of_nat k) / inject_Z (Z.of_nat m))%Q) in *.
  assert (Q0 : (0 <= q)%Q) by (apply (proj1 (Qmult_le_r _ _ _ Pm)); rewrite E; lra).
  assert (Q1 : (q <= 1)%Q) by (apply (proj1 (Qmult_le_r _ _ _ Pm)); rewrite E; lra).
  rewrite (proj2 (Qle_bool_iff 0 q) Q0), (proj2 (Qle_bool_iff q 1) Q1). cbn [negb]. exists q. split; [reflexivity|]. split; [exact E|]. auto.
Qed.
Lemma ratio_threshold test t deltas : (0 <= t)%Q -> ratio_p test t deltas = Err AssertionError.
Proof. intros T. unfold ratio_p. destruct (Qltb t 0) eqn:E; [apply Qltb_lt in E; lra|reflexivity]. Qed.
Lemma share_none {A} (test : A -> bool) l q : l <> [] -> share test l q -> (forall x, In x l -> test x = false) -> (q == 0)%Q.
Proof.
  intros N S H. unfold share in S. assert (F : filter test l = []).
  { clear -H. induction l as [|x l IH]; [reflexivity|]. cbn. rewrite H by (left; reflexivity). apply IH. intros y I. apply H. right. exact I. }
  rewrite F in S. cbn [length Z.of_nat] in S. change (inject_Z 0) with 0%Q in S.
  assert (Pm : (0 < inject_Z (Z.of_nat (length l)))%Q) by (change 0%Q with (inject_Z 0); rewrite <- Zlt_Qlt; destruct l; [congruence|cbn; lia]).
  apply Qmult_integral in S. destruct S as [S|S]; [exact S|lra].
Qed.
Lemma Qltb_false a b : (b <= a)%Q -> Qltb a b = false.
Proof. intros H. destruct (Qltb a b) eqn:E; [apply Qltb_lt in E; lra|reflexivity]. Qed.
Lemma linear_zero t deltas : (t < 0)%Q -> deltas <> [] -> exists q, linear_p t deltas = Ok q /\ (q == 0)%Q.
Proof.
  intros T N. destruct (ratio_spec (fun d => Qltb (Qabs d) t) t deltas T N) as (q & E & S & _). exists q. split; [exact E|].
  eapply share_none; eauto. intros x _. apply Qltb_false. pose proof (Qabs_nonneg x). lra.
Qed.
Lemma fold_total l : forall a, (fold_left Qplus l a == a + total_of l)%Q.
Proof. unfold total_of. induction l as [|x l IH]; intros a; cbn [fold_left fold_right]; [lra|]. rewrite IH. lra. Qed.
Lemma len_pos {A} (l : list A) : l <> [] -> (0 < inject_Z (Z.of_nat (length l)))%Q.
Proof. intros N. change 0%Q with (inject_Z 0). rewrite <- Zlt_Qlt. destruct l; [congruence|cbn; lia]. Qed.
Lemma deviation_mean deltas : deltas <> [] -> (linear_deviation deltas * inject_Z (Z.of_nat (length deltas)) == total_of deltas)%Q.
Proof. intros N. apply len_pos in N. unfold linear_deviation. rewrite fold_total. field. lra. Qed.
Lemma deviation_abs_mean deltas : deltas <> [] -> (linear_deviation_abs deltas * inject_Z (Z.of_nat (length deltas)) == total_of (map Qabs deltas))%Q.
Proof. intros N. unfold linear_deviation_abs. rewrite <- (map_length Qabs deltas). apply deviation_mean. destruct deltas; [congruence|discriminate]. Qed.
Lemma total_abs l : (Qabs (total_of l) <= total_of (map Qabs l))%Q.
Proof.
  induction l as [|x l IH]; [apply Qle_refl|]. cbn [map]. unfold total_of in *. cbn [fold_right]. eapply Qle_trans; [apply Qabs_triangle|]. lra.
Qed.
Lemma total_abs_zero l : (total_of (map Qabs l) == 0)%Q <-> Forall (fun d => d == 0)%Q l.
Proof.
  assert (N : forall l, (0 <= total_of (map Qabs l))%Q).
  { clear. induction l as [|x l IH]; [apply Qle_refl|]. cbn [map]. unfold total_of in *. cbn [fold_right]. pose proof (Qabs_nonneg x). lra. }
  induction l as [|x l IH]; [split; [constructor|reflexivity]|]. cbn [map]. change (total_of (Qabs x :: map Qabs l)) with (Qabs x + total_of (map Qabs l))%Q.
  specialize (N l). pose proof (Qabs_nonneg x) as A. split.
  - intros H. constructor; [|apply IH; lra]. assert (Z : (Qabs x == 0)%Q) by lra. revert Z. apply Qabs_case; intros; lra.
  - intros H. inversion H as [|? ? H1 H2]; subst. apply IH in H2. rewrite H2, H1. reflexivity.
Qed.
Lemma deviation_bounds deltas : deltas <> [] ->
  (Qabs (linear_deviation deltas) <= linear_deviation_abs deltas)%Q /\
  ((linear_deviation_abs deltas == 0)%Q <-> Forall (fun d => d == 0)%Q deltas) /\
  (Forall (fun d => d <= 0)%Q deltas -> (linear_deviation_abs deltas == - linear_deviation deltas)%Q).
Proof.
  intros N. assert (P := len_pos _ N). assert (D := deviation_mean _ N). assert (A := deviation_abs_mean _ N).
  set (m := inject_Z (Z.of_nat (length deltas))) in *. clearbody m. set (d := linear_deviation deltas) in *. set (e := linear_deviation_abs deltas) in *. clearbody d e.
  split; [|split].
  - apply (proj1 (Qmult_le_r _ _ _ P)). rewrite A. rewrite <- (Qabs_pos m) by lra. rewrite <- Qabs_Qmult, D. apply total_abs.
  - rewrite <- total_abs_zero, <- A. split; intros H; [rewrite H; lra|]. apply Qmult_integral in H. destruct H; [assumption|lra].
  - intros F. assert (T : (total_of (map Qabs deltas) == - total_of deltas)%Q).
    { clear -F. induction F as [|x l Hx F IH]; [reflexivity|]. cbn [map]. unfold total_of in *. cbn [fold_right]. rewrite IH, Qabs_neg by exact Hx. lra. }
    apply (Qmult_inj_r _ _ m); [lra|]. rewrite A, T, <- D. lra.
Qed.
Lemma convex_result n f score design draws : convex n f -> evaluated n f design -> good_draws (length design) draws ->
  (forall x, length x = n -> score x = Ok (f x)) -> 2 < length design -> draws <> [] ->
  exists deltas, ela_init score design draws = Ok deltas /\ deltas <> [] /\ Forall (fun d => d <= 0)%Q deltas /\
    (linear_deviation_abs deltas == - linear_deviation deltas)%Q.
Proof.
  intros C Ev G Sc L N. destruct (init_spec n f score design draws Ev G Sc L N) as (ds & E & Len & F). exists ds. split; [exact E|].
  assert (Nd : ds <> []) by (destruct ds; [destruct draws; [congruence|discriminate]|discriminate]). split; [exact Nd|].
  assert (H : Forall (fun d => d <= 0)%Q ds) by (eapply (shape_deltas Qle); eauto; intros; lra).
  split; [exact H|]. apply deviation_bounds; auto.
Qed.
Lemma concave_result n f score design draws t : concave n f -> evaluated n f design -> good_draws (length design) draws ->
  (forall x, length x = n -> score x = Ok (f x)) -> 2 < length design -> draws <> [] -> (t < 0)%Q ->
  exists deltas q, ela_init score design draws = Ok deltas /\ Forall (fun d => 0 <= d)%Q deltas /\ convex_p t deltas = Ok q /\ (q == 0)%Q.
Proof.
  intros C Ev G Sc L N T. destruct (init_spec n f score design draws Ev G Sc L N) as (ds & E & Len & F).
  assert (Nd : ds <> []) by (destruct ds; [destruct draws; [congruence|discriminate]|discriminate]).
  assert (H : Forall (fun d => 0 <= d)%Q ds) by (eapply (shape_deltas (fun p c => Qle c p)); eauto; intros; lra).
  destruct (ratio_spec (fun d => Qltb d t) t ds T Nd) as (q & E' & S & _). exists ds, q. split; [exact E|]. split; [exact H|]. split; [exact E'|].
  eapply share_none; eauto. intros x I. rewrite Forall_forall in H. specialize (H x I). apply Qltb_false. lra.
Qed.
Lemma affine_result n f score design draws : affine n f -> evaluated n f design -> good_draws (length design) draws ->
  (forall x, length x = n -> score x = Ok (f x)) -> 2 < length design -> draws <> [] ->
  exists deltas, ela_init score design draws = Ok deltas /\ Forall (fun d => d == 0)%Q deltas /\ (linear_deviation_abs deltas == 0)%Q /\ (linear_deviation deltas == 0)%Q.
Proof.
  intros C Ev G Sc L N. destruct (init_spec n f score design draws Ev G Sc L N) as (ds & E & Len & F).
  assert (Nd : ds <> []) by (destruct ds; [destruct draws; [congruence|discriminate]|discriminate]).
  assert (H : Forall (fun d => d == 0)%Q ds) by (eapply (shape_deltas Qeq); eauto; intros; lra).
  exists ds. split; [exact E|]. split; [exact H|]. destruct (deviation_bounds ds Nd) as (B1 & B2 & B3). assert (Z : (linear_deviation_abs ds == 0)%Q) by (apply B2; exact H).
  split; [exact Z|]. rewrite Z in B1. revert B1. apply Qabs_case; intros; lra.
Qed.
Lemma gap_props score design draws n f : evaluated n f design -> good_draws (length design) draws ->
  (forall x, length x = n -> score x = Ok (f x)) -> 2 < length design -> draws <> [] ->
  exists deltas, ela_init score design draws = Ok deltas /\ length deltas = length draws /\
    forall k i j a, nth_error draws k = Some (i, j, a) -> exists x vx y vy d, nth_error design i = Some (x, vx) /\
      nth_error design j = Some (y, vy) /\ nth_error deltas k = Some d /\ (d == chord_gap f a x y)%Q.
Proof.
  intros Ev G Sc L N. destruct (init_spec n f score design draws Ev G Sc L N) as (ds & E & Len & F). exists ds. split; [exact E|]. split; [exact Len|].
  clear -F. induction F as [|dr d draws ds (x & vx & y & vy & Ei & Ej & Ed) F IH]; intros k i j a H; [destruct k; discriminate|].
  destruct k as [|k]; cbn in H; [|apply (IH k i j a H)]. injection H as ->. exists x, vx, y, vy, d. auto.
Qed.
