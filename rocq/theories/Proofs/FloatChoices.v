From Verif Require Import Model.Base Model.Rules Model.Variation Model.Proportional Model.Floats Spec.Floats Proofs.Order Proofs.Floats Proofs.FloatUses.
From Coq Require Import QArith Qabs Qpower Qround Lia Lqa Qfield Setoid Morphisms.
Local Open Scope Q_scope.

Lemma rnd_shrinks W u : pow2 (-1021) <= W -> unit_draw u -> rnd (u * W) < W.
Proof.
  intros L Hu. destruct (unit_range u Hu) as (U0 & U1 & _ & _). assert (E0 := eps_pos). assert (E1 := eps_small).
  set (q := W * (1 - eps)). assert (P := pow2_pos (-1022)). replace (-1021)%Z with (-1022 + 1)%Z in L by lia. rewrite pow2_S in L.
  assert (Wp : 0 < eps * W) by (apply Qmult_lt_0_compat; lra).
  assert (Wh : eps * W <= (1 # 1000) * W) by (apply Qmult_le_compat_r; lra).
  assert (Q1 : pow2 (-1022) <= q) by (unfold q; lra).
  assert (R : rnd (u * W) <= rnd q).
  { apply rnd_mono. unfold q. rewrite (Qmult_comm W). apply Qmult_le_compat_r; lra. }
  assert (N := rnd_up q (or_intror Q1)). assert (q < W) by (unfold q; lra). assert (eps * q < eps * W) by (apply Qmult_lt_l; assumption).
  assert (q + eps * W == W) by (unfold q; ring). lra.
Qed.
Lemma bisect_picks ws acc x lo : binary64 acc -> acc <= x -> x < fold_left fadd ws acc ->
  exists i w, bisect_right (firstn (length ws - 1) (accumulate_f acc ws)) x lo = (lo + i)%nat /\ nth_error ws i = Some w /\ ~ w == 0.
Proof.
  revert acc lo. induction ws as [|w ws IH]; intros acc lo B H1 H2; cbn [fold_left] in H2; [lra|].
  assert (Z : x < fadd acc w -> ~ w == 0).
  { intros L E. unfold fadd in L. rewrite E, Qplus_0_r, (rnd_id acc B) in L. lra. }
  destruct ws as [|w' ws].
  - exists 0%nat, w. cbn. split; [lia|]. split; [reflexivity|]. apply Z, H2.
  - replace (length (w :: w' :: ws) - 1)%nat with (S (length (w' :: ws) - 1)) by (cbn; lia).
    cbn [accumulate_f firstn bisect_right]. destruct (Qltb x (fadd acc w)) eqn:E.
    + exists 0%nat, w. split; [lia|]. split; [reflexivity|]. apply Z, Qltb_lt, E.
    + apply Qltb_false in E. destruct (IH (fadd acc w) (S lo) (rnd_b64 _) E H2) as (i & v & E1 & E2 & E3).
      exists (S i), v. cbn [accumulate_f] in E1. rewrite E1. split; [lia|]. split; assumption.
Qed.
Lemma last_fold ws acc d : ws <> [] -> last (accumulate_f acc ws) d = fold_left fadd ws acc.
Proof.
  revert acc. induction ws as [|w ws IH]; intros acc N; [congruence|]. destruct ws as [|w' ws]; [reflexivity|].
  change (last (accumulate_f (fadd acc w) (w' :: ws)) d = fold_left fadd (w' :: ws) (fadd acc w)). apply IH. discriminate.
Qed.
Lemma fold_elem ws acc w : In w ws -> Forall (fun v => 0 <= v) ws -> binary64 w -> 0 <= acc -> binary64 acc -> w <= fold_left fadd ws acc.
Proof.
  intros I F. revert acc I. induction F as [|v ws Hv F IH]; intros acc I Bw A Ba; [destruct I|]. cbn [fold_left].
  assert (A' : 0 <= fadd acc v) by (apply rnd_nonneg; lra). destruct I as [->|I].
  - eapply Qle_trans; [|apply fold_up; [apply rnd_b64|exact F]]. apply rnd_ge_b; [exact Bw|lra].
  - apply IH; try assumption. apply rnd_b64.
Qed.
Lemma proportional_picks {A} (population : list A) values total u :
  length values = length population -> Forall (fun v => 0 <= v) values -> 0 < total ->
  Exists (fun v => pow2 (-1000) * total <= v) values -> unit_draw u ->
  exists i v x, nth_error values i = Some v /\ 0 < v /\ nth_error population i = Some x /\
                proportional_turn_f population values total u = Ok x.
Proof.
  intros EL F Ht Hb Hu. set (ws := map (fun v => fdiv v total) values).
  assert (Fw : Forall (fun v => 0 <= v) ws).
  { unfold ws. apply Forall_map. revert F. apply Forall_impl. intros v Hv. apply rnd_nonneg. apply Qle_shift_div_l; lra. }
  apply Exists_exists in Hb. destruct Hb as (v & Iv & Hv).
  assert (W : pow2 (-1000) <= fold_left fadd ws 0).
  { apply Qle_trans with (fdiv v total).
    - apply rnd_ge_b; [apply b64_pow2; lia|]. apply Qle_shift_div_l; [exact Ht|exact Hv].
    - apply fold_elem; [unfold ws; apply (in_map (fun v => fdiv v total)), Iv|exact Fw|apply rnd_b64|apply Qle_refl|apply b64_0]. }
  assert (P : pow2 (-1021) <= pow2 (-1000)) by (apply pow2_le; lia). assert (P0 := pow2_pos (-1000)).
  destruct (unit_range u Hu) as (U0 & _).
  assert (Nw : ws <> []) by (unfold ws; destruct values; [destruct Iv|discriminate]).
  destruct (bisect_picks ws 0 (fmul u (fold_left fadd ws 0)) 0 b64_0) as (i & w & E1 & E2 & E3).
  { apply rnd_nonneg, Qmult_le_0_compat; lra. }
  { apply rnd_shrinks; [lra|exact Hu]. }
  unfold ws in E2. rewrite nth_error_map in E2. destruct (nth_error values i) as [v'|] eqn:Ev; [|discriminate]. cbn in E2. injection E2 as <-.
  assert (Ip : (i < length population)%nat) by (rewrite <- EL; apply nth_error_Some; congruence).
  destruct (nth_error population i) as [x|] eqn:Ex; [|apply nth_error_None in Ex; lia].
  exists i, v', x. split; [exact Ev|]. split.
  - assert (V : 0 <= v') by (rewrite Forall_forall in F; apply F; eapply nth_error_In; exact Ev).
    destruct (Qle_lt_or_eq _ _ V) as [L|L]; [exact L|]. exfalso. apply E3. unfold fdiv. rewrite <- L. setoid_replace (0 / total) with 0 by (unfold Qdiv; ring). reflexivity.
  - split; [exact Ex|]. unfold proportional_turn_f. fold ws.
    assert (C : choices_index_f ws u = Ok i).
    { unfold choices_index_f. cbv zeta. rewrite (last_fold ws 0 0 Nw).
      destruct (Qle_bool (fold_left fadd ws 0) 0) eqn:D; [apply Qle_bool_iff in D; lra|]. rewrite E1. destruct ws; [congruence|reflexivity]. }
    rewrite C. cbn [bind]. rewrite Ex. reflexivity.
Qed.

(** ** assembled *)
Lemma sus_powers {A} (population : list A) zs n k u :
  population <> [] -> length zs = length population -> Forall (fun z => (0 <= z)%Z) zs ->
  (Z.of_nat n = 2 ^ Z.of_nat k)%Z -> (Zsum zs * Z.of_nat n <= 2 ^ 53)%Z -> (Zsum zs <= 2 ^ 53)%Z -> (Z.of_nat n <= 2 ^ 53)%Z -> unit_draw u ->
  exists xs, sus_pass_f population (map inject_Z zs) (inject_Z (Zsum zs)) n u = Ok xs /\ length xs = n /\ incl xs population.
Proof.
  intros N EL F Hn H1 H2 H3 Hu. assert (0 < 2 ^ Z.of_nat k)%Z by (apply Z.pow_pos_nonneg; lia).
  apply sus_safe; try assumption; [lia|]. apply (last_power _ k); try assumption. apply Zsum_nonneg, F.
Qed.
Lemma sus_rare {A} (population : list A) zs n u :
  population <> [] -> length zs = length population -> Forall (fun z => (0 <= z)%Z) zs -> (Zsum zs <= 2 ^ 53)%Z ->
  (1 <= n)%nat -> (Z.of_nat n <= 2 ^ 53)%Z -> unit_draw u -> u <= 1 - 3 * inject_Z (Z.of_nat n) * eps ->
  exists xs, sus_pass_f population (map inject_Z zs) (inject_Z (Zsum zs)) n u = Ok xs /\ length xs = n /\ incl xs population.
Proof.
  intros N EL F H1 H2 H3 Hu Hu3. apply sus_safe; try assumption. apply last_rare; try assumption. split; [apply Zsum_nonneg, F|exact H1].
Qed.
Lemma decode_order b l u c c' : (1 <= b)%nat -> binary64 l -> l <= u -> (0 <= c <= c')%Z ->
  decode_f b l u 0 == l /\ l <= decode_f b l u c /\ decode_f b l u c <= decode_f b l u c'.
Proof.
  intros Hb B H Hc. assert (Z := decode_0 b l u B). split; [exact Z|]. split.
  - apply Qle_trans with (decode_f b l u 0); [lra|]. apply decode_mono; try assumption. lia.
  - apply decode_mono; try assumption. lia.
Qed.
Lemma decode_range b l u c : (1 <= b <= 53)%nat -> binary64 l -> binary64 u -> l <= u ->
  binary64 (u - l) -> binary64 ((u - l) / inject_Z (2 ^ Z.of_nat b - 1)) -> (0 <= c < 2 ^ Z.of_nat b)%Z ->
  l <= decode_f b l u c /\ decode_f b l u c <= u.
Proof.
  intros Hb Bl Bu H B1 B2 Hc. assert (T := decode_top b l u Hb Bu B1 B2).
  destruct (decode_order b l u c (2 ^ Z.of_nat b - 1) (proj1 Hb) Bl H ltac:(lia)) as (_ & X & Y). split; [exact X|lra].
Qed.
Lemma scaled_all o0 o1 b0 b1 x : binary64 o0 -> binary64 o1 -> o0 <= o1 -> binary64 (o1 - o0) ->
  binary64 b0 -> binary64 b1 -> b0 < b1 -> b0 <= x -> x <= b1 ->
  (o0 <= scaled_point_f (o0, o1) (b0, b1) x /\ scaled_point_f (o0, o1) (b0, b1) x <= o1) /\
  scaled_point_f (o0, o1) (b0, b1) b0 == o0 /\ scaled_point_f (o0, o1) (b0, b1) b1 == o1.
Proof. intros. split; [apply scaled_range; assumption|apply scaled_ends; assumption]. Qed.
Lemma bernoulli_ok us p : 0 <= p -> p <= 1 -> random_bernoulli_vector us p = Ok (map (fun u => Qltb u p) us).
Proof.
  intros A B. unfold random_bernoulli_vector. apply Qle_bool_iff in A, B. rewrite A, B. reflexivity.
Qed.
Lemma rate_mask expected len us : (1 <= len)%nat -> (Z.of_nat len <= 2 ^ 53)%Z -> 0 <= expected -> expected <= inject_Z (Z.of_nat len) ->
  exists p, expected_probability_f expected len = Ok p /\ random_bernoulli_vector us p = Ok (map (fun u => Qltb u p) us) /\
    0 <= p /\ p <= 1 /\
    (expected == 0 \/ Qpower 2 (-900) <= expected -> within (3 * eps) (expected / inject_Z (Z.of_nat len)) p).
Proof.
  intros H1 H2 X0 X1. destruct (rate expected len H1 H2 X0 X1) as (p & E & P0 & P1 & W). exists p. split; [exact E|].
  split; [apply bernoulli_ok; assumption|]. split; [exact P0|]. split; [exact P1|exact W].
Qed.
Lemma rate_none len us : (1 <= len)%nat -> Forall unit_draw us ->
  exists p, expected_probability_f 0 len = Ok p /\ random_bernoulli_vector us p = Ok (map (fun _ => false) us).
Proof.
  intros H F. unfold expected_probability_f. destruct (Nat.eqb_spec len 0) as [->|_]; [lia|]. eexists. split; [reflexivity|].
  assert (E : fmul (fdiv 1 (of_int (Z.of_nat len))) 0 == 0) by (unfold fmul; rewrite Qmult_0_r; reflexivity).
  set (p := fmul _ _) in *. clearbody p. rewrite bernoulli_ok by lra. f_equal. apply map_ext_in. intros u Hu.
  rewrite Forall_forall in F. destruct (unit_range u (F u Hu)) as (U0 & _). apply Qltb_false. lra.
Qed.
Lemma rate_all_mask k len us : (Z.of_nat len = 2 ^ Z.of_nat k)%Z -> (Z.of_nat len <= 2 ^ 53)%Z -> Forall unit_draw us ->
  exists p, expected_probability_f (inject_Z (Z.of_nat len)) len = Ok p /\ random_bernoulli_vector us p = Ok (map (fun _ => true) us).
Proof.
  intros H1 H2 F. destruct (rate_all k len H1 H2) as (p & E & P). exists p. split; [exact E|].
  rewrite bernoulli_ok by lra. f_equal. apply map_ext_in. intros u Hu. rewrite Forall_forall in F.
  destruct (unit_range u (F u Hu)) as (_ & U1 & _). assert (E0 := eps_pos). apply Qltb_lt. lra.
Qed.
Lemma nearest_comp x y y' : y == y' -> nearest x y' -> nearest x y.
Proof.
  intros E [B N]. split; [apply (b64_comp y'); [symmetry; exact E|exact B]|]. intros z Bz. specialize (N z Bz).
  assert (X : Qabs (y - x) == Qabs (y' - x)) by (apply Qabs_wd; rewrite E; reflexivity). lra.
Qed.
Lemma mean_nearest zs : zs <> [] -> Forall (fun z => (0 <= z)%Z) zs -> (Zsum zs <= 2 ^ 53)%Z -> (Z.of_nat (length zs) <= 2 ^ 53)%Z ->
  nearest (inject_Z (Zsum zs) / inject_Z (Z.of_nat (length zs))) (mean_f (map inject_Z zs)).
Proof. intros N F H L. apply (nearest_comp _ _ _ (mean_int zs N F H L)), rnd_nearest. Qed.
