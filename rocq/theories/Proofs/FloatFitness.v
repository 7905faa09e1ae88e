From Verif Require Import Model.Base Model.Rules Model.Proportional Model.Floats Model.FloatMeans Model.FloatFitness Spec.Floats Spec.FloatMeans Spec.FloatFitness Proofs.Order Proofs.Floats Proofs.FloatUses Proofs.FloatChoices Proofs.FloatMeans.
From Coq Require Import QArith Qabs Qpower Lia Lqa Qfield Setoid Morphisms Permutation Znumtheory Qreduction Qcanon.
Local Open Scope Q_scope.
Local Open Scope Q_scope.

Lemma diff_pos x y : binary64 x -> binary64 y -> y < x -> 0 < rnd (x + - y).
Proof.
  intros Bx By H. assert (R := add_rel x (- y) Bx (b64_opp y By)). unfold within in R. assert (E := eps_pos). assert (E1 := eps_small).
  rewrite (Qabs_pos (x + - y)) in R by lra. apply Qabs_Qle_condition in R. destruct R as [R _].
  assert (eps * (x + - y) <= (1 # 1000) * (x + - y)) by (apply Qmult_le_compat_r; lra). lra.
Qed.
Lemma diff_neg x y : binary64 x -> binary64 y -> x < y -> rnd (x + - y) < 0.
Proof.
  intros Bx By H. assert (R := add_rel x (- y) Bx (b64_opp y By)). unfold within in R. assert (E := eps_pos). assert (E1 := eps_small).
  rewrite (Qabs_neg (x + - y)) in R by lra. apply Qabs_Qle_condition in R. destruct R as [_ R].
  assert (eps * - (x + - y) <= (1 # 1000) * - (x + - y)) by (apply Qmult_le_compat_r; lra). lra.
Qed.

(** offsets *)
Lemma offset_mono c a b : a <= b -> offset_f c a <= offset_f c b.
Proof. intros H. apply rnd_mono. lra. Qed.
Lemma offset_whole c z : (Z.abs (z + c) <= 2 ^ 53)%Z -> offset_f (inject_Z c) (inject_Z z) == inject_Z z + inject_Z c.
Proof. intros H. unfold offset_f, fadd. rewrite <- inject_Z_plus. apply rnd_id, b64_int, H. Qed.
Lemma offset_error c a : binary64 a -> binary64 c -> within eps (a + c) (offset_f c a).
Proof. intros A C. apply add_rel; assumption. Qed.

(** parsimony *)
Lemma of_int_mono a b : (a <= b)%Z -> of_int a <= of_int b.
Proof. intros H. apply rnd_mono. rewrite <- Zle_Qle. exact H. Qed.
Lemma koza_mono maximize penalty f f' len len' : 0 <= penalty -> as_good maximize f' f -> (len' <= len)%nat ->
  koza_f maximize penalty f len <= koza_f maximize penalty f' len'.
Proof.
  intros P G L. assert (O : of_int (Z.of_nat len') <= of_int (Z.of_nat len)) by (apply of_int_mono; lia).
  assert (M : fmul penalty (of_int (Z.of_nat len')) <= fmul penalty (of_int (Z.of_nat len))).
  { apply rnd_mono. rewrite !(Qmult_comm penalty). apply Qmult_le_compat_r; assumption. }
  unfold koza_f, as_good in *. destruct maximize; apply rnd_mono; lra.
Qed.
Lemma koza_whole (maximize : bool) p f len : (Z.of_nat len <= 2 ^ 53)%Z -> (Z.abs (p * Z.of_nat len) <= 2 ^ 53)%Z ->
  (Z.abs ((if maximize then f else - f) - p * Z.of_nat len) <= 2 ^ 53)%Z ->
  koza_f maximize (inject_Z p) (inject_Z f) len == (if maximize then inject_Z f else - inject_Z f) - inject_Z p * inject_Z (Z.of_nat len).
Proof.
  intros L P H. assert (E : fmul (inject_Z p) (of_int (Z.of_nat len)) == inject_Z (p * Z.of_nat len)).
  { unfold fmul. rewrite of_int_id by lia. rewrite <- inject_Z_mult. apply rnd_id, b64_int, P. }
  assert (K : forall v, koza_f maximize (inject_Z p) (inject_Z f) len = fsub v (fmul (inject_Z p) (of_int (Z.of_nat len))) ->
    v == inject_Z (if maximize then f else - f) -> koza_f maximize (inject_Z p) (inject_Z f) len == v - inject_Z p * inject_Z (Z.of_nat len)).
  { intros v -> V. unfold fsub. rewrite E, V. unfold Qminus. rewrite <- inject_Z_mult, <- inject_Z_opp, <- inject_Z_plus. apply rnd_id, b64_int.
    replace ((if maximize then f else - f) + - (p * Z.of_nat len))%Z with ((if maximize then f else - f) - p * Z.of_nat len)%Z by lia. exact H. }
  destruct maximize; apply K; reflexivity.
Qed.

(** truth tables *)
Lemma table_exact score k : (0 <= score <= 2 ^ Z.of_nat k)%Z -> (k <= 53)%nat ->
  table_fitness_f score k == inject_Z score / inject_Z (2 ^ Z.of_nat k).
Proof.
  intros [S0 S1] K. assert (T : (2 ^ Z.of_nat k <= 2 ^ 53)%Z) by (apply Z.pow_le_mono_r; lia).
  unfold table_fitness_f, fdiv. assert (Tp : (0 < 2 ^ Z.of_nat k)%Z) by (apply Z.pow_pos_nonneg; lia).
  rewrite !of_int_id by lia. apply rnd_id.
  apply (b64_comp (inject_Z score * pow2 (- Z.of_nat k))); [|apply b64_scaled; lia].
  unfold Qdiv. apply Qmult_comp; [reflexivity|]. unfold pow2. rewrite Qpower_opp. apply Qinv_comp.
  fold (pow2 (Z.of_nat k)). apply pow2_Z. lia.
Qed.

(** crowding *)
Lemma skipped_iff lo hi : binary64 lo -> binary64 hi -> skipped_f lo hi = true <-> lo == hi.
Proof.
  intros Bl Bh. unfold skipped_f, fsub. rewrite Qeq_bool_iff. split; intros H.
  - destruct (Q_dec lo hi) as [[L|L]|L]; [| |exact L].
    + assert (D := diff_pos hi lo Bh Bl L). fold (hi - lo) in D. lra.
    + assert (D := diff_neg hi lo Bh Bl L). fold (hi - lo) in D. lra.
  - transitivity (rnd 0); [apply rnd_comp; lra|reflexivity].
Qed.
Lemma gap_range f_min f_max before after : between_extremes (f_min, f_max, before, after) ->
  0 <= gap_f f_min f_max before after /\ gap_f f_min f_max before after <= 1.
Proof.
  intros (Bl & Bh & H). unfold gap_f, fdiv.
  assert (K : forall a b, 0 < b -> 0 <= a -> a <= b -> 0 <= rnd (a / b) /\ rnd (a / b) <= 1).
  { intros a b B A AB. split.
    - apply rnd_nonneg. unfold Qdiv. apply Qmult_le_0_compat; [exact A|]. apply Qlt_le_weak, Qinv_lt_0_compat, B.
    - apply rnd_le_b; [apply (b64_int 1); lia|]. apply Qle_shift_div_r; [exact B|]. lra. }
  destruct H as [(L1 & L2 & L3 & L4)|(L1 & L2 & L3 & L4)].
  - apply K; [apply diff_pos; assumption|apply rnd_nonneg; lra|apply rnd_mono; lra].
  - assert (D : fsub f_max f_min < 0) by (apply diff_neg; assumption). assert (N : fsub after before <= 0) by (apply rnd_le_b; [apply b64_0|lra]).
    assert (M : fsub f_max f_min <= fsub after before) by (apply rnd_mono; lra).
    set (a := fsub after before) in *. set (b := fsub f_max f_min) in *. clearbody a b.
    assert (E : rnd (a / b) == rnd ((- a) / (- b))) by (apply rnd_comp; field; lra). rewrite E. apply K; lra.
Qed.
Lemma distance_range objs : (Z.of_nat (length objs) <= 2 ^ 53)%Z -> Forall between_extremes objs ->
  0 <= distance_f objs /\ distance_f objs <= inject_Z (Z.of_nat (length objs)).
Proof.
  intros L F. unfold distance_f.
  enough (G : forall k d, 0 <= d -> d <= inject_Z (Z.of_nat k) -> (Z.of_nat (k + length objs) <= 2 ^ 53)%Z ->
    0 <= fold_left (fun d '(f_min, f_max, before, after) => fadd d (gap_f f_min f_max before after)) objs d /\
    fold_left (fun d '(f_min, f_max, before, after) => fadd d (gap_f f_min f_max before after)) objs d <= inject_Z (Z.of_nat (k + length objs))).
  { apply (G 0%nat 0); [apply Qle_refl|apply Qle_refl|exact L]. }
  clear L. induction F as [|[[[lo hi] a] b] objs H F IH]; intros k d D0 D1 L; cbn [fold_left length].
  - rewrite Nat.add_0_r. split; assumption.
  - replace (k + S (length objs))%nat with (S k + length objs)%nat by lia. cbn [length] in L. destruct (gap_range _ _ _ _ H) as [G0 G1].
    apply IH; [apply rnd_nonneg; lra| |lia]. apply rnd_le_b; [apply b64_int; lia|].
    rewrite Nat2Z.inj_succ. unfold Z.succ. rewrite inject_Z_plus. change (inject_Z 1) with 1. lra.
Qed.

(** pop-min *)
Lemma minimum_le l : forall x, minimum x l <= x /\ (forall y, In y l -> minimum x l <= y) /\ (minimum x l = x \/ In (minimum x l) l).
Proof.
  induction l as [|y l IH]; intros x; cbn [minimum]; [split; [apply Qle_refl|split; [intros ? []|left; reflexivity]]|].
  destruct (Qltb y x) eqn:E.
  - apply Qltb_lt in E. destruct (IH y) as (A & B & C). split; [lra|]. split.
    + intros z [<-|Hz]; [exact A|apply B, Hz].
    + right. destruct C as [->|C]; [left; reflexivity|right; exact C].
  - apply Qltb_ge in E. destruct (IH x) as (A & B & C). split; [exact A|]. split.
    + intros z [<-|Hz]; [lra|apply B, Hz].
    + destruct C as [C|C]; [left; exact C|right; right; exact C].
Qed.
Lemma max_exists (l : list Q) : l <> [] -> exists m, In m l /\ Forall (fun x => x <= m) l.
Proof.
  induction l as [|x l IH]; [congruence|]. intros _. destruct l as [|y l].
  - exists x. split; [left; reflexivity|]. constructor; [apply Qle_refl|constructor].
  - destruct IH as (m & I & F); [discriminate|]. destruct (Qlt_le_dec x m) as [H|H].
    + exists m. split; [right; exact I|]. constructor; [lra|exact F].
    + exists x. split; [left; reflexivity|]. constructor; [apply Qle_refl|]. eapply Forall_impl; [|exact F]. cbn. intros; lra.
Qed.
Lemma size_bound l m : Forall (fun x => 0 <= x) l -> Forall (fun x => x <= m) l -> size_sum l <= inject_Z (Z.of_nat (length l)) * m.
Proof.
  intros F G. induction l as [|x l IH].
  - change (size_sum []) with 0. change (inject_Z (Z.of_nat (length (@nil Q)))) with 0. rewrite Qmult_0_l. apply Qle_refl.
  - rewrite size_cons. inversion F; inversion G; subst. rewrite Qabs_pos by assumption. cbn [length]. rewrite Nat2Z.inj_succ. unfold Z.succ.
    rewrite inject_Z_plus. change (inject_Z 1) with 1. assert (IH' := IH ltac:(assumption) ltac:(assumption)). lra.
Qed.
Lemma eps_two51 n : (Z.of_nat n <= 2 ^ 51)%Z -> inject_Z (Z.of_nat n) * eps <= 1 # 4.
Proof.
  intros H. rewrite Zle_Qle in H. assert (E : inject_Z (2 ^ 51) * eps == 1 # 4) by reflexivity. rewrite <- E.
  apply Qmult_le_compat_r; [exact H|]. apply Qlt_le_weak, eps_pos.
Qed.
Lemma tiny_share o l : l <> [] -> covers o (length l) -> (Z.of_nat (length l) <= 2 ^ 51)%Z -> Forall binary64 l -> Forall (fun x => 0 <= x) l ->
  Exists (fun v => pow2 (-1000) * sum_in o l <= v) l.
Proof.
  intros N C L B F. destruct (max_exists l N) as (m & I & M). apply Exists_exists. exists m. split; [exact I|].
  assert (E := sum_error o l C B). assert (SB := size_bound l m F M). assert (S0 := size_nonneg l). assert (ES := exact_size l).
  assert (H := height_covers o _ C). assert (G := grow_lin (height o) ltac:(apply eps_two51; lia)). assert (G4 := eps_two51 (height o) ltac:(lia)).
  assert (m0 : 0 <= m) by (rewrite Forall_forall in F; apply F, I).
  apply Qabs_Qle_condition in E. destruct E as [_ E]. apply Qabs_Qle_condition in ES. destruct ES as [_ ES].
  assert (G2 : grow (height o) <= 2) by lra. assert (G1 := grow_ge (height o)).
  assert (T1 : sum_in o l <= grow (height o) * size_sum l) by lra.
  assert (T2 : grow (height o) * size_sum l <= 2 * size_sum l) by (apply Qmult_le_compat_r; lra).
  assert (T3 : inject_Z (Z.of_nat (length l)) * m <= inject_Z (2 ^ 51) * m) by (apply Qmult_le_compat_r; [rewrite <- Zle_Qle; exact L|exact m0]).
  assert (P := pow2_pos (-1000)). assert (T4 : pow2 (-1000) * sum_in o l <= pow2 (-1000) * (2 * (inject_Z (2 ^ 51) * m))).
  { rewrite !(Qmult_comm (pow2 (-1000))). apply Qmult_le_compat_r; lra. }
  assert (T5 : pow2 (-1000) * (2 * inject_Z (2 ^ 51)) <= 1) by (vm_compute; discriminate).
  assert (T6 : pow2 (-1000) * (2 * (inject_Z (2 ^ 51) * m)) == (pow2 (-1000) * (2 * inject_Z (2 ^ 51))) * m) by ring.
  assert (T7 : (pow2 (-1000) * (2 * inject_Z (2 ^ 51))) * m <= 1 * m) by (apply Qmult_le_compat_r; [exact T5|exact m0]).
  rewrite Qmult_1_l in T7. eapply Qle_trans; [exact T4|]. rewrite T6. exact T7.
Qed.
Lemma pop_min_values keys values : Forall binary64 keys -> pop_min_values_f keys = Ok values ->
  length values = length keys /\ Forall binary64 values /\ Forall (fun v => 0 <= v) values /\
  exists m, In m keys /\ (forall k, In k keys -> m <= k) /\ (forall i k, nth_error keys i = Some k -> nth_error values i = Some (rnd (k + - m))).
Proof.
  intros B E. destruct keys as [|x r]; [discriminate|]. unfold pop_min_values_f in E. cbv zeta in E. injection E as <-.
  destruct (minimum_le r x) as (A1 & A2 & A3). set (m := minimum x r) in *.
  change (fadd x (- m) :: map (fun v => fadd v (- m)) r) with (map (fun v => fadd v (- m)) (x :: r)).
  assert (LE : forall k, In k (x :: r) -> m <= k) by (intros k [<-|Hk]; [exact A1|apply A2, Hk]).
  split; [apply (map_length (fun v => fadd v (- m)) (x :: r))|].
  split; [apply Forall_map, Forall_forall; intros; apply rnd_b64|].
  split; [apply Forall_map, Forall_forall; intros k Hk; apply rnd_nonneg; specialize (LE k Hk); lra|].
  exists m. split; [destruct A3 as [->|A3]; [left; reflexivity|right; exact A3]|]. split; [exact LE|].
  intros i k Hi. apply (map_nth_error (fun v => fadd v (- m))) in Hi. exact Hi.
Qed.
Lemma pop_min_pick {A} (population : list A) keys o u :
  length keys = length population -> Forall binary64 keys -> covers o (length keys) -> (Z.of_nat (length keys) <= 2 ^ 51)%Z ->
  (exists a b, In a keys /\ In b keys /\ a < b) -> unit_draw u ->
  exists i k k' x, nth_error keys i = Some k /\ In k' keys /\ k' < k /\ nth_error population i = Some x /\
                   pop_min_turn_f population keys o u = Ok x.
Proof.
  intros EL B C L (a & b & Ia & Ib & Hab) Hu. unfold pop_min_turn_f.
  destruct (pop_min_values_f keys) as [values|] eqn:EV; [|destruct keys; [destruct Ia|discriminate]]. cbn [bind].
  destruct (pop_min_values keys values B EV) as (VL & VB & V0 & m & Im & LE & NV).
  assert (X : existsb (fun v => Qltb v 0) values = false).
  { apply Bool.not_true_is_false. intros K. apply existsb_exists in K. destruct K as (v & Iv & Hv). apply Qltb_lt in Hv.
    rewrite Forall_forall in V0. specialize (V0 v Iv). lra. }
  rewrite X. rewrite <- VL in C, L.
  assert (BK : forall k, In k keys -> binary64 k) by (rewrite Forall_forall in B; exact B).
  assert (NE : values <> []) by (intros ->; destruct keys; [destruct Ia|discriminate]).
  destruct (In_nth_error _ _ Ib) as (ib & Hib). assert (Vb := NV ib b Hib).
  assert (P : 0 < rnd (b + - m)) by (apply diff_pos; [apply BK, Ib|apply BK, Im|specialize (LE a Ia); lra]).
  assert (T : 0 < sum_in o values).
  { eapply Qlt_le_trans; [exact P|]. rewrite <- (nth_error_nth values ib 0 Vb). apply sum_in_ge; [exact VB|exact V0|].
    eapply Permutation_in; [apply Permutation_sym, C|]. apply in_seq. assert (nth_error values ib <> None) by congruence.
    apply nth_error_Some in H. lia. }
  destruct (proportional_picks population values (sum_in o values) u ltac:(congruence) V0 T (tiny_share o values NE C L VB V0) Hu) as (i & v & x & Hv & Pv & Hx & R).
  assert (Hk : exists k, nth_error keys i = Some k).
  { destruct (nth_error keys i) eqn:E; [eauto|]. apply nth_error_None in E. assert (nth_error values i <> None) by congruence. apply nth_error_Some in H. lia. }
  destruct Hk as (k & Hk). exists i, k, m, x. split; [exact Hk|]. split; [exact Im|]. split; [|split; [exact Hx|exact R]].
  rewrite (NV i k Hk) in Hv. injection Hv as <-. assert (LK := LE k (nth_error_In _ _ Hk)).
  destruct (Qlt_le_dec m k) as [H|H]; [exact H|]. exfalso. assert (Z : rnd (k + - m) == 0) by (transitivity (rnd 0); [apply rnd_comp; lra|reflexivity]). lra.
Qed.

(** diversity *)
Lemma sum_in_zero o l : Forall (fun x => x == 0) l -> sum_in o l == 0.
Proof.
  intros F. induction o as [i|a IHa b IHb]; cbn [sum_in].
  - destruct (nth_in_or_default i l 0) as [I| ->]; [|reflexivity]. rewrite Forall_forall in F. apply F, I.
  - transitivity (rnd 0); [apply rnd_comp; lra|reflexivity].
Qed.
Lemma square_nonneg d : 0 <= fmul d d.
Proof. apply rnd_nonneg. destruct (Qlt_le_dec d 0) as [H|H]; [setoid_replace (d * d) with ((- d) * (- d)) by ring|]; apply Qmult_le_0_compat; lra. Qed.
Lemma diversity_nonneg root o1 o2 o3 genomes d : diversity_f root o1 o2 o3 genomes = Ok d -> 0 <= d.
Proof.
  unfold diversity_f. destruct genomes as [|g gs]; [discriminate|]. destruct (forallb _ _); [|discriminate]. cbv zeta. intros E.
  apply (f_equal (fun r => match r with Ok v => v | Err _ => 0 end)) in E. cbv beta iota in E. rewrite <- E.
  apply rnd_nonneg. apply Qmult_le_0_compat.
  - apply rnd_nonneg. change 0 with (inject_Z 0). rewrite <- Zle_Qle. lia.
  - apply sum_in_nonneg. apply Forall_map, Forall_forall. intros x _. apply square_nonneg.
Qed.
Lemma repeat_map {A B} (f : A -> B) x n : map f (repeat x n) = repeat (f x) n.
Proof. induction n; cbn; congruence. Qed.
Lemma diversity_converged root o1 o2 o3 zs n : (1 <= n)%nat -> (Z.of_nat n <= 2 ^ 53)%Z -> covers o1 n ->
  Forall (fun z => (Z.abs z * Z.of_nat n <= 2 ^ 53)%Z) zs -> exact_root root ->
  exists d, diversity_f root o1 o2 o3 (repeat (map inject_Z zs) n) = Ok d /\ d == 0.
Proof.
  intros Hn N C F R. set (g := map inject_Z zs). unfold diversity_f. destruct n as [|n']; [lia|]. set (n := S n') in *.
  assert (EG : repeat g n = g :: repeat g n') by reflexivity. rewrite EG. rewrite <- EG.
  assert (X : forallb (fun g' => (length g' =? length g)%nat) (repeat g n) = true).
  { apply forallb_forall. intros x Hx. apply repeat_spec in Hx. subst x. apply Nat.eqb_refl. }
  rewrite X. eexists. split; [reflexivity|]. clear X EG.
  set (c := centroid_f o1 (repeat g n) (length g)).
  assert (Sq : sq_norm_f root o2 c g == 0).
  { unfold sq_norm_f. set (sq := map _ (combine g c)).
    assert (Z : Forall (fun x => x == 0) sq).
    { subst sq. apply Forall_map, Forall_forall. intros [x y] I.
      apply (In_nth _ _ (0, 0)) in I. destruct I as (j & Lj & Ej). assert (Lc : length c = length g) by (subst c; unfold centroid_f; rewrite map_length, seq_length; reflexivity).
      rewrite combine_length, Lc, Nat.min_id in Lj. rewrite combine_nth in Ej by congruence. injection Ej as <- <-.
      assert (Ec : nth j c 0 == nth j g 0).
      { subst c. unfold centroid_f. rewrite (nth_indep _ 0 (mean_in o1 (map (fun g0 => nth (length g) g0 0) (repeat g n)))) by (rewrite map_length, seq_length; exact Lj).
        rewrite (map_nth (fun j => mean_in o1 (map (fun g0 => nth j g0 0) (repeat g n))) (seq 0 (length g)) (length g)).
        rewrite seq_nth by exact Lj. cbn [Nat.add]. rewrite repeat_map. unfold g at 1. rewrite nth_inject. unfold g. rewrite nth_inject.
        assert (Em := mean_in_constant o1 (nth j zs 0%Z) n Hn C N). rewrite repeat_map in Em. apply Em.
        rewrite Forall_forall in F. apply F, nth_In. unfold g in Lj. rewrite map_length in Lj. exact Lj. }
      cbv zeta. assert (D : fsub (nth j g 0) (nth j c 0) == 0) by (transitivity (rnd 0); [apply rnd_comp; lra|reflexivity]).
      set (d := fsub (nth j g 0) (nth j c 0)) in *. clearbody d. transitivity (rnd 0); [apply rnd_comp; rewrite D; reflexivity|reflexivity]. }
    assert (S0 := sum_in_zero o2 sq Z). cbv zeta.
    assert (R0 : root (sum_in o2 sq) == 0) by (apply R; [apply b64_0|apply Qle_refl|rewrite S0; reflexivity]).
    set (r := root (sum_in o2 sq)) in *. clearbody r. transitivity (rnd 0); [apply rnd_comp; rewrite R0; reflexivity|reflexivity]. }
  assert (S0 : sum_in o3 (map (sq_norm_f root o2 c) (repeat g n)) == 0).
  { apply sum_in_zero. rewrite repeat_map. apply Forall_forall. intros x Hx. apply repeat_spec in Hx. rewrite Hx. exact Sq. }
  set (s := sum_in o3 _) in *. clearbody s. transitivity (rnd 0); [apply rnd_comp; rewrite S0; ring|reflexivity].
Qed.
Lemma square_root_exact : exact_root square_root.
Proof.
  intros s x _ S0 E. unfold square_root. rewrite (Qred_complete x (Qred s * Qred s)) by (rewrite Qred_correct; exact E).
  assert (S1 : 0 <= Qred s) by (rewrite Qred_correct; exact S0).
  assert (G : Z.gcd (Qnum (Qred s)) (Zpos (Qden (Qred s))) = 1%Z) by (apply Qred_identity2; apply Qred_complete, Qred_correct).
  transitivity (Qred s); [|apply Qred_correct]. destruct (Qred s) as [n d]. cbn [Qnum Qden] in G. unfold Qmult. cbn [Qnum Qden].
  assert (RI : Qred (n * n # d * d) = (n * n # d * d)).
  { apply Qred_identity. cbn [Qnum Qden]. rewrite Pos2Z.inj_mul. apply Zgcd_1_rel_prime. apply rel_prime_mult; apply rel_prime_sym, rel_prime_mult; apply rel_prime_sym, Zgcd_1_rel_prime, G. }
  rewrite RI. cbn [Qnum Qden]. assert (n0 : (0 <= n)%Z) by (unfold Qle in S1; cbn in S1; lia).
  rewrite Z.sqrt_square by exact n0. rewrite Pos2Z.inj_mul, Z.sqrt_square by lia. reflexivity.
Qed.

(** more about crowding *)
Lemma gap_wider f_min f_max a b a' b' : between_extremes (f_min, f_max, a, b) ->
  (f_min < f_max -> a' <= a /\ b <= b') -> (f_max < f_min -> a <= a' /\ b' <= b) -> gap_f f_min f_max a b <= gap_f f_min f_max a' b'.
Proof.
  intros (Bl & Bh & H) Up Down. unfold gap_f, fdiv. apply rnd_mono.
  destruct H as [(L1 & _)|(L1 & _)].
  - destruct (Up L1) as [U1 U2]. assert (D : 0 < fsub f_max f_min) by (apply diff_pos; assumption).
    unfold Qdiv. apply Qmult_le_compat_r; [apply rnd_mono; lra|]. apply Qlt_le_weak, Qinv_lt_0_compat, D.
  - destruct (Down L1) as [U1 U2]. assert (D : fsub f_max f_min < 0) by (apply diff_neg; assumption).
    assert (M : fsub b' a' <= fsub b a) by (apply rnd_mono; lra).
    set (x := fsub b a) in *. set (y := fsub b' a') in *. set (d := fsub f_max f_min) in *. clearbody x y d.
    setoid_replace (x / d) with ((- x) / (- d)) by (field; lra). setoid_replace (y / d) with ((- y) / (- d)) by (field; lra).
    unfold Qdiv. apply Qmult_le_compat_r; [lra|]. apply Qlt_le_weak, Qinv_lt_0_compat. lra.
Qed.
Lemma gap_full f_min f_max : binary64 f_min -> binary64 f_max -> ~ f_min == f_max -> gap_f f_min f_max f_min f_max == 1.
Proof.
  intros Bl Bh N. unfold gap_f, fdiv. assert (D : ~ fsub f_max f_min == 0).
  { intros K. apply N. apply skipped_iff; [exact Bl|exact Bh|]. unfold skipped_f. apply Qeq_bool_iff, K. }
  transitivity (rnd 1); [|apply rnd_id, (b64_int 1); lia]. apply rnd_comp. field. exact D.
Qed.
Lemma distance_parts objs lo hi a b : Forall between_extremes objs -> In (lo, hi, a, b) objs -> gap_f lo hi a b <= distance_f objs.
Proof.
  intros F I. unfold distance_f.
  assert (Up : forall objs d, Forall between_extremes objs -> binary64 d ->
    d <= fold_left (fun d '(f_min, f_max, before, after) => fadd d (gap_f f_min f_max before after)) objs d).
  { clear. induction objs as [|[[[lo hi] a] b] objs IH]; intros d F B; cbn [fold_left]; [apply Qle_refl|].
    destruct (gap_range _ _ _ _ (Forall_inv F)) as [G0 _]. eapply Qle_trans; [|apply IH; [exact (Forall_inv_tail F)|apply rnd_b64]].
    apply rnd_ge_b; [exact B|]. lra. }
  enough (G : forall d, 0 <= d -> binary64 d -> gap_f lo hi a b <= fold_left (fun d '(f_min, f_max, before, after) => fadd d (gap_f f_min f_max before after)) objs d)
    by (apply G; [apply Qle_refl|apply b64_0]).
  induction objs as [|[[[l' h'] a'] b'] objs IH]; intros d D B; [destruct I|]. cbn [fold_left].
  destruct (gap_range _ _ _ _ (Forall_inv F)) as [G0 _]. destruct I as [E|I].
  - injection E as -> -> -> ->. eapply Qle_trans; [|apply Up; [exact (Forall_inv_tail F)|apply rnd_b64]]. apply rnd_ge_b; [apply rnd_b64|]. lra.
  - apply IH; [exact (Forall_inv_tail F)|exact I|apply rnd_nonneg; lra|apply rnd_b64].
Qed.

(** diversity, exactly *)
Lemma nth_comp l l' : Forall2 Qeq l l' -> forall i, nth i l 0 == nth i l' 0.
Proof. intros F. induction F as [|x y l l' H F IH]; intros [|i]; cbn; try reflexivity; auto. Qed.
Lemma sum_in_comp o l l' : Forall2 Qeq l l' -> sum_in o l == sum_in o l'.
Proof. intros F. induction o as [i|a IHa b IHb]; cbn [sum_in]; [apply nth_comp, F|]. apply rnd_comp. rewrite IHa, IHb. reflexivity. Qed.
Lemma whole_sum o l zs : Forall2 Qeq l (map inject_Z zs) -> covers o (length zs) -> (Zsum (map Z.abs zs) <= 2 ^ 53)%Z -> sum_in o l == inject_Z (Zsum zs).
Proof.
  intros F C H. rewrite (sum_in_comp o _ _ F), sum_in_int by (rewrite size_picked_all by exact C; exact H). rewrite picked_all by exact C. reflexivity.
Qed.
Lemma Zsum_in_le l x : Forall (fun z => (0 <= z)%Z) l -> In x l -> (x <= Zsum l)%Z.
Proof.
  intros F. induction F as [|y l H F IH]; intros I; [destruct I|]. cbn [Zsum fold_right]. fold (Zsum l). assert (N := Zsum_nonneg l F).
  destruct I as [->|I]; [lia|]. specialize (IH I). lia.
Qed.
Lemma abs_nonneg l : Forall (fun z => (0 <= z)%Z) l -> map Z.abs l = l.
Proof. intros F. induction F; cbn; [reflexivity|]. f_equal; [lia|assumption]. Qed.
Lemma sq_list_nonneg a b : Forall (fun z => (0 <= z)%Z) (map (fun '(x, y) => (x - y) * (x - y))%Z (combine a b)).
Proof. apply Forall_map, Forall_forall. intros [x y] _. apply Z.square_nonneg. Qed.
Lemma squares_exact zs ms c : Forall2 Qeq c (map inject_Z ms) -> (sq_dist zs ms <= 2 ^ 53)%Z ->
  Forall2 Qeq (map (fun '(x, c) => let d := fsub x c in fmul d d) (combine (map inject_Z zs) c))
              (map inject_Z (map (fun '(x, y) => (x - y) * (x - y))%Z (combine zs ms))).
Proof.
  revert zs c. induction ms as [|m ms IH]; intros zs c F H.
  - inversion F; subst. destruct zs; constructor.
  - inversion F as [|q q' c' l' E F']; subst. destruct zs as [|z zs]; [constructor|]. cbn [map combine].
    unfold sq_dist in H. cbn [map combine Zsum fold_right] in H. fold (Zsum (map (fun '(x, y) => (x - y) * (x - y))%Z (combine zs ms))) in H.
    assert (N := Zsum_nonneg _ (sq_list_nonneg zs ms)). assert (N' := Z.square_nonneg (z - m)).
    assert (A : (Z.abs (z - m) <= 2 ^ 53)%Z).
    { destruct (Z.le_gt_cases (Z.abs (z - m)) 1) as [S|S]; [lia|]. assert (Z.abs (z - m) * Z.abs (z - m) = (z - m) * (z - m))%Z by (rewrite <- Z.abs_mul; apply Z.abs_eq; lia). nia. }
    constructor; [|apply IH; [exact F'|unfold sq_dist; lia]].
    cbv zeta. assert (D : fsub (inject_Z z) q == inject_Z (z - m)).
    { unfold fsub. rewrite E. unfold Qminus. rewrite <- inject_Z_opp, <- inject_Z_plus. apply rnd_id, b64_int. replace (z + - m)%Z with (z - m)%Z by lia. exact A. }
    set (d := fsub (inject_Z z) q) in *. clearbody d. unfold fmul. transitivity (rnd (inject_Z ((z - m) * (z - m)))).
    + apply rnd_comp. rewrite D, inject_Z_mult. reflexivity.
    + apply rnd_id, b64_int. lia.
Qed.
Lemma centroid_exact o points means : points <> [] -> covers o (length points) -> (Z.of_nat (length points) <= 2 ^ 53)%Z ->
  whole_means points means -> Forall (fun m => (Z.abs m <= 2 ^ 53)%Z) means ->
  (forall j, (j < length means)%nat -> (Zsum (map (fun p => Z.abs (nth j p 0%Z)) points) <= 2 ^ 53)%Z) ->
  Forall2 Qeq (centroid_f o (map (map inject_Z) points) (length means)) (map inject_Z means).
Proof.
  intros N C L W MB S. unfold centroid_f. rewrite <- (map_nth_seq means 0%Z) at 2. rewrite map_map.
  assert (K : forall j, In j (seq 0 (length means)) -> (j < length means)%nat) by (intros j Hj; apply in_seq in Hj; lia).
  induction (seq 0 (length means)) as [|j js IH]; cbn [map]; constructor; [|apply IH; intros; apply K; right; assumption].
  specialize (K j (or_introl eq_refl)). clear IH. unfold mean_in. rewrite !map_length.
  assert (El : map (fun g => nth j g 0) (map (map inject_Z) points) = map inject_Z (map (fun p => nth j p 0%Z) points)).
  { rewrite !map_map. apply map_ext. intros p. apply nth_inject. }
  rewrite El. unfold fdiv. rewrite sum_in_int.
  2:{ rewrite size_picked_all by (rewrite map_length; exact C). rewrite map_map. apply S, K. }
  rewrite picked_all by (rewrite map_length; exact C). rewrite (W j K), of_int_id by lia. rewrite inject_Z_mult.
  assert (P : 0 < inject_Z (Z.of_nat (length points))) by (change 0 with (inject_Z 0); rewrite <- Zlt_Qlt; destruct points; [congruence|cbn; lia]).
  transitivity (rnd (inject_Z (nth j means 0%Z))); [apply rnd_comp; field; lra|]. apply rnd_id, b64_int.
  rewrite Forall_forall in MB. apply MB, nth_In, K.
Qed.
Lemma diversity_exact root by_row by_gene by_norm points means n : exact_root root ->
  length points = n -> (1 <= n)%nat -> (Z.of_nat n <= 2 ^ 52)%Z -> covers by_row n -> covers by_gene (length means) -> covers by_norm n ->
  Forall (fun p => length p = length means) points -> whole_means points means -> Forall (fun m => (Z.abs m <= 2 ^ 53)%Z) means ->
  (forall j, (j < length means)%nat -> (Zsum (map (fun p => Z.abs (nth j p 0%Z)) points) <= 2 ^ 53)%Z) ->
  Forall (fun p => exists s, (0 <= s)%Z /\ sq_dist p means = (s * s)%Z) points ->
  (2 * Z.of_nat n * Zsum (map (fun p => sq_dist p means) points) <= 2 ^ 53)%Z ->
  exists d, diversity_f root by_row by_gene by_norm (map (map inject_Z) points) = Ok d /\
            d == inject_Z (2 * Z.of_nat n * Zsum (map (fun p => sq_dist p means) points)).
Proof.
  intros R EL N1 NB CR CG CN FL W MB SB SQ TB. assert (PN : points <> []) by (intros ->; cbn in EL; lia).
  assert (D0 : Forall (fun z => (0 <= z)%Z) (map (fun p => sq_dist p means) points)).
  { apply Forall_map, Forall_forall. intros p _. apply Zsum_nonneg, sq_list_nonneg. }
  assert (S0 := Zsum_nonneg _ D0). assert (SL : (Zsum (map (fun p => sq_dist p means) points) <= 2 ^ 53)%Z) by nia.
  set (total := Zsum (map (fun p => sq_dist p means) points)) in *.
  assert (C := centroid_exact by_row points means PN ltac:(rewrite EL; exact CR) ltac:(rewrite EL; lia) W MB SB).
  unfold diversity_f. assert (EX : exists g gs, map (map inject_Z) points = g :: gs /\ length g = length means).
  { destruct points as [|p ps]; [congruence|]. exists (map inject_Z p), (map (map inject_Z) ps). split; [reflexivity|]. rewrite map_length. exact (Forall_inv FL). }
  destruct EX as (g & gs & Eg & Lg). rewrite Eg. rewrite <- Eg. rewrite Lg.
  assert (X : forallb (fun g' => (length g' =? length means)%nat) (map (map inject_Z) points) = true).
  { apply forallb_forall. intros x Hx. apply in_map_iff in Hx. destruct Hx as (p & <- & Ip). rewrite map_length. apply Nat.eqb_eq.
    rewrite Forall_forall in FL. apply FL, Ip. }
  rewrite X. eexists. split; [reflexivity|]. clear X Eg Lg g gs. rewrite map_length, EL.
  set (c := centroid_f by_row (map (map inject_Z) points) (length means)) in *. clearbody c.
  assert (NQ : Forall2 Qeq (map (sq_norm_f root by_gene c) (map (map inject_Z) points)) (map inject_Z (map (fun p => sq_dist p means) points))).
  { assert (B : forall p, In p points -> (sq_dist p means <= 2 ^ 53)%Z).
    { intros p Ip. eapply Z.le_trans; [|exact SL]. apply Zsum_in_le; [exact D0|]. apply in_map_iff. exists p. auto. }
    clear -R CG C FL SQ B. rewrite !map_map. induction points as [|p ps IH]; cbn [map]; constructor.
    2:{ apply IH; [exact (Forall_inv_tail FL)|exact (Forall_inv_tail SQ)|intros; apply B; right; assumption]. }
    assert (Bp := B p (or_introl eq_refl)). destruct (Forall_inv SQ) as (s & s0 & Es). assert (Lp := Forall_inv FL). cbn beta in Lp.
    unfold sq_norm_f. cbv zeta. assert (SE := squares_exact p means c C Bp). cbv zeta in SE.
    set (sq := map _ (combine (map inject_Z p) c)) in *. clearbody sq.
    assert (E := whole_sum by_gene sq _ SE ltac:(rewrite map_length, combine_length, Lp, Nat.min_id; exact CG) ltac:(rewrite (abs_nonneg _ (sq_list_nonneg p means)); exact Bp)).
    fold (sq_dist p means) in E. assert (sB : (Z.abs s <= 2 ^ 53)%Z) by nia.
    assert (Er : root (sum_in by_gene sq) == inject_Z s).
    { apply R; [apply b64_int, sB|change 0 with (inject_Z 0); rewrite <- Zle_Qle; exact s0|]. rewrite E, Es, inject_Z_mult. reflexivity. }
    set (r := root (sum_in by_gene sq)) in *. clearbody r. unfold fmul. transitivity (rnd (inject_Z (sq_dist p means))).
    - apply rnd_comp. rewrite Er, Es, inject_Z_mult. reflexivity.
    - apply rnd_id, b64_int. rewrite Es. nia. }
  assert (E := whole_sum by_norm _ _ NQ ltac:(rewrite map_length, EL; exact CN) ltac:(rewrite abs_nonneg by exact D0; exact SL)). fold total in E.
  set (v := sum_in by_norm _) in *. clearbody v. unfold fmul. transitivity (rnd (inject_Z (2 * Z.of_nat n * total))).
  - apply rnd_comp. rewrite E, of_int_id by lia. rewrite <- inject_Z_mult. reflexivity.
  - apply rnd_id, b64_int. nia.
Qed.
