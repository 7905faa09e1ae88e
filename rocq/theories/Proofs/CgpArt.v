(** The art primitives: proofs. *)
From Coq Require Import Reals Lra Lia Psatz ZArith.
From Verif Require Import Model.Base Model.Cgp Model.CgpArt Spec.Cgp Spec.CgpArt Spec.CgpParams.
From Verif Require Import Proofs.CgpDecode Proofs.CgpExec Proofs.CgpProps Proofs.CgpPrune.
Local Open Scope R_scope.

Lemma int_part_bounds x : IZR (Int_part x) <= x < IZR (Int_part x) + 1.
Proof. destruct (base_Int_part x). lra. Qed.
Lemma int_part_unique x z : IZR z <= x < IZR z + 1 -> Int_part x = z.
Proof.
  intros H. pose proof (int_part_bounds x) as B.
  assert (IZR z < IZR (Int_part x + 1)) by (rewrite plus_IZR; lra). assert (IZR (Int_part x) < IZR (z + 1)) by (rewrite plus_IZR; lra).
  apply lt_IZR in H0. apply lt_IZR in H1. lia.
Qed.

Lemma mod_range x m : 0 < m -> exists v, mod_R x m = Some v /\ 0 <= v < m.
Proof.
  intros Hm. unfold mod_R. destruct (Req_EM_T m 0); [lra|]. eexists. split; [reflexivity|].
  pose proof (int_part_bounds (x / m)) as B. set (k := IZR (Int_part (x / m))) in *. clearbody k.
  assert (E : x = m * (x / m)) by (field; lra). set (q := x / m) in *. clearbody q. subst x. split; nra.
Qed.

Lemma trunc_colour x : colour x -> (0 <= trunc_R x < 256)%Z.
Proof.
  intros [H1 H2]. unfold trunc_R. destruct (Rlt_dec x 0); [lra|]. pose proof (int_part_bounds x) as B. split.
  - apply Z.lt_succ_r. apply lt_IZR. rewrite succ_IZR. lra.
  - apply lt_IZR. lra.
Qed.

Lemma lor_small a b : (0 <= a < 256)%Z -> (0 <= b < 256)%Z -> (0 <= Z.lor a b <= 255)%Z.
Proof.
  intros Ha Hb. split; [apply Z.lor_nonneg; lia|]. apply Z.lt_succ_r. change (Z.succ 255) with (2 ^ 8)%Z.
  destruct (Z.eq_dec (Z.lor a b) 0) as [->|N]; [lia|]. apply Z.log2_lt_pow2; [pose proof (proj2 (Z.lor_nonneg a b)); lia|].
  rewrite Z.log2_lor by lia. apply Z.max_lub_lt.
  - destruct (Z.eq_dec a 0) as [->|]; [reflexivity|]. apply Z.log2_lt_pow2; lia.
  - destruct (Z.eq_dec b 0) as [->|]; [reflexivity|]. apply Z.log2_lt_pow2; lia.
Qed.
Lemma land_small a b : (0 <= a < 256)%Z -> (0 <= b)%Z -> (0 <= Z.land a b <= 255)%Z.
Proof.
  intros Ha Hb. split; [apply Z.land_nonneg; lia|]. 
  enough (Z.land a b <= a)%Z by lia. 
  assert (E : (a = Z.land a b + Z.land a (Z.lnot b))%Z).
  { rewrite Z.add_nocarry_lxor.
    - apply Z.bits_inj'. intros n Hn. rewrite Z.lxor_spec, !Z.land_spec, Z.lnot_spec by lia. destruct (Z.testbit a n), (Z.testbit b n); reflexivity.
    - apply Z.bits_inj'. intros n Hn. rewrite !Z.land_spec, Z.lnot_spec, Z.bits_0 by lia. destruct (Z.testbit a n), (Z.testbit b n); reflexivity. }
  assert (0 <= Z.land a (Z.lnot b))%Z by (apply Z.land_nonneg; lia). lia.
Qed.

Ltac at_k := eexists; split; [reflexivity|]; intros x y p Hx Hy Hp; unfold colour in *; cbn [p_call art_prim].

Lemma or_keeps : returns_at colour cgp_art_primitives 0 (fun _ _ _ v => colour v).
Proof.
  at_k. eexists. split; [reflexivity|]. pose proof (lor_small _ _ (trunc_colour x Hx) (trunc_colour y Hy)) as [A B].
  apply IZR_le in A. apply IZR_le in B. lra.
Qed.
Lemma and_keeps : returns_at colour cgp_art_primitives 1 (fun _ _ _ v => colour v).
Proof.
  at_k. eexists. split; [reflexivity|]. pose proof (trunc_colour x Hx) as Tx. pose proof (land_small _ _ (trunc_colour p Hp) (proj1 Tx)) as [A B].
  apply IZR_le in A. apply IZR_le in B. lra.
Qed.
Lemma divide_keeps : returns_at colour cgp_art_primitives 2 (fun x _ _ v => colour v /\ v <= x).
Proof.
  at_k. unfold art_divide, div_R. destruct (Req_EM_T (1 + y + p) 0); [lra|]. eexists. split; [reflexivity|].
  assert (E : x / (1 + y + p) * (1 + y + p) = x) by (field; assumption).
  set (v := x / (1 + y + p)) in *. clearbody v.
  assert (0 <= v) by nra. assert (v <= x) by nra. lra.
Qed.
Lemma distance_keeps : returns_at colour cgp_art_primitives 5 (fun x y _ v => colour v /\ v = Rabs (x - y)).
Proof.
  at_k. eexists. split; [reflexivity|]. unfold Rmax. destruct (Rle_dec (x - y) (y - x)); unfold Rabs; destruct (Rcase_abs (x - y)); lra.
Qed.
Lemma invert_keeps : returns_at colour cgp_art_primitives 6 (fun _ _ _ v => colour v).
Proof. at_k. eexists. split; [reflexivity|]. lra. Qed.
Lemma cos_keeps : returns_at colour cgp_art_primitives 7 (fun _ _ _ v => colour v).
Proof.
  at_k. eexists. split; [reflexivity|]. pose proof (COS_bound x) as [A B]. unfold Rabs. destruct (Rcase_abs (cos x * 255)); lra.
Qed.
Lemma tan_keeps : returns_at colour cgp_art_primitives 9 (fun _ _ _ v => 0 <= v < 255).
Proof. at_k. unfold art_tan. destruct (mod_range (Rabs (tan x * 255)) 255) as (v & -> & B); [lra|]. exists v. split; [reflexivity|]. lra. Qed.
Lemma radius_keeps : returns_at colour cgp_art_primitives 10 (fun _ _ _ v => colour v).
Proof.
  at_k. eexists. split; [reflexivity|]. unfold Rmin. pose proof (sqrt_pos ((x - p) ^ 2 + (y - p) ^ 2)).
  destruct (Rle_dec (sqrt ((x - p) ^ 2 + (y - p) ^ 2)) 255); lra.
Qed.
Lemma modulo_range : returns_at colour cgp_art_primitives 11 (fun _ _ p v => 255 - p <= v < 256).
Proof.
  at_k. unfold art_modulo. destruct (mod_range x (p + 1)) as (m & -> & B); [lra|]. eexists. split; [reflexivity|]. lra.
Qed.
Lemma mean_keeps : returns_at colour cgp_art_primitives 12 (fun x y _ v => colour v /\ Rmin x y <= v <= Rmax x y).
Proof. at_k. eexists. split; [reflexivity|]. unfold Rmin, Rmax. destruct (Rle_dec x y); lra. Qed.
Lemma ratio_keeps : returns_at colour cgp_art_primitives 13 (fun x y _ v => 0 < v <= 255 /\ (v = 255 <-> x = y)).
Proof.
  at_k. unfold art_ratio, div_R. destruct (Req_EM_T (x + 1) 0); [lra|]. destruct (Req_EM_T (y + 1) 0); [lra|]. cbn [then_R].
  eexists. split; [reflexivity|].
  assert (E1 : 255 * (y + 1) / (x + 1) * (x + 1) = 255 * (y + 1)) by (field; assumption).
  assert (E2 : 255 * (x + 1) / (y + 1) * (y + 1) = 255 * (x + 1)) by (field; assumption).
  set (a := 255 * (y + 1) / (x + 1)) in *. set (b := 255 * (x + 1) / (y + 1)) in *. clearbody a b.
  assert (0 < a) by nra. assert (0 < b) by nra.
  assert (Hle : x < y -> b < 255) by (intros; nra). assert (Hge : y < x -> a < 255) by (intros; nra).
  assert (Heq : x = y -> a = 255 /\ b = 255) by (intros ->; split; nra).
  unfold Rmin. destruct (Rtotal_order x y) as [L|[L|L]].
  - specialize (Hle L). destruct (Rle_dec a b); (split; [split; lra|split; intros; lra]).
  - destruct (Heq L) as [-> ->]. destruct (Rle_dec 255 255); (split; [split; lra|split; intros; auto]).
  - specialize (Hge L). destruct (Rle_dec a b); (split; [split; lra|split; intros; lra]).
Qed.
Lemma root_keeps : returns_at colour cgp_art_primitives 14 (fun _ _ _ v => 0 <= v < 255).
Proof.
  at_k. unfold art_root. destruct (mod_range (sqrt (Rabs (x ^ 2 - p ^ 2 + y ^ 2 - p ^ 2))) 255) as (v & -> & B); [lra|].
  exists v. split; [reflexivity|]. lra.
Qed.

Lemma weaken {V} (S : V -> Prop) l k (P P' : V -> V -> V -> V -> Prop) : (forall x y p v, P x y p v -> P' x y p v) ->
  returns_at S l k P -> returns_at S l k P'.
Proof. intros H (f & E & R). exists f. split; [exact E|]. intros x y p Hx Hy Hp. destruct (R x y p Hx Hy Hp) as (v & Ev & Pv). eauto. Qed.

Lemma eleven_keep : Forall (fun k => returns_at colour cgp_art_primitives k (fun _ _ _ v => colour v)) [0; 1; 2; 5; 6; 7; 9; 10; 12; 13; 14]%nat.
Proof.
  repeat apply Forall_cons; try apply Forall_nil.
  - exact or_keeps.
  - exact and_keeps.
  - refine (weaken _ _ _ _ _ _ divide_keeps). tauto.
  - refine (weaken _ _ _ _ _ _ distance_keeps). tauto.
  - exact invert_keeps.
  - exact cos_keeps.
  - refine (weaken _ _ _ _ _ _ tan_keeps). unfold colour. intros. lra.
  - exact radius_keeps.
  - refine (weaken _ _ _ _ _ _ mean_keeps). tauto.
  - refine (weaken _ _ _ _ _ _ ratio_keeps). unfold colour. intros. lra.
  - refine (weaken _ _ _ _ _ _ root_keeps). unfold colour. intros. lra.
Qed.

Lemma wide_ranges :
  returns_at colour cgp_art_primitives 3 (fun x y _ v => 0 <= v <= 255 ^ 3 /\ (v = 255 ^ 3 <-> x = 255 /\ y = 255)) /\
  returns_at colour cgp_art_primitives 4 (fun x y _ v => 0 <= v <= 130050 /\ (v = 130050 <-> x = 255 /\ y = 255)) /\
  returns_at colour cgp_art_primitives 8 (fun _ _ _ v => 0 <= v) /\
  returns_at colour cgp_art_primitives 11 (fun _ _ p v => 255 - p <= v < 256).
Proof.
  split; [|split; [|split]].
  - at_k. eexists. split; [reflexivity|]. split; [split; nra|]. split; [intros E|intros [-> ->]; lra].
    assert (x * y = 65025) by lra. split; nra.
  - at_k. eexists. split; [reflexivity|]. split; [split; lra|]. split; [intros E; split; lra|intros [-> ->]; lra].
  - at_k. unfold art_tan_degrees. destruct (mod_range x 45) as (m & -> & B); [lra|]. eexists. split; [reflexivity|]. apply Rabs_pos.
  - exact modulo_range.
Qed.

Lemma mod_small x m : 0 <= x < m -> mod_R x m = Some x.
Proof.
  intros H. unfold mod_R. destruct (Req_EM_T m 0); [lra|]. rewrite (int_part_unique (x / m) 0).
  - f_equal. cbn. lra.
  - assert (E : x = m * (x / m)) by (field; lra). set (q := x / m) in *. clearbody q. subst x. split; nra.
Qed.

Lemma tan_wide B : exists x v, colour x /\ 0 <= x < 1 /\ (forall y p, p_call (art_prim art_tan_degrees) [x; y; p] = Ok v) /\ B < v.
Proof.
  set (t := atan (Rabs B + 1)). pose proof (atan_bound (Rabs B + 1)) as [A1 A2]. fold t in A1, A2. pose proof PI_RGT_0 as P0.
  assert (T0 : 0 < t). { rewrite <- atan_0. apply atan_increasing. pose proof (Rabs_pos B). lra. }
  set (x := t * 180 / (PI * 255)).
  assert (Ex : x * PI / 180 * 255 = t) by (unfold x; field; lra).
  assert (Hx : 0 <= x < 1).
  { split.
    - destruct (Rle_or_lt 0 x); [assumption|]. exfalso. assert (x * PI < 0) by nra. lra.
    - destruct (Rlt_or_le x 1); [assumption|]. exfalso. assert (PI <= x * PI) by nra. lra. }
  exists x, (Rabs (tan t)). split; [unfold colour; lra|]. split; [exact Hx|]. split.
  - intros y p. cbn [p_call art_prim]. unfold art_tan_degrees. rewrite mod_small by lra. cbn [then_R]. rewrite Ex. reflexivity.
  - unfold t. rewrite tan_atan. pose proof (Rle_abs B). pose proof (Rle_abs (Rabs B + 1)). lra.
Qed.

Lemma modulo_wide t : 255 <= t < 256 -> forall y, p_call (art_prim art_modulo) [t - 255; y; 0] = Ok t.
Proof.
  intros H y. cbn [p_call art_prim]. unfold art_modulo. rewrite mod_small by lra. cbn [then_R]. f_equal. lra.
Qed.

Lemma second_ignored : Forall (ignores_second cgp_art_primitives) [1; 6; 7; 8; 9; 11]%nat.
Proof. repeat apply Forall_cons; try apply Forall_nil; (eexists; split; [reflexivity|]; reflexivity). Qed.
Lemma parameter_ignored : Forall (ignores_parameter cgp_art_primitives) [0; 3; 4; 5; 6; 7; 8; 9; 12; 13]%nat.
Proof. repeat apply Forall_cons; try apply Forall_nil; (eexists; split; [reflexivity|]; reflexivity). Qed.
Lemma symmetric_ones : Forall (symmetric cgp_art_primitives) [0; 3; 4; 5; 10; 12; 13; 14]%nat.
Proof.
  repeat apply Forall_cons; try apply Forall_nil; (eexists; split; [reflexivity|]; intros x y p; cbn [p_call art_prim]).
  - unfold art_or. rewrite Z.lor_comm. reflexivity.
  - unfold art_product. do 2 f_equal. ring.
  - unfold art_sum. f_equal. ring.
  - unfold art_distance. rewrite Rmax_comm. reflexivity.
  - unfold art_radius. do 3 f_equal. ring.
  - unfold art_mean. f_equal. field.
  - unfold art_ratio. destruct (div_R (255 * (y + 1)) (x + 1)) as [a|], (div_R (255 * (x + 1)) (y + 1)) as [b|]; cbn [then_R]; try reflexivity.
    rewrite Rmin_comm. reflexivity.
  - unfold art_root. replace (x ^ 2 - p ^ 2 + y ^ 2 - p ^ 2) with (y ^ 2 - p ^ 2 + x ^ 2 - p ^ 2) by ring. reflexivity.
Qed.

Lemma mod_congruent x m : m <> 0 -> exists v k, mod_R x m = Some v /\ x = v + m * IZR k.
Proof. intros Hm. unfold mod_R. destruct (Req_EM_T m 0); [lra|]. eexists _, (Int_part (x / m)). split; [reflexivity|]. lra. Qed.
Lemma trunc_whole x a : 0 <= IZR a <= x -> x < IZR a + 1 -> trunc_R x = a.
Proof. intros H1 H2. unfold trunc_R. destruct (Rlt_dec x 0); [lra|]. apply int_part_unique. lra. Qed.

Lemma bit_values x y p a b c : 0 <= IZR a <= x -> x < IZR a + 1 -> 0 <= IZR b <= y -> y < IZR b + 1 -> 0 <= IZR c <= p -> p < IZR c + 1 ->
  (exists f v, nth_error cgp_art_primitives 0 = Some f /\ p_call f [x; y; p] = Ok (IZR v) /\
     forall n, (0 <= n)%Z -> Z.testbit v n = Z.testbit a n || Z.testbit b n) /\
  (exists f v, nth_error cgp_art_primitives 1 = Some f /\ p_call f [x; y; p] = Ok (IZR v) /\
     forall n, (0 <= n)%Z -> Z.testbit v n = Z.testbit a n && Z.testbit c n).
Proof.
  intros. split; eexists _, _; (split; [reflexivity|]; split; [reflexivity|]); intros n Hn.
  - rewrite (trunc_whole x a), (trunc_whole y b) by assumption. apply Z.lor_spec.
  - rewrite (trunc_whole x a), (trunc_whole p c) by assumption. rewrite Z.land_spec. apply andb_comm.
Qed.

Lemma exact_values :
  returns_at colour cgp_art_primitives 2 (fun x y p v => v * (1 + y + p) = x) /\
  returns_at colour cgp_art_primitives 6 (fun x _ _ v => v + x = 255) /\
  returns_at colour cgp_art_primitives 7 (fun x _ _ v => 0 <= v /\ v ^ 2 = 255 ^ 2 * (1 - sin x ^ 2)) /\
  returns_at colour cgp_art_primitives 9 (fun x _ _ v => exists k, v + 255 * IZR k = 255 * Rabs (tan x)) /\
  returns_at colour cgp_art_primitives 10 (fun x y p v => 0 <= v /\ v ^ 2 = Rmin ((x - p) ^ 2 + (y - p) ^ 2) (255 ^ 2)) /\
  returns_at colour cgp_art_primitives 11 (fun x _ p v => exists k, v = x - IZR k * (p + 1) + (255 - p)) /\
  returns_at colour cgp_art_primitives 13 (fun x y _ v => v * (Rmax x y + 1) = 255 * (Rmin x y + 1)) /\
  returns_at colour cgp_art_primitives 14 (fun x y p v => exists k, 0 <= v + 255 * IZR k /\ (v + 255 * IZR k) ^ 2 = Rabs (x ^ 2 + y ^ 2 - 2 * p ^ 2)).
Proof.
  repeat match goal with |- _ /\ _ => split end.
  - at_k. unfold art_divide, div_R. destruct (Req_EM_T (1 + y + p) 0); [lra|]. eexists. split; [reflexivity|]. field. assumption.
  - at_k. eexists. split; [reflexivity|]. lra.
  - at_k. eexists. split; [reflexivity|]. split; [apply Rabs_pos|]. rewrite pow2_abs. pose proof (sin2_cos2 x) as E. unfold Rsqr in E. nra.
  - at_k. unfold art_tan. destruct (mod_congruent (Rabs (tan x * 255)) 255) as (v & k & -> & E); [lra|]. exists v. split; [reflexivity|].
    exists k. rewrite <- E, Rabs_mult, (Rabs_pos_eq 255) by lra. lra.
  - at_k. eexists. split; [reflexivity|].
    assert (Hq : 0 <= (x - p) ^ 2 + (y - p) ^ 2) by (pose proof (pow2_ge_0 (x - p)); pose proof (pow2_ge_0 (y - p)); lra).
    set (q := (x - p) ^ 2 + (y - p) ^ 2) in *. clearbody q. pose proof (sqrt_pos q) as Sp. pose proof (sqrt_sqrt q Hq) as Sq.
    set (r := sqrt q) in *. clearbody r. unfold Rmin. destruct (Rle_dec r 255), (Rle_dec q (255 ^ 2)); (split; [lra|nra]).
  - at_k. unfold art_modulo. destruct (mod_congruent x (p + 1)) as (v & k & -> & E); [lra|]. eexists. split; [reflexivity|]. exists k. lra.
  - at_k. unfold art_ratio, div_R. destruct (Req_EM_T (x + 1) 0); [lra|]. destruct (Req_EM_T (y + 1) 0); [lra|]. cbn [then_R].
    eexists. split; [reflexivity|].
    assert (E1 : 255 * (y + 1) / (x + 1) * (x + 1) = 255 * (y + 1)) by (field; assumption).
    assert (E2 : 255 * (x + 1) / (y + 1) * (y + 1) = 255 * (x + 1)) by (field; assumption).
    set (a := 255 * (y + 1) / (x + 1)) in *. set (b := 255 * (x + 1) / (y + 1)) in *. clearbody a b.
    unfold Rmax. destruct (Rle_dec x y) as [L|L].
    + assert (b <= 255) by nra. assert (255 <= a) by nra. rewrite (Rmin_left x y) by lra. rewrite Rmin_right by lra. exact E2.
    + assert (a <= 255) by nra. assert (255 <= b) by nra. rewrite (Rmin_right x y) by lra. rewrite Rmin_left by lra. exact E1.
  - at_k. unfold art_root. set (q := Rabs (x ^ 2 - p ^ 2 + y ^ 2 - p ^ 2)).
    destruct (mod_congruent (sqrt q) 255) as (v & k & -> & E); [lra|]. exists v. split; [reflexivity|]. exists k. rewrite <- E. split; [apply sqrt_pos|].
    rewrite pow2_sqrt by apply Rabs_pos. unfold q. f_equal. ring.
Qed.

(** ** circuits *)
Local Open Scope nat_scope.
Lemma values_kept {V} (S : V -> Prop) ni n (prog : list (pnode V)) outs input : feed_forward ni prog outs -> length input = ni -> Forall S input ->
  (forall j p srcs par, nth_error prog j = Some (p, srcs, par) -> keeps S n p /\ length srcs + length par = n /\ Forall S par) ->
  forall m s, (0 <= s < Z.of_nat m)%Z -> (s < Z.of_nat (ni + length prog))%Z -> exists v, value ni prog input s v /\ S v.
Proof.
  intros [FF _] Li Fi HP. induction m as [|m IH]; intros s Hm Hs; [lia|].
  destruct (Z_lt_ge_dec s (Z.of_nat ni)) as [L|G].
  - destruct (nth_error input (Z.to_nat s)) as [v|] eqn:E; [|apply nth_error_None in E; lia].
    exists v. rewrite Forall_forall in Fi. split; [|exact (Fi v (nth_error_In _ _ E))].
    replace s with (Z.of_nat (Z.to_nat s)) by lia. apply value_input; [lia|exact E].
  - destruct (nth_error prog (Z.to_nat s - ni)) as [[[p srcs] par]|] eqn:E; [|apply nth_error_None in E; lia].
    destruct (HP _ p srcs par E) as (K & Ln & Fp). specialize (FF _ p srcs par E).
    assert (HA : exists args, Forall2 (value ni prog input) srcs args /\ Forall S args).
    { assert (Hb : Forall (fun s' => 0 <= s' < Z.of_nat m /\ s' < Z.of_nat (ni + length prog))%Z srcs)
        by (eapply Forall_impl; [|exact FF]; cbn; intros; lia).
      clear - IH Hb. induction Hb as [|a l Ha Hl IHl]; [exists []; split; constructor|].
      destruct IHl as (args & A1 & A2). destruct (IH a (proj1 Ha) (proj2 Ha)) as (v & Hv & Sv). exists (v :: args). split; constructor; assumption. }
    destruct HA as (args & A1 & A2). destruct (K (args ++ par)) as (v & Ev & Sv).
    + rewrite app_length. rewrite <- (Forall2_len _ _ _ A1). exact Ln.
    + apply Forall_app. split; assumption.
    + exists v. split; [|exact Sv]. replace s with (Z.of_nat (ni + (Z.to_nat s - ni))) by lia. eapply value_node; eassumption.
Qed.

Lemma circuits_keep {V} (S : V -> Prop) (d : decoder V) np genome nodes outs pars prog input : proper d ->
  layout d genome nodes outs -> feasible d nodes outs -> length pars = np * (c_layers d * c_width d) -> Forall S pars ->
  program d (params_of np pars) nodes prog -> length input = c_inputs d -> Forall S input ->
  (forall j p srcs par, nth_error prog j = Some (p, srcs, par) -> p_arity p = None /\ keeps S (c_arity d + np) p) ->
  exists g vs, decode_with_parameters d np true genome pars = Ok g /\ length vs = c_outputs d /\ Forall S vs /\
    Forall2 (value (c_inputs d) prog input) outs vs /\ forall o, exists o', call g (c_inputs d) (c_outputs d) o input = Ok (o', vs).
Proof.
  intros Hd Hl Hf Lp Fp Hp Li Fi HK.
  destruct (params_run d np genome nodes outs pars prog input Hd Hl Hf Lp Hp Li) as (g0 & g & _ & E & R).
  assert (Hff : feed_forward (c_inputs d) prog outs) by exact (prog_feed_forward d Hd genome nodes outs Hl Hf prog _ Hp).
  assert (HP : forall j p srcs par, nth_error prog j = Some (p, srcs, par) -> keeps S (c_arity d + np) p /\ length srcs + length par = c_arity d + np /\ Forall S par).
  { intros j p srcs par Ej. destruct (HK j p srcs par Ej) as [An K]. split; [exact K|].
    assert (Hj : j < length prog) by (apply nth_error_Some; congruence). destruct Hp as [L HPg].
    destruct Hl as (_ & Ln & Fa & _).
    destruct (nth_error nodes j) as [nd|] eqn:En; [|apply nth_error_None in En; lia].
    destruct (HPg j nd En) as (p' & _ & B). rewrite Ej in B. injection B as <- -> ->.
    rewrite Forall_forall in Fa. pose proof (Fa nd (nth_error_In _ _ En)) as La. unfold used. rewrite An, La. unfold params_of. split.
    - rewrite firstn_length, skipn_length, Lp. assert (np * (j + 1) <= np * (c_layers d * c_width d)) by (apply Nat.mul_le_mono_l; lia). nia.
    - apply Forall_forall. intros v Hv. rewrite Forall_forall in Fp. apply Fp.
      rewrite <- (firstn_skipn (j * np) pars). apply in_or_app. right.
      rewrite <- (firstn_skipn np (skipn (j * np) pars)). apply in_or_app. left. exact Hv. }
  assert (HA : exists vs, Forall2 (value (c_inputs d) prog input) outs vs /\ Forall S vs).
  { pose proof (values_kept S (c_inputs d) (c_arity d + np) prog outs input Hff Li Fi HP) as VK. destruct Hff as [_ F2].
    clear - VK F2. induction F2 as [|a l Ha Hl IHl]; [exists []; split; constructor|].
    destruct IHl as (vs & V1 & V2). destruct (VK (c_inputs d + length prog) a Ha (proj2 Ha)) as (v & Hv & Sv). exists (v :: vs). split; constructor; assumption. }
  destruct HA as (vs & V1 & V2). exists g, vs. split; [exact E|]. split; [|split; [exact V2|]].
  - rewrite <- (Forall2_len _ _ _ V1). destruct Hl as (_ & _ & _ & Lo). exact Lo.
  - split; [exact V1|]. intros o. apply (R o vs). exact V1.
Qed.

Lemma art_keeps k f : returns_at colour cgp_art_primitives k (fun _ _ _ v => colour v) -> nth_error cgp_art_primitives k = Some f -> keeps colour 3 f.
Proof.
  intros (f' & E & R) E2. rewrite E in E2. injection E2 as <-. intros args L F.
  destruct args as [|x [|y [|p [|? ?]]]]; try discriminate. inversion F as [|? ? Fx F']; subst. inversion F' as [|? ? Fy F'']; subst. inversion F'' as [|? ? Fz ?]; subst.
  exact (R x y p Fx Fy Fz).
Qed.

Lemma art_arity k f : nth_error cgp_art_primitives k = Some f -> p_arity f = None.
Proof. unfold cgp_art_primitives. rewrite nth_error_map. destruct (nth_error _ k); [|discriminate]. cbn. intros E. injection E as <-. reflexivity. Qed.

Lemma images_keep (d : decoder R) genome nodes outs pars input : proper d -> c_prims d = cgp_art_primitives -> c_arity d = 2 ->
  layout d genome nodes outs -> feasible d nodes outs -> Forall (fun nd => In (fst nd) [0; 1; 2; 5; 6; 7; 9; 10; 12; 13; 14]%Z) nodes ->
  length pars = c_layers d * c_width d -> Forall colour pars -> length input = c_inputs d -> Forall colour input ->
  exists g vs, decode_with_parameters d 1 true genome pars = Ok g /\ length vs = c_outputs d /\ Forall colour vs /\
    forall o, exists o', call g (c_inputs d) (c_outputs d) o input = Ok (o', vs).
Proof.
  intros Hd Ep Ea Hl Hf Fn Lp Fp Li Fi.
  destruct (program_exists d Hd genome nodes outs (params_of 1 pars) Hl Hf) as (prog & Hp).
  destruct (circuits_keep colour d 1 genome nodes outs pars prog input) as (g & vs & E & Lv & Fv & _ & R); auto; [lia| |eauto 6].
  intros j p srcs par Ej. rewrite Ea. destruct Hp as [L HPg].
  assert (Hj : j < length prog) by (apply nth_error_Some; congruence).
  destruct (nth_error nodes j) as [nd|] eqn:En; [|apply nth_error_None in En; lia].
  destruct (HPg j nd En) as (p' & A & B). rewrite Ej in B. injection B as <- _ _. rewrite Ep in A.
  split; [exact (art_arity _ p A)|]. rewrite Forall_forall in Fn. specialize (Fn nd (nth_error_In _ _ En)).
  apply (art_keeps (Z.to_nat (fst nd)) p); [|exact A]. pose proof eleven_keep as EK. rewrite Forall_forall in EK. apply EK.
  apply (in_map Z.to_nat) in Fn. exact Fn.
Qed.

(** ** an example: the mean of the inputs, then its distance from the first input *)
Definition ex_art : decoder R := mk_decoder cgp_art_primitives 2 1 2 1 2 2%Z.
Lemma ex_art_ok : proper ex_art /\ layout ex_art [12; 0; 1; 5; 0; 2; 3]%Z [(12, [0; 1]); (5, [0; 2])]%Z [3]%Z /\ feasible ex_art [(12, [0; 1]); (5, [0; 2])]%Z [3]%Z.
Proof.
  assert (Hd : proper ex_art) by (repeat split; cbn; try lia; discriminate).
  assert (Hl : layout ex_art [12; 0; 1; 5; 0; 2; 3]%Z [(12, [0; 1]); (5, [0; 2])]%Z [3]%Z) by (repeat split; repeat constructor).
  split; [exact Hd|]. split; [exact Hl|]. split.
  - intros layer pos nd H1 H2 E. cbn in H1, H2. destruct layer as [|[|layer]]; [| |lia]; destruct pos; try lia; cbn in E; injection E as <-; cbn.
    + split; [lia|]. repeat constructor; cbn; lia.
    + split; [lia|]. repeat constructor; cbn; lia.
  - repeat constructor; cbn; lia.
Qed.
Lemma ex_art_values : p_call (art_prim art_mean) [10; 20; 7]%R = Ok 15%R /\ p_call (art_prim art_distance) [10; 15; 7]%R = Ok 5%R.
Proof.
  cbn [p_call art_prim]. unfold art_mean, art_distance. split; f_equal; [lra|]. unfold Rmax. destruct (Rle_dec (10 - 15) (15 - 10)); lra.
Qed.
