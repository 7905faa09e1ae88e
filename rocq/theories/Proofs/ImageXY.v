From Coq Require Import Reals Lia Lra.
From Verif Require Import Model.Base Model.ImageXY Spec.RealFunctions Spec.ImageXY Proofs.RealFunctions Proofs.NeuralExec.

Local Close Scope R_scope.
Local Open Scope nat_scope.
Lemma trunc_spec q : toward_zero q (trunc q).
Proof.
  destruct q as [n d]. unfold toward_zero, trunc, Qle, Qlt, inject_Z. cbn [Qnum Qden].
  assert (E := Z.quot_rem' n (Zpos d)). set (z := Z.quot n (Zpos d)) in *. rewrite !Z.mul_1_r. split; intros H.
  - destruct (Z.rem_bound_pos n (Zpos d)) as [R1 R2]; [exact H|reflexivity|]. clearbody z. set (r := Z.rem n (Zpos d)) in *. clearbody r. split; lia.
  - destruct (Z.rem_bound_pos_neg n (Zpos d)) as [R1 R2]; [reflexivity|exact H|]. clearbody z. set (r := Z.rem n (Zpos d)) in *. clearbody r. split; lia.
Qed.
Lemma toward_zero_unique q z z' : toward_zero q z -> toward_zero q z' -> z = z'.
Proof.
  intros [A1 A2] [B1 B2]. destruct (Qlt_le_dec q 0) as [H|H].
  - specialize (A2 (Qlt_le_weak _ _ H)). specialize (B2 (Qlt_le_weak _ _ H)).
    assert ((inject_Z (z - 1) < inject_Z z')%Q) by (eapply Qlt_le_trans; [apply A2|apply B2]).
    assert ((inject_Z (z' - 1) < inject_Z z)%Q) by (eapply Qlt_le_trans; [apply B2|apply A2]).
    rewrite <- Zlt_Qlt in *. lia.
  - specialize (A1 H). specialize (B1 H).
    assert ((inject_Z z < inject_Z (z' + 1))%Q) by (eapply Qle_lt_trans; [apply A1|apply B1]).
    assert ((inject_Z z' < inject_Z (z + 1))%Q) by (eapply Qle_lt_trans; [apply B1|apply A1]).
    rewrite <- Zlt_Qlt in *. lia.
Qed.

Lemma coords_flat w h : 0 < w -> image_coords w h = map (fun k => (k mod w, k / w)) (seq 0 (w * h)).
Proof.
  intros Hw. unfold image_coords. induction h as [|h IH]; [rewrite Nat.mul_0_r; reflexivity|].
  rewrite seq_S, map_app, concat_app, IH. replace (w * S h) with (w * h + w) by lia. rewrite seq_app, map_app. f_equal. cbn [map concat].
  rewrite app_nil_r. cbn [Nat.add].
  assert (G : forall n s, s + n <= w -> map (fun x => (x, h)) (seq s n) = map (fun k => (k mod w, k / w)) (seq (w * h + s) n)).
  { induction n as [|n IHn]; intros s Hs; [reflexivity|]. cbn [seq map]. f_equal.
    - f_equal; [rewrite Nat.add_comm, Nat.mul_comm, Nat.mod_add by lia; symmetry; apply Nat.mod_small; lia|].
      rewrite Nat.add_comm, Nat.mul_comm, Nat.div_add by lia. rewrite Nat.div_small by lia. reflexivity.
    - rewrite IHn by lia. repeat f_equal; lia. }
  rewrite (G w 0) by lia. rewrite Nat.add_0_r. reflexivity.
Qed.
Lemma R_sum_concat {A} (f : A -> R) (ls : list (list A)) : R_sum (map f (concat ls)) = R_sum (map (fun l => R_sum (map f l)) ls).
Proof. induction ls as [|l ls IH]; [reflexivity|]. cbn [concat map]. rewrite map_app, R_sum_app, IH, R_sum_cons. reflexivity. Qed.
Lemma coords_sum w h (f : nat * nat -> R) : R_sum (map f (image_coords w h)) = pixel_sum w h (fun x y => f (x, y)).
Proof.
  unfold image_coords, pixel_sum. rewrite R_sum_concat, map_map. apply R_sum_ext. intros y _. rewrite map_map. reflexivity.
Qed.
Lemma broadcast_map {X A B C} (f : A -> B -> result C) (a : X -> A) (b : X -> B) (c : X -> C) l :
  (forall x, f (a x) (b x) = Ok (c x)) -> broadcast f (map a l) (map b l) = Ok (map c l).
Proof.
  intros H. unfold broadcast. rewrite !map_length, Nat.eqb_refl. induction l as [|x l IH]; [reflexivity|]. cbn [map]. rewrite H. cbn [bind].
  rewrite IH. reflexivity.
Qed.
Lemma frobenius_sum m : frobenius m = sqrt (R_sum (map (fun row => R_sum (map (fun z => IZR z ^ 2) row)) m))%R.
Proof.
  unfold frobenius. f_equal. rewrite <- R_sum_concat.
  assert (G : forall l a, fold_left (fun acc z => acc + IZR z * IZR z)%R l a = (a + R_sum (map (fun z => IZR z ^ 2) l))%R).
  { induction l as [|z l IH]; intros a; cbn [fold_left map]; [unfold R_sum; cbn; ring|]. rewrite IH, R_sum_cons. ring. }
  rewrite G. ring.
Qed.
Definition image_at (w : nat) (cr cg cb : list Q) (x y : nat) : Z * Z * Z :=
  let k := y * w + x in (trunc (nth k cr 0%Q), trunc (nth k cg 0%Q), trunc (nth k cb 0%Q)).
Lemma evaluate_image img img_array w h executable cr cg cb : 0 < w ->
  img_array = map (fun p => let '(r, g, b) := img (fst p) (snd p) in [r; g; b]) (image_coords w h) ->
  executable (columns_of w h) (rows_of w h) = Ok [cr; cg; cb] -> length cr = w * h -> length cg = w * h -> length cb = w * h ->
  image_evaluate img img_array w h executable =
  Ok (sqrt (pixel_sum w h (fun x y => colour_distance2 (img x y) (image_at w cr cg cb x y)))).
Proof.
  intros Hw -> E Lr Lg Lb. unfold image_evaluate, pixels_eqb. destruct (list_eq_dec _ _ _) as [_|N]; [|congruence]. cbn [negb].
  unfold generate_image. rewrite (coords_flat w h Hw) at 1 2. rewrite !map_map. cbn [fst snd].
  change (map (fun x => Z.of_nat (x mod w)) (seq 0 (w * h))) with (columns_of w h).
  change (map (fun x => Z.of_nat (x / w)) (seq 0 (w * h))) with (rows_of w h). rewrite E. cbn [bind].
  unfold stack_columns. cbn [forallb]. rewrite Lr, Lg, Lb, Nat.eqb_refl. cbn [andb bind]. rewrite map_map. rewrite (coords_flat w h Hw), map_map. cbn [fst snd].
  rewrite (broadcast_map _ _ _ (fun k => let '(r, g, b) := img (k mod w) (k / w) in
    [r - trunc (nth k cr 0%Q); g - trunc (nth k cg 0%Q); b - trunc (nth k cb 0%Q)]%Z)).
  2: { intros k. destruct (img (k mod w) (k / w)) as [[r g] b]. reflexivity. }
  cbn [bind]. rewrite frobenius_sum, map_map. do 2 f_equal.
  transitivity (R_sum (map (fun p => colour_distance2 (img (fst p) (snd p)) (image_at w cr cg cb (fst p) (snd p))) (image_coords w h)));
    [|apply coords_sum].
  rewrite (coords_flat w h Hw), map_map. apply R_sum_ext. intros k _. cbn [fst snd]. unfold image_at.
  replace (k / w * w + k mod w) with k by (rewrite Nat.mul_comm; apply Nat.div_mod; lia).
  destruct (img (k mod w) (k / w)) as [[r g] b]. unfold colour_distance2, R_sum. cbn [map fold_right]. rewrite !minus_IZR. ring.
Qed.
Lemma colour_zero c d : (0 <= colour_distance2 c d)%R /\ (colour_distance2 c d = 0%R <-> c = d).
Proof.
  destruct c as [[r g] b], d as [[r' g'] b']. unfold colour_distance2.
  assert (H1 := pow2_ge_0 (IZR r - IZR r')). assert (H2 := pow2_ge_0 (IZR g - IZR g')). assert (H3 := pow2_ge_0 (IZR b - IZR b')).
  split; [lra|]. split.
  - intros H. assert (Z1 : ((IZR r - IZR r') ^ 2 = 0)%R) by lra. assert (Z2 : ((IZR g - IZR g') ^ 2 = 0)%R) by lra.
    assert (Z3 : ((IZR b - IZR b') ^ 2 = 0)%R) by lra. apply (proj1 (pow2_zero _)) in Z1. apply (proj1 (pow2_zero _)) in Z2. apply (proj1 (pow2_zero _)) in Z3.
    assert (r = r') by (apply eq_IZR; lra). assert (g = g') by (apply eq_IZR; lra). assert (b = b') by (apply eq_IZR; lra). congruence.
  - intros H. injection H as -> -> ->. ring.
Qed.
Lemma pixel_sum_zero w h f : (forall x y, 0 <= f x y)%R ->
  (0 <= pixel_sum w h f)%R /\ (pixel_sum w h f = 0%R <-> forall x y, x < w -> y < h -> f x y = 0%R).
Proof.
  intros N. unfold pixel_sum. assert (I : forall y, (0 <= R_sum (map (fun x => f x y) (seq 0 w)))%R) by (intros y; apply R_sum_nonneg; auto).
  split; [apply R_sum_nonneg; auto|]. rewrite R_sum_zero by auto. split.
  - intros H x y Hx Hy. specialize (H y). rewrite in_seq in H. specialize (H ltac:(lia)). rewrite R_sum_zero in H by auto. apply H. apply in_seq. lia.
  - intros H y Iy. apply in_seq in Iy. rewrite R_sum_zero by auto. intros x Ix. apply in_seq in Ix. apply H; lia.
Qed.
Lemma evaluate_perfect img img_array w h executable cr cg cb : 0 < w ->
  img_array = map (fun p => let '(r, g, b) := img (fst p) (snd p) in [r; g; b]) (image_coords w h) ->
  executable (columns_of w h) (rows_of w h) = Ok [cr; cg; cb] -> length cr = w * h -> length cg = w * h -> length cb = w * h ->
  exists d, image_evaluate img img_array w h executable = Ok d /\ (0 <= d)%R /\
    (d = 0%R <-> forall x y, x < w -> y < h -> img x y = image_at w cr cg cb x y).
Proof.
  intros Hw A E Lr Lg Lb. eexists. split; [eapply evaluate_image; eauto|].
  destruct (pixel_sum_zero w h (fun x y => colour_distance2 (img x y) (image_at w cr cg cb x y))) as [N Z]; [intros; apply colour_zero|].
  split; [apply sqrt_pos|]. split.
  - intros S x y Hx Hy. apply sqrt_eq_0 in S; [|exact N]. apply colour_zero. apply (proj1 Z S); auto.
  - intros H. assert (P : pixel_sum w h (fun x y => colour_distance2 (img x y) (image_at w cr cg cb x y)) = 0%R).
    { apply Z. intros x y Hx Hy. apply colour_zero. auto. }
    rewrite P. apply sqrt_0.
Qed.
Lemma image_fitness img img_array w h executable cr cg cb shown : 0 < w ->
  img_array = map (fun k => let '(r, g, b) := img (k mod w) (k / w) in [r; g; b]) (seq 0 (w * h)) ->
  executable (columns_of w h) (rows_of w h) = Ok [cr; cg; cb] -> length cr = w * h -> length cg = w * h -> length cb = w * h ->
  (forall x y, x < w -> y < h -> shows cr cg cb (y * w + x) (shown x y)) ->
  let d := sqrt (pixel_sum w h (fun x y => colour_distance2 (img x y) (shown x y))) in
  image_evaluate img img_array w h executable = Ok d /\ (d = 0%R <-> forall x y, x < w -> y < h -> img x y = shown x y).
Proof.
  intros Hw A E Lr Lg Lb Sh. assert (A' : img_array = map (fun p => let '(r, g, b) := img (fst p) (snd p) in [r; g; b]) (image_coords w h)).
  { rewrite A, (coords_flat w h Hw), map_map. reflexivity. }
  assert (Same : forall x y, x < w -> y < h -> image_at w cr cg cb x y = shown x y).
  { intros x y Hx Hy. specialize (Sh x y Hx Hy). destruct (shown x y) as [[r g] b]. destruct Sh as (S1 & S2 & S3). unfold image_at.
    rewrite (toward_zero_unique _ _ _ (trunc_spec _) S1), (toward_zero_unique _ _ _ (trunc_spec _) S2), (toward_zero_unique _ _ _ (trunc_spec _) S3). reflexivity. }
  assert (Eq : pixel_sum w h (fun x y => colour_distance2 (img x y) (shown x y)) =
               pixel_sum w h (fun x y => colour_distance2 (img x y) (image_at w cr cg cb x y))).
  { apply R_sum_ext. intros y Iy. apply R_sum_ext. intros x Ix. apply in_seq in Ix, Iy. rewrite Same by lia. reflexivity. }
  cbv zeta. rewrite Eq. split; [eapply evaluate_image; eauto|].
  destruct (evaluate_perfect img img_array w h executable cr cg cb Hw A' E Lr Lg Lb) as (d & Ed & _ & Hd).
  rewrite (evaluate_image img img_array w h executable cr cg cb Hw A' E Lr Lg Lb) in Ed. injection Ed as ->. rewrite Hd. split; intros H x y Hx Hy.
  - rewrite H by auto. apply Same; auto.
  - rewrite H by auto. symmetry. apply Same; auto.
Qed.
Lemma image_mismatch img img_array w h executable : 0 < w ->
  img_array <> map (fun k => let '(r, g, b) := img (k mod w) (k / w) in [r; g; b]) (seq 0 (w * h)) ->
  image_evaluate img img_array w h executable = Err AssertionError.
Proof.
  intros Hw N. unfold image_evaluate, pixels_eqb. destruct (list_eq_dec _ _ _) as [E|_]; [|reflexivity]. exfalso. apply N. rewrite <- E.
  rewrite (coords_flat w h Hw), map_map. reflexivity.
Qed.

Lemma broadcast_ext {A B C D} (f : A -> B -> result C) (g1 g2 : D -> B) (a : list A) (s : list D) :
  (forall x i, In x a -> f x (g1 i) = f x (g2 i)) -> broadcast f a (map g1 s) = broadcast f a (map g2 s).
Proof.
  intros H. unfold broadcast.
  set (all2 := fix all2 (a : list A) (b : list B) {struct a} : result (list C) :=
    match a, b with x :: a', y :: b' => bind (f x y) (fun c => bind (all2 a' b') (fun r => Ok (c :: r))) | _, _ => Ok [] end).
  assert (K : forall a s, (forall x i, In x a -> f x (g1 i) = f x (g2 i)) -> all2 a (map g1 s) = all2 a (map g2 s)).
  { clear. induction a as [|x a IH]; intros s H; [reflexivity|]. destruct s as [|i s]; [reflexivity|]. cbn [map].
    change (bind (f x (g1 i)) (fun c => bind (all2 a (map g1 s)) (fun r => Ok (c :: r))) = bind (f x (g2 i)) (fun c => bind (all2 a (map g2 s)) (fun r => Ok (c :: r)))).
    rewrite (H x i) by (left; reflexivity). rewrite IH by (intros; apply H; right; assumption). reflexivity. }
  rewrite !map_length. destruct (length a =? length s); [apply K, H|].
  destruct s as [|i [|i' s]].
  - cbn [map]. reflexivity.
  - cbn [map]. assert (R : forall g : D -> B, repeat (g i) (length a) = map g (repeat i (length a))) by (intros g; generalize (length a); induction n as [|n IHn]; [reflexivity|cbn; rewrite IHn; reflexivity]).
    destruct a as [|x [|x' a]]; [reflexivity| |]; rewrite !R; apply K, H.
  - cbn [map]. destruct a as [|x [|x' a]]; [reflexivity| |reflexivity]. rewrite <- !map_cons. apply K. intros y j Hy. apply repeat_spec in Hy. subst. apply H. left. reflexivity.
Qed.

Lemma image_one_output img img_array w h executable out :
  executable (columns_of w h) (rows_of w h) = Ok [out] -> 0 < w ->
  image_evaluate img img_array w h executable = image_evaluate img img_array w h (fun _ _ => Ok [out; out; out]).
Proof.
  intros E Hw. unfold image_evaluate. set (T := map _ (image_coords w h)). unfold pixels_eqb. destruct (list_eq_dec _ T img_array) as [Ea|_]; [|reflexivity].
  cbn [negb]. unfold generate_image. replace (executable _ _) with (Ok [out]).
  2:{ symmetry. rewrite <- E. f_equal; rewrite (coords_flat w h Hw), map_map; reflexivity. }
  cbn [bind stack_columns forallb]. rewrite Nat.eqb_refl. cbn [andb bind]. rewrite !map_map. cbn [map].
  rewrite (broadcast_ext _ (fun i => [trunc (nth i out 0%Q)]) (fun i => [trunc (nth i out 0%Q); trunc (nth i out 0%Q); trunc (nth i out 0%Q)])); [reflexivity|].
  intros x i Hx. rewrite <- Ea in Hx. unfold T in Hx. apply in_map_iff in Hx. destruct Hx as (p & <- & _). destruct (img (fst p) (snd p)) as [[r g] b]. reflexivity.
Qed.
