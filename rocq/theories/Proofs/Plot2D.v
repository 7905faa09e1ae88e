(** Proofs about plots of two dimensions *)
From Coq Require Import Qround Lia Lqa.
From Verif Require Import Model.Base Model.Problems Model.Plot2D Spec.Plot2D.

Lemma qarange_spec lo hi g : (0 < g)%Q -> exists xs, qarange lo hi g = Ok xs /\ ticks lo hi g xs.
Proof.
  intros G. unfold qarange. destruct (Qeq_bool g 0) eqn:E; [apply Qeq_bool_iff in E; rewrite E in G; apply Qlt_irrefl in G; contradiction|].
  eexists. split; [reflexivity|]. set (c := Qceiling ((hi - lo) / g)).
  assert (B : forall k, (inject_Z (Z.of_nat k) < (hi - lo) / g)%Q <-> (lo + inject_Z (Z.of_nat k) * g < hi)%Q).
  { intros k. split; intros H.
    - assert (H2 : (inject_Z (Z.of_nat k) * g < (hi - lo) / g * g)%Q) by (apply Qmult_lt_r; assumption).
      assert (H3 : ((hi - lo) / g * g == hi - lo)%Q) by (field; intros Z; rewrite Z in G; apply Qlt_irrefl in G; contradiction).
      lra.
    - apply Qlt_shift_div_l; [assumption|]. lra. }
  split.
  - intros k x H. rewrite nth_error_map in H. destruct (nth_error (seq 0 (Z.to_nat c)) k) as [n|] eqn:N; [|discriminate].
    injection H as <-. assert (K : k < Z.to_nat c) by (rewrite <- (seq_length (Z.to_nat c) 0); apply nth_error_Some; congruence).
    assert (n = k). { apply (nth_error_nth _ _ 0) in N. rewrite seq_nth in N by assumption. lia. } subst n. split; [reflexivity|].
    apply B. destruct (Qlt_le_dec (inject_Z (Z.of_nat k)) ((hi - lo) / g)) as [L|L]; [exact L|exfalso].
    assert (Z.of_nat k < c)%Z by lia. assert (c <= Z.of_nat k)%Z; [|lia].
    unfold c. rewrite <- (Qceiling_Z (Z.of_nat k)). apply Qceiling_resp_le. exact L.
  - intros k H. apply B in H. rewrite map_length, seq_length.
    assert (inject_Z (Z.of_nat k) < inject_Z c)%Q by (eapply Qlt_le_trans; [exact H|apply Qle_ceiling]).
    rewrite <- Zlt_Qlt in H0. lia.
Qed.
Lemma qarange_negative lo hi g : (g < 0)%Q -> (lo <= hi)%Q -> qarange lo hi g = Ok [].
Proof.
  intros G L. unfold qarange. destruct (Qeq_bool g 0) eqn:E; [apply Qeq_bool_iff in E; rewrite E in G; apply Qlt_irrefl in G; contradiction|].
  assert (D : ((hi - lo) / g <= 0)%Q).
  { apply Qnot_lt_le. intros H. assert (((hi - lo) / g) * g < 0)%Q.
    { setoid_replace (((hi - lo) / g) * g)%Q with (- (((hi - lo) / g) * - g))%Q by ring.
      assert (0 < (hi - lo) / g * - g)%Q; [|lra]. apply Qmult_lt_0_compat; lra. }
    assert (H3 : ((hi - lo) / g * g == hi - lo)%Q) by (field; intros Z; rewrite Z in G; apply Qlt_irrefl in G; contradiction). lra. }
  apply Qceiling_resp_le in D. change (Qceiling 0) with 0%Z in D. destruct (Qceiling ((hi - lo) / g)); try lia; reflexivity.
Qed.
Lemma qarange_empty lo hi g : (0 < g)%Q -> (hi <= lo)%Q -> qarange lo hi g = Ok [].
Proof.
  intros G L. destruct (qarange_spec lo hi g G) as (xs & -> & T & _). destruct xs as [|x xs]; [reflexivity|].
  destruct (T 0 x eq_refl) as (A & B). cbn in A. change (inject_Z 0) with 0%Q in A. exfalso. lra.
Qed.

Section Plot.
Variable fn : list Q -> result num.

Lemma grid_points pad xs : forall ys, map (fun p => [fst p; snd p] ++ pad)
    (combine (concat (map (fun _ => xs) ys)) (concat (map (fun b => map (fun _ => b) xs) ys))) = points pad xs ys.
Proof.
  induction ys as [|y ys IH]; [reflexivity|]. cbn [map concat points flat_map]. fold (points pad xs ys). rewrite <- IH.
  generalize (concat (map (fun _ => xs) ys)), (concat (map (fun b => map (fun _ => b) xs) ys)). intros u v. clear IH.
  induction xs as [|x xs IH]; [reflexivity|]. cbn [map app combine]. f_equal. exact IH.
Qed.
Lemma call_all_ok : forall ps vs, Forall2 (fun p v => fn p = Ok v) ps vs -> call_all fn ps = (Ok vs, ps).
Proof. induction 1 as [|p v ps vs E _ IH]; [reflexivity|]. cbn [call_all]. rewrite E, IH. reflexivity. Qed.
Lemma cast_floated v : exists w, cast DFloat v = Ok w /\ floated v w.
Proof. destruct v as [z|b e|]; eexists; (split; [reflexivity|split; [discriminate|reflexivity]]). Qed.
Lemma map_cast_floated : forall vs, exists ws, map_cast DFloat vs = Ok ws /\ Forall2 floated vs ws.
Proof.
  induction vs as [|v vs (ws & IH & F)]; [exists []; split; [reflexivity|constructor]|].
  destruct (cast_floated v) as (w & E & Fw). exists (w :: ws). cbn [map_cast]. rewrite E, IH. split; [reflexivity|constructor; assumption].
Qed.
Lemma defined_values pad xs ys : defined_on fn pad xs ys -> exists vs, Forall2 (fun p v => fn p = Ok v) (points pad xs ys) vs.
Proof.
  intros D. assert (H : Forall (fun p => exists v, fn p = Ok v) (points pad xs ys)).
  { apply Forall_forall. intros p Hp. apply in_flat_map in Hp. destruct Hp as (y & Hy & Hp). apply in_map_iff in Hp.
    destruct Hp as (x & <- & Hx). apply In_nth_error in Hx, Hy. destruct Hx as (i & Hx), Hy as (j & Hy).
    destruct (D j i y x Hy Hx) as (v & E & _). eauto. }
  clear D. induction H as [|p ps (v & E) _ (vs & IH)]; [exists []; constructor|exists (v :: vs); constructor; assumption].
Qed.
Lemma points_length pad xs ys : length (points pad xs ys) = length ys * length xs.
Proof. induction ys as [|y ys IH]; [reflexivity|]. cbn [points flat_map length]. fold (points pad xs ys). rewrite app_length, map_length, IH. reflexivity. Qed.
Lemma Forall2_len {A B} (R : A -> B -> Prop) l m : Forall2 R l m -> length l = length m.
Proof. induction 1; cbn; congruence. Qed.

Lemma rows_shaped {A} n : forall m (vs : list A), length vs = m * n -> shaped m n (rows_of n m vs).
Proof.
  induction m as [|m IH]; intros vs L; [split; [reflexivity|constructor]|]. cbn [rows_of].
  destruct (IH (skipn n vs)) as (L1 & F1); [rewrite skipn_length; cbn in L; lia|].
  split; [cbn; rewrite L1; reflexivity|]. constructor; [rewrite firstn_length; cbn in L; lia|exact F1].
Qed.
(** values row by row *)
Lemma rows_values pad xs : forall ys vs, Forall2 (fun p w => exists v, fn p = Ok v /\ floated v w) (points pad xs ys) vs ->
  forall j i y x, nth_error ys j = Some y -> nth_error xs i = Some x ->
    exists v w, fn (x :: y :: pad) = Ok v /\ floated v w /\ grid_value (rows_of (length xs) (length ys) vs) j i = Some w.
Proof.
  induction ys as [|y0 ys IH]; intros vs F j i y x Hj Hi; [destruct j; discriminate|].
  cbn [points flat_map] in F. fold (points pad xs ys) in F. apply Forall2_app_inv_l in F. destruct F as (v1 & v2 & F1 & F2 & ->).
  assert (L1 : length v1 = length xs) by (apply Forall2_len in F1; rewrite map_length in F1; auto).
  cbn [length rows_of]. rewrite <- L1, firstn_app, Nat.sub_diag, firstn_all, app_nil_r, skipn_app, skipn_all, Nat.sub_diag, L1. cbn [app skipn].
  destruct j as [|j].
  - injection Hj as ->. unfold grid_value. cbn [nth_error]. clear -F1 Hi. revert v1 F1 i Hi.
    induction xs as [|x0 xs IH]; intros v1 F1 i Hi; [destruct i; discriminate|]. inversion F1 as [|? w ? v1' (v & E & Fl) F1']; subst.
    destruct i as [|i]; [injection Hi as ->; exists v, w; auto|]. cbn [nth_error]. apply (IH v1' F1' i Hi).
  - change (grid_value (v1 :: rows_of (length xs) (length ys) v2) (S j) i) with (grid_value (rows_of (length xs) (length ys) v2) j i).
    apply (IH v2 F2 j i y x Hj Hi).
Qed.

Lemma Forall2_trans {A B C} (R : A -> B -> Prop) (T : B -> C -> Prop) l m : Forall2 R l m -> forall n, Forall2 T m n ->
  Forall2 (fun a c => exists b, R a b /\ T b c) l n.
Proof. induction 1 as [|a b l m H _ IH]; intros n N; inversion N; subst; constructor; eauto. Qed.

Lemma vectorize_ok pad xs ys : xs <> [] -> ys <> [] -> defined_on fn pad xs ys ->
  exists ws, vectorize fn pad (map (fun _ => xs) ys) (map (fun b => map (fun _ => b) xs) ys) = (Ok ws, firstn 1 (points pad xs ys) ++ points pad xs ys) /\
    Forall2 (fun p w => exists v, fn p = Ok v /\ floated v w) (points pad xs ys) ws.
Proof.
  intros X Y D. destruct (defined_values pad xs ys D) as (vs & F). unfold vectorize. rewrite grid_points.
  destruct xs as [|x xs]; [contradiction|]. destruct ys as [|y ys]; [contradiction|].
  destruct (D 0 0 y x eq_refl eq_refl) as (v & E & I).
  assert (H : exists tl, points pad (x :: xs) (y :: ys) = (x :: y :: pad) :: tl) by (eexists; reflexivity). destruct H as (tl & H).
  rewrite H in *. rewrite E. rewrite (call_all_ok _ _ F). cbn [firstn app bind].
  assert (Dt : dtype_of v = DFloat) by (destruct v; [exfalso; eapply I; reflexivity|reflexivity|reflexivity]). rewrite Dt.
  destruct (map_cast_floated vs) as (ws & -> & W). exists ws. split; [reflexivity|]. eapply Forall2_trans; eassumption.
Qed.

Lemma mesh_x (xs ys : list Q) : shaped (length ys) (length xs) (map (fun _ : Q => xs) ys).
Proof. split; [apply map_length|]. apply Forall_map, Forall_forall. reflexivity. Qed.
Lemma mesh_y (xs ys : list Q) : shaped (length ys) (length xs) (map (fun b : Q => map (fun _ : Q => b) xs) ys).
Proof. split; [apply map_length|]. apply Forall_map, Forall_forall. intros y _. apply map_length. Qed.

Theorem grid_spec k x0 x1 y0 y1 g pad : (0 < g)%Q -> (x0 < x1)%Q -> (y0 < y1)%Q -> pad <> PadOther ->
  exists xs ys, ticks x0 x1 g xs /\ ticks y0 y1 g ys /\
    (defined_on fn (pad_values pad) xs ys ->
     exists d, plot_grid fn k [x0; x1] [y0; y1] g pad = (Ok d, firstn 1 (points (pad_values pad) xs ys) ++ points (pad_values pad) xs ys) /\
       d_kind d = k /\ shaped (length ys) (length xs) (d_x d) /\ shaped (length ys) (length xs) (d_y d) /\ shaped (length ys) (length xs) (d_z d) /\
       forall j i y x, nth_error ys j = Some y -> nth_error xs i = Some x ->
         grid_value (d_x d) j i = Some x /\ grid_value (d_y d) j i = Some y /\
         exists v w, fn (x :: y :: pad_values pad) = Ok v /\ floated v w /\ grid_value (d_z d) j i = Some w).
Proof.
  intros G X Y P. destruct (qarange_spec x0 x1 g G) as (xs & Ex & Tx), (qarange_spec y0 y1 g G) as (ys & Ey & Ty).
  exists xs, ys. split; [exact Tx|]. split; [exact Ty|]. intros D.
  assert (NE : forall lo hi l, (lo < hi)%Q -> ticks lo hi g l -> l <> []).
  { intros lo hi l L (_ & T) ->. specialize (T 0). cbn in T. change (inject_Z 0) with 0%Q in T. assert (0 < 0) by (apply T; lra). lia. }
  destruct (vectorize_ok (pad_values pad) xs ys (NE _ _ _ X Tx) (NE _ _ _ Y Ty) D) as (ws & V & F).
  assert (E : plot_grid fn k [x0; x1] [y0; y1] g pad =
    (Ok {| d_kind := k; d_x := map (fun _ => xs) ys; d_y := map (fun b => map (fun _ => b) xs) ys; d_z := rows_of (length xs) (length ys) ws |},
     firstn 1 (points (pad_values pad) xs ys) ++ points (pad_values pad) xs ys)).
  { unfold plot_grid. rewrite Ex, Ey. cbn [meshgrid]. destruct pad; [| |contradiction]; cbn [pad_values] in V |- *; rewrite V; reflexivity. }
  eexists. split; [exact E|]. cbn [d_kind d_x d_y d_z]. split; [reflexivity|]. split; [apply mesh_x|]. split; [apply mesh_y|].
  split; [apply rows_shaped; rewrite <- points_length with (pad := pad_values pad); symmetry; eapply Forall2_len; exact F|].
  intros j i y x Hj Hi. split; [|split].
  - unfold grid_value. rewrite nth_error_map, Hj. exact Hi.
  - unfold grid_value. rewrite nth_error_map, Hj. cbn [option_map]. rewrite nth_error_map, Hi. reflexivity.
  - apply (rows_values (pad_values pad) xs ys ws F j i y x Hj Hi).
Qed.

(** ** plot_2d_problem *)
Theorem problem_spec {K} bounds xlim ylim k granularity pad (kwargs : list K) xl yl g :
  chosen xlim bounds = Some xl -> chosen ylim bounds = Some yl ->
  (granularity = Some g \/ granularity = None /\ exists b0 b1 r, bounds = Some (b0 :: b1 :: r) /\ g = ((b1 - b0) / 50)%Q) ->
  (k = KSurface \/ k = KContour /\ kwargs = []) ->
  plot_2d_problem fn bounds xlim ylim k granularity pad kwargs = plot_grid fn k xl yl g pad.
Proof.
  intros X Y G Kk. unfold plot_2d_problem, chosen in *.
  assert (E : forall l v, match l with Some v => Some v | None => bounds end = Some v ->
    match l with Some v => Ok v | None => match bounds with Some b => Ok b | None => Err AttributeError end end = Ok v).
  { intros [w|] v H; [congruence|]. rewrite H. reflexivity. }
  rewrite (E _ _ X), (E _ _ Y).
  destruct G as [-> | (-> & b0 & b1 & r & -> & ->)]; destruct Kk as [-> | (-> & ->)]; reflexivity.
Qed.

(** with the default arguments there are 50 points in each direction *)
Theorem ticks_50 lo hi xs : (lo < hi)%Q -> ticks lo hi ((hi - lo) / 50) xs -> length xs = 50.
Proof.
  intros L (T1 & T2). assert (D : (lo + inject_Z (Z.of_nat 49) * ((hi - lo) / 50) < hi)%Q).
  { assert (E : (inject_Z (Z.of_nat 49) * ((hi - lo) / 50) == (49 # 50) * (hi - lo))%Q) by (change (inject_Z (Z.of_nat 49)) with 49%Q; field). rewrite E. lra. }
  apply T2 in D. destruct (Nat.eq_dec (length xs) 50) as [E|E]; [exact E|exfalso].
  destruct (nth_error xs 50) as [x|] eqn:N; [|apply nth_error_None in N; lia]. destruct (T1 50 x N) as (Ex & Lx).
  assert (E2 : (inject_Z (Z.of_nat 50) * ((hi - lo) / 50) == hi - lo)%Q) by (change (inject_Z (Z.of_nat 50)) with 50%Q; field). rewrite E2 in Ex. lra.
Qed.

(** an empty range *)
Theorem empty_grid k x0 x1 y0 y1 g pad : (0 < g)%Q -> (x1 <= x0 \/ y1 <= y0)%Q -> pad <> PadOther ->
  plot_grid fn k [x0; x1] [y0; y1] g pad = (Err ValueError, []).
Proof.
  intros G O P. unfold plot_grid. destruct (qarange_spec x0 x1 g G) as (xs & Ex & _), (qarange_spec y0 y1 g G) as (ys & Ey & _).
  rewrite Ex, Ey. cbn [meshgrid]. assert (E : forall p, points p xs ys = []).
  { intros p. destruct O as [O|O]; [rewrite (qarange_empty _ _ _ G O) in Ex; injection Ex as <-|rewrite (qarange_empty _ _ _ G O) in Ey; injection Ey as <-; reflexivity].
    induction ys; [reflexivity|]. apply length_zero_iff_nil. rewrite points_length. cbn. lia. }
  unfold vectorize. rewrite grid_points, E. destruct pad; [reflexivity|reflexivity|contradiction].
Qed.

(** a point without a value *)
Lemma call_all_err : forall before p after e vs, Forall2 (fun q v => fn q = Ok v) before vs -> fn p = Err e ->
  call_all fn (before ++ p :: after) = (Err e, before ++ [p]).
Proof.
  intros before p after e vs F E. induction F as [|q v before vs Q _ IH]; cbn [app call_all]; [rewrite E; reflexivity|]. rewrite Q, IH. reflexivity.
Qed.
Theorem failing_point k x0 x1 y0 y1 g pad xs ys before p after vs e : (0 < g)%Q -> pad <> PadOther ->
  qarange x0 x1 g = Ok xs -> qarange y0 y1 g = Ok ys -> points (pad_values pad) xs ys = before ++ p :: after ->
  Forall2 (fun q v => fn q = Ok v) before vs -> fn p = Err e ->
  plot_grid fn k [x0; x1] [y0; y1] g pad = (Err e, firstn 1 before ++ before ++ [p]).
Proof.
  intros G P Ex Ey Pt F E. unfold plot_grid. rewrite Ex, Ey. cbn [meshgrid].
  assert (V : vectorize fn (pad_values pad) (map (fun _ => xs) ys) (map (fun b => map (fun _ => b) xs) ys) = (Err e, firstn 1 before ++ before ++ [p])).
  { unfold vectorize. rewrite grid_points, Pt. inversion F as [|q v b' vs' Q F']; subst; cbn [app].
    - rewrite E. reflexivity.
    - rewrite Q. change (q :: b' ++ p :: after) with ((q :: b') ++ p :: after). rewrite (call_all_err _ _ _ _ _ F E). reflexivity. }
  destruct pad; [| |contradiction]; cbn [pad_values] in V |- *; rewrite V; reflexivity.
Qed.
Theorem failing_spec k x0 x1 y0 y1 g pad : (0 < g)%Q -> pad <> PadOther ->
  exists xs ys, ticks x0 x1 g xs /\ ticks y0 y1 g ys /\
    forall before p after vs e, points (pad_values pad) xs ys = before ++ p :: after -> Forall2 (fun q v => fn q = Ok v) before vs -> fn p = Err e ->
      plot_grid fn k [x0; x1] [y0; y1] g pad = (Err e, firstn 1 before ++ before ++ [p]).
Proof.
  intros G P. destruct (qarange_spec x0 x1 g G) as (xs & Ex & Tx), (qarange_spec y0 y1 g G) as (ys & Ey & Ty).
  exists xs, ys. split; [exact Tx|]. split; [exact Ty|]. intros before p after vs e. apply failing_point; assumption.
Qed.
Theorem refused {K} bounds xlim ylim k granularity pad (kwargs : list K) :
  (bounds = None -> xlim = None \/ ylim = None -> plot_2d_problem fn bounds xlim ylim k granularity pad kwargs = (Err AttributeError, [])) /\
  (bounds = None -> xlim <> None -> ylim <> None -> granularity = None -> plot_2d_problem fn bounds xlim ylim k granularity pad kwargs = (Err ValueError, [])) /\
  (forall g xl yl, granularity = Some g -> xlim = Some xl -> ylim = Some yl ->
     (k = KOther -> plot_2d_problem fn bounds xlim ylim k granularity pad kwargs = (Err ValueError, [])) /\
     (k <> KOther -> (k = KContour -> kwargs = []) -> (length xl <> 2 \/ length yl <> 2 \/ pad = PadOther) ->
        plot_2d_problem fn bounds xlim ylim k granularity pad kwargs = (Err AssertionError, []))).
Proof.
  unfold plot_2d_problem. split; [|split].
  - intros -> [-> | ->]; [reflexivity|]. destruct xlim; reflexivity.
  - intros -> X Y ->. destruct xlim; [|contradiction]. destruct ylim; [|contradiction]. reflexivity.
  - intros g xl yl -> -> ->. split; [intros ->; reflexivity|]. intros Kk KW O.
    assert (E : forall k, plot_grid fn k xl yl g pad = (Err AssertionError, [])).
    { intros k'. unfold plot_grid. destruct xl as [|a [|b [|c xl]]]; try reflexivity. destruct yl as [|a' [|b' [|c' yl]]]; try reflexivity.
      destruct O as [O | [O | ->]]; [cbn in O; lia|cbn in O; lia|reflexivity]. }
    destruct k; [apply E| |contradiction]. rewrite (KW eq_refl). apply E.
Qed.

(** ** a function that answers with an int at the first point *)
Lemma cast_cut v q : num_val v = Some (Fin q) -> exists z, cast DInt v = Ok (NInt z) /\ cut v z.
Proof.
  intros E. destruct v as [z|b [|e|]|]; try discriminate E.
  - exists z. split; [reflexivity|]. exists (inject_Z z). split; [reflexivity|]. destruct (Qlt_le_dec (inject_Z z) 0); [right|left]; repeat split; lra.
  - cbn in E. injection E as ->. exists (Qtrunc q). split; [reflexivity|]. exists q. split; [reflexivity|]. destruct q as [n d].
    unfold Qtrunc, Qle, Qlt, Qminus, Qplus, Qopp, inject_Z. cbn [Qnum Qden]. rewrite ?Pos.mul_1_l, ?Z.mul_1_r.
    assert (E := Z.quot_rem' n (Zpos d)). set (z := Z.quot n (Zpos d)) in *.
    destruct (Z_le_gt_dec 0 n) as [N|N]; [left|right].
    + destruct (Z.rem_bound_pos n (Zpos d)) as [R1 R2]; [exact N|reflexivity|]. clearbody z. set (r := Z.rem n (Zpos d)) in *. clearbody r. repeat split; lia.
    + destruct (Z.rem_bound_pos_neg n (Zpos d)) as [R1 R2]; [reflexivity|lia|]. clearbody z. set (r := Z.rem n (Zpos d)) in *. clearbody r. repeat split; lia.
Qed.
Lemma map_cast_cut : forall vs, Forall (fun v => exists q, num_val v = Some (Fin q)) vs ->
  exists ws, map_cast DInt vs = Ok ws /\ Forall2 (fun v w => exists z, w = NInt z /\ cut v z) vs ws.
Proof.
  induction 1 as [|v vs (q & Q) _ (ws & IH & F)]; [exists []; split; [reflexivity|constructor]|].
  destruct (cast_cut v q Q) as (z & E & C). exists (NInt z :: ws). cbn [map_cast]. rewrite E, IH. split; [reflexivity|].
  constructor; [exists z; split; [reflexivity|exact C]|exact F].
Qed.
Lemma map_cast_bad before v after : Forall (fun v => exists q, num_val v = Some (Fin q)) before ->
  (v = NNan -> map_cast DInt (before ++ v :: after) = Err ValueError) /\
  ((exists b, v = NFlt b PInf \/ v = NFlt b MInf) -> map_cast DInt (before ++ v :: after) = Err OverflowError).
Proof.
  induction 1 as [|u before (q & Q) _ (IH1 & IH2)]; cbn [app map_cast].
  - split; [intros ->; reflexivity|]. intros (b & [-> | ->]); reflexivity.
  - destruct (cast_cut u q Q) as (z & -> & _). cbn [bind]. split; intros H; [rewrite (IH1 H)|rewrite (IH2 H)]; reflexivity.
Qed.
Lemma rows_any pad xs (R : num -> num -> Prop) : forall ys vs, Forall2 (fun p w => exists v, fn p = Ok v /\ R v w) (points pad xs ys) vs ->
  forall j i y x, nth_error ys j = Some y -> nth_error xs i = Some x ->
    exists v w, fn (x :: y :: pad) = Ok v /\ R v w /\ grid_value (rows_of (length xs) (length ys) vs) j i = Some w.
Proof.
  induction ys as [|y0 ys IH]; intros vs F j i y x Hj Hi; [destruct j; discriminate|].
  cbn [points flat_map] in F. fold (points pad xs ys) in F. apply Forall2_app_inv_l in F. destruct F as (v1 & v2 & F1 & F2 & ->).
  assert (L1 : length v1 = length xs) by (apply Forall2_len in F1; rewrite map_length in F1; auto).
  cbn [length rows_of]. rewrite <- L1, firstn_app, Nat.sub_diag, firstn_all, app_nil_r, skipn_app, skipn_all, Nat.sub_diag, L1. cbn [app skipn].
  destruct j as [|j].
  - injection Hj as ->. unfold grid_value. cbn [nth_error]. clear -F1 Hi. revert v1 F1 i Hi.
    induction xs as [|x0 xs IH]; intros v1 F1 i Hi; [destruct i; discriminate|]. inversion F1 as [|? w ? v1' (v & E & Fl) F1']; subst.
    destruct i as [|i]; [injection Hi as ->; exists v, w; auto|]. cbn [nth_error]. apply (IH v1' F1' i Hi).
  - change (grid_value (v1 :: rows_of (length xs) (length ys) v2) (S j) i) with (grid_value (rows_of (length xs) (length ys) v2) j i).
    apply (IH v2 F2 j i y x Hj Hi).
Qed.
Lemma vectorize_int pad xs ys p tl z vs : points pad xs ys = p :: tl -> fn p = Ok (NInt z) -> Forall2 (fun q v => fn q = Ok v) (points pad xs ys) vs ->
  vectorize fn pad (map (fun _ => xs) ys) (map (fun b => map (fun _ => b) xs) ys) = (map_cast DInt vs, p :: points pad xs ys).
Proof.
  intros P E F. unfold vectorize. rewrite grid_points, P. rewrite E. rewrite <- P. rewrite (call_all_ok _ _ F). reflexivity.
Qed.
Theorem int_grid k x0 x1 y0 y1 g pad : (0 < g)%Q -> pad <> PadOther ->
  exists xs ys, ticks x0 x1 g xs /\ ticks y0 y1 g ys /\
    forall p rest z vs, points (pad_values pad) xs ys = p :: rest -> fn p = Ok (NInt z) -> Forall2 (fun q v => fn q = Ok v) rest vs ->
      (Forall (fun v => exists q, num_val v = Some (Fin q)) vs ->
       exists d, plot_grid fn k [x0; x1] [y0; y1] g pad = (Ok d, p :: p :: rest) /\
         forall j i y x, nth_error ys j = Some y -> nth_error xs i = Some x ->
           exists v w, fn (x :: y :: pad_values pad) = Ok v /\ cut v w /\ grid_value (d_z d) j i = Some (NInt w)) /\
      (forall before v after, vs = before ++ v :: after -> Forall (fun v => exists q, num_val v = Some (Fin q)) before ->
         (v = NNan -> plot_grid fn k [x0; x1] [y0; y1] g pad = (Err ValueError, p :: p :: rest)) /\
         ((exists b, v = NFlt b PInf \/ v = NFlt b MInf) -> plot_grid fn k [x0; x1] [y0; y1] g pad = (Err OverflowError, p :: p :: rest))).
Proof.
  intros G P. destruct (qarange_spec x0 x1 g G) as (xs & Ex & Tx), (qarange_spec y0 y1 g G) as (ys & Ey & Ty).
  exists xs, ys. split; [exact Tx|]. split; [exact Ty|]. intros p rest z vs Pt E F.
  assert (F' : Forall2 (fun q v => fn q = Ok v) (points (pad_values pad) xs ys) (NInt z :: vs)) by (rewrite Pt; constructor; assumption).
  assert (V := vectorize_int (pad_values pad) xs ys p rest z _ Pt E F').
  assert (EG : plot_grid fn k [x0; x1] [y0; y1] g pad =
    (bind (map_cast DInt (NInt z :: vs)) (fun zs => Ok {| d_kind := k; d_x := map (fun _ => xs) ys; d_y := map (fun b => map (fun _ => b) xs) ys; d_z := rows_of (length xs) (length ys) zs |}),
     p :: p :: rest)).
  { unfold plot_grid. rewrite Ex, Ey. cbn [meshgrid]. rewrite <- Pt. destruct pad; [| |contradiction]; cbn [pad_values] in V |- *; rewrite V; reflexivity. }
  split.
  - intros Fin_. destruct (map_cast_cut (NInt z :: vs)) as (ws & W & C); [constructor; [eexists; reflexivity|exact Fin_]|].
    rewrite W in EG. eexists. split; [exact EG|]. intros j i y x Hj Hi. cbn [d_z].
    destruct (rows_any (pad_values pad) xs (fun v w => exists z, w = NInt z /\ cut v z) ys ws (Forall2_trans _ _ _ _ F' _ C) j i y x Hj Hi) as (v & w & A & (z' & -> & B) & D).
    exists v, z'. auto.
  - intros before v after -> Fb. destruct (map_cast_bad (NInt z :: before) v after) as (B1 & B2); [constructor; [eexists; reflexivity|exact Fb]|].
    cbn [app] in B1, B2. split; intros H; [rewrite (B1 H) in EG|rewrite (B2 H) in EG]; exact EG.
Qed.
End Plot.
