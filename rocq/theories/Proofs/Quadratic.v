(** Lemmas about the family of quadratic basins. *)
From Coq Require Import Lia Lqa Qabs Qround Qpower Qfield.
From Verif Require Import Model.Base Model.RealProblems Spec.Problems Spec.RealProblems Proofs.Metrics Proofs.Sums Proofs.RealProblems.

Lemma map_result_ok {A B} (f : A -> result B) (g : A -> B) l : (forall x, In x l -> f x = Ok (g x)) -> map_result f l = Ok (map g l).
Proof.
  induction l as [|x l IH]; intros H; [reflexivity|]. cbn [map_result map]. rewrite (H x) by (left; reflexivity). cbn [bind].
  rewrite IH by (intros; apply H; right; assumption). reflexivity.
Qed.
Lemma fold_min_spec r : forall v, (fold_left Qmin r v <= v)%Q /\ (forall y, In y r -> (fold_left Qmin r v <= y)%Q) /\
  exists y, In y (v :: r) /\ (fold_left Qmin r v == y)%Q.
Proof.
  induction r as [|x r IH]; intros v; cbn [fold_left].
  - split; [lra|]. split; [intros y []|]. exists v. split; [left; reflexivity|reflexivity].
  - destruct (IH (Qmin v x)) as (H1 & H2 & y & Hy & E). pose proof (Q.le_min_l v x). pose proof (Q.le_min_r v x).
    split; [lra|]. split.
    + intros z [<- | Hz]; [lra|apply H2, Hz].
    + destruct Hy as [<- | Hy].
      * destruct (Q.min_spec v x) as [[_ K] | [_ K]]; [exists v|exists x]; (split; [cbn; auto|]); rewrite E; exact K.
      * exists y. split; [right; right; exact Hy|exact E].
Qed.

Definition rdr (dr : list (list Q) * list (list Q)) := mat_mul (mat_mul (transpose (snd dr)) (fst dr)) (snd dr).

Section Family.
Variable n : nat.
Variable ds rs : list (list (list Q)).
Variable centres : list (list Q).
Variable values : list Q.
Hypothesis ok : basins_ok n ds rs centres values.

Definition family : list basin :=
  map (fun p => mk_basin (fst (fst p)) (snd (fst p)) (snd p)) (combine (combine (map rdr (combine ds rs)) centres) values).

Lemma family_ok : quadratic_family ds rs centres values = Ok family.
Proof.
  destruct ok as [E1 E2 E3 Hd Hr Hc]. unfold quadratic_family. rewrite E1, E2, E3, !Nat.eqb_refl. cbn [andb].
  rewrite (map_result_ok _ rdr); [reflexivity|]. intros [d r] H. pose proof (in_combine_l _ _ _ _ H) as H1. pose proof (in_combine_r _ _ _ _ H) as H2.
  rewrite Forall_forall in Hd, Hr. destruct (Hd d H1) as [Sd Dd]. apply (parabaloid_matrix_ok n); auto.
Qed.
Lemma family_length : length family = length ds.
Proof. destruct ok as [E1 E2 E3 _ _ _]. unfold family. rewrite map_length, !combine_length, map_length, combine_length. lia. Qed.
Lemma family_nth i : i < length ds ->
  nth i family (mk_basin [] [] 0) = mk_basin (rdr (nth i ds [], nth i rs [])) (nth i centres []) (nth i values 0%Q).
Proof.
  intros Hi. destruct ok as [E1 E2 E3 _ _ _]. unfold family.
  rewrite (nth_map' _ _ _ ((rdr ([], []), []), 0%Q)) by (rewrite !combine_length, map_length, combine_length; lia).
  rewrite combine_nth by (rewrite combine_length, map_length, combine_length; lia). cbn [fst snd].
  rewrite combine_nth by (rewrite map_length, combine_length; lia). cbn [fst snd].
  rewrite (nth_map' _ _ _ ([], [])) by (rewrite combine_length; lia). rewrite combine_nth by lia. reflexivity.
Qed.

Lemma basin_eval i x : i < length ds -> length x = n ->
  exists v, basin_evaluate true x (nth i family (mk_basin [] [] 0)) = Ok v /\ (v == basin_at n ds rs centres values i x)%Q.
Proof.
  intros Hi Hx. rewrite family_nth by exact Hi. destruct ok as [E1 E2 E3 Hd Hr Hc]. rewrite Forall_forall in Hd, Hr, Hc.
  destruct (Hd (nth i ds []) (nth_In _ _ Hi)) as [Sd Dd]. assert (Sr := Hr (nth i rs []) ltac:(apply nth_In; lia)).
  assert (Lc := Hc (nth i centres []) ltac:(apply nth_In; lia)).
  unfold basin_evaluate. cbn [ba_matrix ba_offset ba_value].
  destruct (translated_spec (parabaloid_evaluate (rdr (nth i ds [], nth i rs []))) (nth i centres []) x ltac:(congruence)) as (y & -> & Ly & Ay).
  destruct (quadratic_form n (nth i ds []) (nth i rs []) y Sd Sr ltac:(congruence) Dd) as (v & Ev & Vv).
  unfold rdr. cbn [fst snd]. rewrite Ev. cbn [bind]. eexists. split; [reflexivity|]. rewrite Vv. unfold basin_at, basin_value.
  rewrite Qplus_comm. apply Qplus_comp; [reflexivity|]. apply sumn_ext. intros k Hk.
  assert (I : (image n (nth i rs []) y k == sumn n (fun j => entry (nth i rs []) k j * (at_ x j - at_ (nth i centres []) j)))%Q).
  { apply sumn_ext. intros j Hj. rewrite Ay by lia. reflexivity. }
  rewrite I. reflexivity.
Qed.

Lemma family_value x : ds <> [] -> length x = n ->
  exists v, quadratic_evaluate family true x = Ok v /\
    (forall i, i < length ds -> (v <= basin_at n ds rs centres values i x)%Q) /\
    (exists i, i < length ds /\ (v == basin_at n ds rs centres values i x)%Q).
Proof.
  intros Hne Hx. unfold quadratic_evaluate.
  set (h := fun b => match basin_evaluate true x b with Ok v => v | Err _ => 0%Q end).
  rewrite (map_result_ok _ h).
  2:{ intros b Hb. apply (In_nth _ _ (mk_basin [] [] 0)) in Hb. destruct Hb as (i & Hi & <-). rewrite family_length in Hi.
      destruct (basin_eval i x Hi Hx) as (v & E & _). unfold h. rewrite E. reflexivity. }
  cbn [bind]. assert (Hh : forall i, i < length ds -> (nth i (map h family) 0 == basin_at n ds rs centres values i x)%Q).
  { intros i Hi. rewrite (nth_map' _ _ _ (mk_basin [] [] 0)) by (rewrite family_length; exact Hi).
    destruct (basin_eval i x Hi Hx) as (v & E & Ev). unfold h. rewrite E. exact Ev. }
  assert (L : length (map h family) = length ds) by (rewrite map_length; apply family_length).
  destruct (map h family) as [|v r] eqn:F; [destruct ds; [congruence|discriminate]|].
  eexists. split; [reflexivity|]. destruct (fold_min_spec r v) as (H1 & H2 & y & Hy & E). split.
  - intros i Hi. rewrite <- (Hh i Hi). destruct i as [|i]; [exact H1|]. cbn [nth]. apply H2, nth_In. cbn in L. lia.
  - apply (In_nth _ _ 0%Q) in Hy. destruct Hy as (i & Hi & <-). exists i. split; [rewrite <- L; exact Hi|]. rewrite E. apply Hh. lia.
Qed.

(** basins with non-negative curvature *)
Lemma basin_above i x : i < length ds -> (forall k, k < n -> (0 <= entry (nth i ds []) k k)%Q) ->
  (nth i values 0 <= basin_at n ds rs centres values i x)%Q.
Proof.
  intros Hi Hp. unfold basin_at, basin_value. set (s := sumn n _).
  assert (H : (0 <= s)%Q); [|lra]. apply sumn_nonneg. intros k Hk. apply Qmult_le_0_compat; [apply Hp, Hk|apply sq_pos].
Qed.
Lemma basin_centre i : (basin_at n ds rs centres values i (nth i centres []) == nth i values 0)%Q.
Proof.
  unfold basin_at, basin_value. set (s := sumn n _). assert (H : (s == 0)%Q); [|rewrite H; ring].
  unfold s. transitivity (sumn n (fun _ => 0))%Q; [|rewrite sumn_const; ring]. apply sumn_ext. intros k Hk.
  assert (Z : (sumn n (fun j => entry (nth i rs []) k j * (at_ (nth i centres []) j - at_ (nth i centres []) j)) == 0)%Q).
  { transitivity (sumn n (fun _ => 0))%Q; [|rewrite sumn_const; ring]. apply sumn_ext. intros. ring. }
  rewrite Z. ring.
Qed.
Lemma basin_only_centre i x : i < length ds -> length x = n -> (forall k, k < n -> (0 < entry (nth i ds []) k k)%Q) ->
  orthonormal_rows n (nth i rs []) ->
  (basin_at n ds rs centres values i x == nth i values 0)%Q -> same_point x (nth i centres []).
Proof.
  intros Hi Hx Hp O H. unfold basin_at, basin_value in H.
  assert (S0 : (sumn n (fun k => entry (nth i ds []) k k * (sumn n (fun j => entry (nth i rs []) k j * (at_ x j - at_ (nth i centres []) j)) * sumn n (fun j => entry (nth i rs []) k j * (at_ x j - at_ (nth i centres []) j)))) == 0)%Q) by lra.
  clear H. rewrite sumn_zero in S0 by (intros k Hk; apply Qmult_le_0_compat; [apply Qlt_le_weak, Hp, Hk|apply sq_pos]).
  pose proof (length_preserved n (entry (nth i rs [])) O (fun j => at_ x j - at_ (nth i centres []) j)%Q) as LP. cbv beta in LP.
  assert (Z : (sumn n (fun j => (at_ x j - at_ (nth i centres []) j) * (at_ x j - at_ (nth i centres []) j)) == 0)%Q).
  { rewrite <- LP. transitivity (sumn n (fun _ => 0))%Q; [|rewrite sumn_const; ring]. apply sumn_ext. intros k Hk. specialize (S0 k Hk). specialize (Hp k Hk).
    apply Qmult_integral in S0. destruct S0 as [S0 | S0]; [lra|exact S0]. }
  rewrite sumn_zero in Z by (intros; apply sq_pos).
  destruct ok as [E1 E2 E3 Hd Hr Hc]. rewrite Forall_forall in Hc. assert (Lc := Hc (nth i centres []) ltac:(apply nth_In; lia)).
  set (c := nth i centres []) in *. clearbody c. clear - Z Hx Lc.
  assert (H : forall j, j < n -> (at_ x j == at_ c j)%Q).
  { intros j Hj. specialize (Z j Hj). nra. }
  clear Z. revert x c Hx Lc H. induction n as [|k IH]; intros x c Hx Lc H; destruct x as [|a x], c as [|b c]; cbn in Hx, Lc; try lia; [constructor|].
  constructor; [apply (H 0); lia|]. apply IH; [lia|lia|]. intros j Hj. apply (H (S j)). lia.
Qed.
End Family.

Lemma diag_is_diagonal d : is_diagonal (length d) (diag d).
Proof.
  unfold diag. split; [split; [rewrite map_length, seq_length; reflexivity|]|].
  - apply Forall_forall. intros r Hr. apply in_map_iff in Hr. destruct Hr as (i & <- & _). rewrite map_length, seq_length. reflexivity.
  - intros i j Hi Hj N. unfold entry, at_. rewrite nth_map_seq by exact Hi. rewrite nth_map_seq by exact Hj.
    apply Nat.eqb_neq in N. rewrite N. reflexivity.
Qed.
Lemma diag_entry d i : i < length d -> entry (diag d) i i = at_ d i.
Proof. intros Hi. unfold entry, at_, diag. rewrite nth_map_seq by exact Hi. rewrite nth_map_seq by exact Hi. rewrite Nat.eqb_refl. reflexivity. Qed.

(** ** generate *)
Lemma quadratic_minimum n ds rs centres values p :
  basins_ok n ds rs centres values -> ds <> [] -> quadratic_family ds rs centres values = Ok p ->
  (forall i k, i < length ds -> k < n -> (0 <= entry (nth i ds []) k k)%Q) ->
  forall b, b < length ds -> (forall i, i < length ds -> (nth b values 0 <= nth i values 0)%Q) ->
  (exists v, quadratic_evaluate p true (nth b centres []) = Ok v /\ (v == nth b values 0)%Q) /\
  (forall x, length x = n -> exists v, quadratic_evaluate p true x = Ok v /\ (nth b values 0 <= v)%Q).
Proof.
  intros ok Hne Hp Hpos b Hb Hmin. rewrite (family_ok n ds rs centres values ok) in Hp. injection Hp as <-.
  assert (Low : forall x, length x = n -> exists v, quadratic_evaluate (family ds rs centres values) true x = Ok v /\ (nth b values 0 <= v)%Q).
  { intros x Hx. destruct (family_value n ds rs centres values ok x Hne Hx) as (v & E & _ & i & Hi & Ev). exists v. split; [exact E|].
    rewrite Ev. apply Qle_trans with (nth i values 0%Q); [apply Hmin, Hi|]. apply basin_above; auto. }
  split; [|exact Low]. assert (Lc : length (nth b centres []) = n).
  { destruct ok as [E1 E2 E3 Hd Hr Hc]. rewrite Forall_forall in Hc. apply Hc, nth_In. lia. }
  destruct (Low _ Lc) as (v & E & Hv). exists v. split; [exact E|].
  destruct (family_value n ds rs centres values ok (nth b centres []) Hne Lc) as (v' & E' & Hall & _). rewrite E in E'. injection E' as <-.
  specialize (Hall b Hb). rewrite basin_centre in Hall. lra.
Qed.

Lemma generate_spec n nb ng wb ob widths rotations offsets extra :
  0 < ng <= nb -> (fst wb <= snd wb)%Q -> (fst ob <= snd ob)%Q ->
  length widths = nb -> length rotations = nb -> length offsets = nb -> length extra = nb - ng ->
  Forall (fun w => length w = n /\ Forall (fun v => 0 <= v)%Q w) widths ->
  Forall (is_square n) rotations -> Forall (fun o => length o = n) offsets -> Forall (fun v => 0 <= v)%Q extra ->
  exists p bounds o, quadratic_generate nb ng wb ob widths rotations offsets extra = Ok (p, bounds, Some o) /\
    nth_error offsets 0 = Some o /\
    (forall j, j < ng -> exists v, quadratic_evaluate p true (nth j offsets []) = Ok v /\ (v == 0)%Q) /\
    (forall x, length x = n -> exists v, quadratic_evaluate p true x = Ok v /\ (0 <= v)%Q /\
      (Forall (Forall (fun v => 0 < v)%Q) widths -> Forall (fun v => 0 < v)%Q extra -> Forall (orthonormal_rows n) rotations ->
       ((v == 0)%Q <-> exists j, j < ng /\ same_point x (nth j offsets [])))).
Proof.
  intros Hng Hwb Hob Lw Lr Lo Le Fw Fr Fo Fe.
  set (values := repeat 0%Q ng ++ extra). set (ds := map diag widths).
  assert (Lds : length ds = nb) by (unfold ds; rewrite map_length; exact Lw).
  assert (Lv : length values = nb) by (unfold values; rewrite app_length, repeat_length; lia).
  assert (ok : basins_ok n ds rotations offsets values).
  { constructor; try congruence; try assumption. apply Forall_forall. intros d Hd. apply in_map_iff in Hd. destruct Hd as (w & <- & Hw).
    rewrite Forall_forall in Fw. destruct (Fw w Hw) as [<- _]. apply diag_is_diagonal. }
  assert (Hne : ds <> []) by (intros E; rewrite E in Lds; cbn in Lds; lia).
  assert (Hent : forall i k, i < nb -> k < n -> entry (nth i ds []) k k = at_ (nth i widths []) k).
  { intros i k Hi Hk. unfold ds. rewrite (nth_map' _ _ _ []) by lia. apply diag_entry. rewrite Forall_forall in Fw.
    destruct (Fw (nth i widths []) ltac:(apply nth_In; lia)) as [-> _]. exact Hk. }
  assert (Hpos : forall i k, i < length ds -> k < n -> (0 <= entry (nth i ds []) k k)%Q).
  { intros i k Hi Hk. rewrite Hent by lia. rewrite Forall_forall in Fw. destruct (Fw (nth i widths []) ltac:(apply nth_In; lia)) as [L P].
    rewrite Forall_forall in P. apply P, nth_In. lia. }
  assert (V0 : forall j, j < ng -> nth j values 0%Q = 0%Q).
  { intros j Hj. unfold values. rewrite app_nth1 by (rewrite repeat_length; exact Hj). apply nth_repeat. }
  assert (V1 : forall j, ng <= j < nb -> In (nth j values 0%Q) extra).
  { intros j Hj. unfold values. rewrite app_nth2 by (rewrite repeat_length; lia). rewrite repeat_length. apply nth_In. lia. }
  assert (Vge : forall i, i < length ds -> (0 <= nth i values 0)%Q).
  { intros i Hi. destruct (le_lt_dec ng i) as [H | H]; [|rewrite V0 by exact H; lra]. rewrite Forall_forall in Fe. apply Fe, V1. lia. }
  pose proof (family_ok n ds rotations offsets values ok) as Hf.
  destruct offsets as [|o os] eqn:Eo; [cbn in Lo; lia|]. rewrite <- Eo in *.
  exists (family ds rotations offsets values). eexists. exists o. split; [|split; [rewrite Eo; reflexivity|split]].
  - unfold quadratic_generate. apply Qle_bool_iff in Hwb, Hob. rewrite Hwb, Hob. replace (ng <=? nb) with true by (symmetry; apply Nat.leb_le; lia). cbn [andb].
    fold ds values. rewrite Hf. cbn [bind]. replace (0 <? ng) with true by (symmetry; apply Nat.ltb_lt; lia). rewrite Eo. reflexivity.
  - intros j Hj. destruct (quadratic_minimum n ds rotations offsets values _ ok Hne Hf Hpos j ltac:(lia)) as [(v & E & Ev) _].
    { intros i Hi. rewrite V0 by exact Hj. apply Vge, Hi. }
    exists v. split; [exact E|]. rewrite Ev, V0 by exact Hj. reflexivity.
  - intros x Hx. destruct (family_value n ds rotations offsets values ok x Hne Hx) as (v & E & Hle & i & Hi & Ev).
    exists v. split; [exact E|]. assert (Hv : (0 <= v)%Q).
    { rewrite Ev. apply Qle_trans with (nth i values 0%Q); [apply Vge, Hi|]. apply basin_above; auto. }
    split; [exact Hv|]. intros Pw Pe Po. split.
    + intros Z. assert (B : (nth i values 0 <= 0)%Q).
      { apply Qle_trans with v; [rewrite Ev; apply basin_above; auto|rewrite Z; apply Qle_refl]. }
      assert (Hig : i < ng).
      { destruct (le_lt_dec ng i) as [H | H]; [|exact H]. exfalso. rewrite Forall_forall in Pe. specialize (Pe _ (V1 i ltac:(lia))). cbv beta in Pe. lra. }
      exists i. split; [exact Hig|]. apply (basin_only_centre n ds rotations offsets values ok i x Hi Hx).
      * intros k Hk. rewrite Hent by lia. rewrite Forall_forall in Pw, Fw. destruct (Fw (nth i widths []) ltac:(apply nth_In; lia)) as [L _].
        assert (P := Pw (nth i widths []) ltac:(apply nth_In; lia)). rewrite Forall_forall in P. apply P, nth_In. lia.
      * rewrite Forall_forall in Po. apply Po, nth_In. lia.
      * rewrite <- Ev, V0 by exact Hig. exact Z.
    + intros (j & Hj & S). apply Qle_antisym; [|exact Hv]. apply Qle_trans with (basin_at n ds rotations offsets values j x); [apply Hle; lia|].
      assert (Ex : (basin_at n ds rotations offsets values j x == basin_at n ds rotations offsets values j (nth j offsets []))%Q).
      { unfold basin_at, basin_value. apply Qplus_comp; [reflexivity|]. apply sumn_ext. intros k Hk.
        assert (I : (sumn n (fun l => entry (nth j rotations []) k l * (at_ x l - at_ (nth j offsets []) l)) ==
                     sumn n (fun l => entry (nth j rotations []) k l * (at_ (nth j offsets []) l - at_ (nth j offsets []) l)))%Q).
        { apply sumn_ext. intros l Hl. assert (Q1 : (at_ x l == at_ (nth j offsets []) l)%Q).
          { clear - S. revert l. induction S as [|a b xs ys Hab HS IH]; intros [|l]; unfold at_; cbn [nth]; try reflexivity; [exact Hab|apply IH]. }
          rewrite Q1. reflexivity. }
        rewrite I. reflexivity. }
      rewrite Ex, basin_centre, V0 by exact Hj. lra.
Qed.
