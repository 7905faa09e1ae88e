(** Lemmas about parsimony keys and diversity metrics. *)
From Coq Require Import Lia Lqa Qabs Permutation.
From Verif Require Import Model.Base Model.PyList Model.Selection Model.Problems Model.Metrics.
From Verif Require Import Spec.Order Spec.Selection Spec.Problems Spec.Metrics.
From Verif Require Import Proofs.Order Proofs.PyList Proofs.ScalarSel Proofs.Problems.

(** ** parsimony *)
Definition signed (mx : bool) (f : num) : num := if mx then f else num_neg f.
Lemma signed_viable mx f : viable f -> viable (signed mx f).
Proof. unfold viable, signed. destruct mx; [auto|]. destruct f as [z|b [|q|]|]; cbn; auto; discriminate. Qed.
Definition ext_neg (e : ext) : ext := match e with MInf => PInf | Fin q => Fin (- q) | PInf => MInf end.
Lemma signed_lt mx f g : viable f -> viable g -> num_ltb (signed mx f) (signed mx g) = true <-> better mx g f.
Proof.
  unfold viable, num_ltb, better, signed. intros Hf Hg. destruct mx.
  - destruct (num_val f) as [x|]; [|congruence]. destruct (num_val g) as [y|]; [|congruence]. rewrite ext_ltb_lt. reflexivity.
  - assert (E : forall h, num_val (num_neg h) = option_map ext_neg (num_val h)) by (intros [z|b [|q|]|]; reflexivity).
    rewrite !E. destruct (num_val f) as [x|]; [|congruence]. destruct (num_val g) as [y|]; [|congruence]. cbn. rewrite ext_ltb_lt.
    destruct x as [|x|], y as [|y|]; cbn; try tauto. split; intros; lra.
Qed.
Lemma signed_eq mx f g : viable f -> viable g -> num_eqb (signed mx f) (signed mx g) = true <-> same_value mx f g.
Proof.
  intros Hf Hg. pose proof (signed_lt mx f g Hf Hg) as A. pose proof (signed_lt mx g f Hg Hf) as B.
  assert (E : num_eqb (signed mx f) (signed mx g) = negb (num_ltb (signed mx f) (signed mx g)) && negb (num_ltb (signed mx g) (signed mx f))).
  { assert (Vf := signed_viable mx f Hf). assert (Vg := signed_viable mx g Hg). unfold viable, num_eqb, num_ltb in *.
    destruct (num_val (signed mx f)) as [x|]; [|congruence]. destruct (num_val (signed mx g)) as [y|]; [|congruence].
    destruct x as [|x|], y as [|y|]; try reflexivity. cbn.
    destruct (Qeq_bool x y) eqn:Eq.
    - apply Qeq_bool_iff in Eq. symmetry. apply andb_true_iff. split; apply negb_true_iff, Qltb_ge; lra.
    - symmetry. apply andb_false_iff. apply Qeq_bool_false in Eq. destruct (Qlt_le_dec x y) as [L | L]; [left|right]; apply negb_false_iff, Qltb_lt; [exact L|].
      destruct (Qlt_le_dec y x); [assumption|]. exfalso. apply Eq. lra. }
  rewrite E, andb_true_iff, !negb_true_iff. unfold same_value. rewrite <- A, <- B. split.
  - intros [H1 H2]. rewrite H1, H2. split; discriminate.
  - intros [H1 H2]. split; apply not_true_is_false; assumption.
Qed.

Lemma lexical_spec mx f g m n : viable f -> viable g ->
  (pair_ltb (lexical_key mx f m) (lexical_key mx g n) = true <-> better mx g f \/ (same_value mx f g /\ n < m)) /\
  (pair_eqb (lexical_key mx f m) (lexical_key mx g n) = true <-> same_value mx f g /\ m = n).
Proof.
  intros Hf Hg. unfold pair_ltb, pair_eqb, lexical_key. cbn [fst snd].
  change (if mx then f else num_neg f) with (signed mx f). change (if mx then g else num_neg g) with (signed mx g).
  pose proof (signed_lt mx f g Hf Hg) as A. pose proof (signed_eq mx f g Hf Hg) as B. split.
  - destruct (num_eqb _ _) eqn:E.
    + assert (S : same_value mx f g) by (apply B; reflexivity). rewrite Z.ltb_lt. split.
      * intros H. right. split; [exact S|lia].
      * intros [H | [_ H]]; [exfalso; apply S, H|lia].
    + rewrite A. split; [auto|]. intros [H | [H _]]; [exact H|]. apply B in H. discriminate.
  - rewrite andb_true_iff, B, Z.eqb_eq. split; intros [H K]; split; auto; lia.
Qed.

(** individuals with a fitness and a genome length; [x] is not preferred to [y] *)
Definition lexical_worse (mx : bool) (x y : num * nat) : Prop :=
  ~ better mx (fst x) (fst y) /\ (better mx (fst y) (fst x) \/ snd y <= snd x).
Lemma lexical_truncation mx offspring size parents :
  let key := fun x : num * nat => lexical_key mx (fst x) (snd x) in
  Forall (fun x => viable (fst x)) (pool_of offspring parents) ->
  best_selection (fun x y => ~ better mx (fst x) (fst y) /\ (better mx (fst y) (fst x) \/ snd y <= snd x)) size (pool_of offspring parents)
    (truncation_selection (fun a b => pair_ltb (key a) (key b)) (fun a b => pair_ltb (key b) (key a)) (fun a b => pair_eqb (key a) (key b))
       offspring size parents).
Proof.
  intros key HP.
  destruct (truncation_eq (fun a b => pair_ltb (key a) (key b)) (fun a b => pair_ltb (key b) (key a)) (fun a b => pair_eqb (key a) (key b)) offspring size parents) as (sized & E).
  rewrite E. unfold key. apply (topk_best _ (fun x => viable (fst x))); try assumption.
  - intros x y z [H1 H2] [H3 H4]. split.
    + intros B. destruct (better_split _ _ (fst y) _ B); contradiction.
    + destruct H2 as [H2 | H2], H4 as [H4 | H4]; [left; eapply better_trans; eassumption| | |right; lia].
      * destruct (better_split _ _ (fst z) _ H2) as [H | H]; [contradiction|auto].
      * destruct (better_split _ _ (fst x) _ H4) as [H | H]; [auto|contradiction].
  - intros x y. destruct (better_dec mx (fst x) (fst y)) as [B | B]; [right; split; [apply better_asym, B|auto]|].
    destruct (better_dec mx (fst y) (fst x)) as [C | C]; [left; auto|]. destruct (le_lt_dec (snd y) (snd x)); [left; auto|right; split; [auto|right; lia]].
  - intros x y Px Py H. apply (proj1 (lexical_spec _ _ _ _ _ Px Py)) in H. destruct H as [H | [[H1 H2] H3]]; [split; [apply better_asym, H|auto]|split; [auto|right; lia]].
  - intros x y Px Py H. assert (N : ~ (better mx (fst y) (fst x) \/ same_value mx (fst x) (fst y) /\ snd y < snd x)).
    { intros K. apply (proj1 (lexical_spec _ _ _ _ _ Px Py)) in K. congruence. }
    split; [tauto|]. destruct (better_dec mx (fst x) (fst y)); [auto|]. right. destruct (le_lt_dec (snd x) (snd y)); [assumption|]. exfalso. apply N. unfold same_value. tauto.
  - intros x y Px Py H. apply (proj1 (lexical_spec _ _ _ _ _ Py Px)) in H. destruct H as [H | [[H1 H2] H3]]; [split; [apply better_asym, H|auto]|split; [auto|right; lia]].
  - intros x y Px Py H. assert (N : ~ (better mx (fst x) (fst y) \/ same_value mx (fst y) (fst x) /\ snd x < snd y)).
    { intros K. apply (proj1 (lexical_spec _ _ _ _ _ Py Px)) in K. congruence. }
    split; [tauto|]. destruct (better_dec mx (fst y) (fst x)); [auto|]. right. destruct (le_lt_dec (snd y) (snd x)); [assumption|]. exfalso. apply N. unfold same_value. tauto.
  - intros x y Px Py H. apply (proj2 (lexical_spec _ _ _ _ _ Px Py)) in H. destruct H as [[H1 H2] H3]. split; [auto|right; lia].
Qed.

Lemma koza_val mx penalty f n q : num_val f = Some (Fin q) ->
  exists k, num_val (koza_key mx penalty f n) = Some (Fin k) /\ (k == (if mx then q else - q) - penalty * inject_Z (Z.of_nat n))%Q.
Proof.
  intros H. unfold koza_key. destruct mx, f as [z|b [|r|]|]; cbn in H; try discriminate; injection H as <-; cbn; eexists; (split; [reflexivity|]); try ring.
  rewrite inject_Z_opp. ring.
Qed.
Lemma koza_spec mx penalty f g m n p q : num_val f = Some (Fin p) -> num_val g = Some (Fin q) ->
  num_ltb (koza_key mx penalty g n) (koza_key mx penalty f m) = true <->
  (penalty * (inject_Z (Z.of_nat m) - inject_Z (Z.of_nat n)) < if mx then p - q else q - p)%Q.
Proof.
  intros Hf Hg. destruct (koza_val mx penalty f m p Hf) as (k & Ek & Hk), (koza_val mx penalty g n q Hg) as (l & El & Hl).
  unfold num_ltb. rewrite Ek, El. cbn. rewrite Qltb_lt, Hk, Hl. destruct mx; split; intros; lra.
Qed.

(** ** sums *)
Lemma q_sum_Qsum l : (q_sum l == Qsum l)%Q.
Proof.
  unfold q_sum, Qsum. assert (H : forall l a, (fold_left Qplus l a == a + fold_right Qplus 0 l)%Q).
  { clear. induction l as [|x l IH]; intros a; cbn [fold_left fold_right]; [ring|]. rewrite IH. ring. }
  rewrite H. ring.
Qed.
Lemma Qsum_ext {A} (f g : A -> Q) l : (forall x, In x l -> (f x == g x)%Q) -> (Qsum (map f l) == Qsum (map g l))%Q.
Proof.
  induction l as [|x l IH]; intros H; unfold Qsum in *; cbn [map fold_right]; [reflexivity|]. rewrite (H x) by (left; reflexivity).
  rewrite IH by (intros y Hy; apply H; right; exact Hy). reflexivity.
Qed.
Lemma Qsum_plus {A} (f g : A -> Q) l : (Qsum (map (fun x => f x + g x) l) == Qsum (map f l) + Qsum (map g l))%Q.
Proof. induction l as [|x l IH]; unfold Qsum in *; cbn [map fold_right]; [ring|]. rewrite IH. ring. Qed.
Lemma Qsum_scale {A} c (f : A -> Q) l : (Qsum (map (fun x => c * f x) l) == c * Qsum (map f l))%Q.
Proof. induction l as [|x l IH]; unfold Qsum in *; cbn [map fold_right]; [ring|]. rewrite IH. ring. Qed.
Lemma Qsum_const {A} c (l : list A) : (Qsum (map (fun _ => c) l) == inject_Z (Z.of_nat (length l)) * c)%Q.
Proof.
  induction l as [|x l IH]; [unfold Qsum; cbn; ring|]. unfold Qsum in *. cbn [map fold_right length]. rewrite IH, Nat2Z.inj_succ. unfold Z.succ. rewrite inject_Z_plus. ring.
Qed.
Lemma Qsum_swap {A B} (f : A -> B -> Q) l m :
  (Qsum (map (fun a => Qsum (map (f a) m)) l) == Qsum (map (fun b => Qsum (map (fun a => f a b) l)) m))%Q.
Proof.
  induction l as [|x l IH].
  - cbn [map]. symmetry. rewrite (Qsum_ext _ (fun _ => 0%Q)) by (intros; reflexivity). rewrite Qsum_const. unfold Qsum. cbn. ring.
  - change (map (fun a => Qsum (map (f a) m)) (x :: l)) with (Qsum (map (f x) m) :: map (fun a => Qsum (map (f a) m)) l).
    change (Qsum (?h :: ?t)) with (h + Qsum t)%Q. rewrite IH. rewrite <- Qsum_plus. apply Qsum_ext. intros b _. reflexivity.
Qed.
Lemma Qsum_nonneg {A} (f : A -> Q) l : (forall x, In x l -> (0 <= f x)%Q) -> (0 <= Qsum (map f l))%Q.
Proof.
  induction l as [|x l IH]; intros H; unfold Qsum in *; cbn [map fold_right]; [lra|]. specialize (IH (fun y Hy => H y (or_intror Hy))). specialize (H x (or_introl eq_refl)). lra.
Qed.
Lemma Qsum_zero {A} (f : A -> Q) l : (forall x, In x l -> (0 <= f x)%Q) -> ((Qsum (map f l) == 0)%Q <-> forall x, In x l -> (f x == 0)%Q).
Proof.
  induction l as [|x l IH]; intros H; [split; [intros _ y []|reflexivity]|].
  assert (N := Qsum_nonneg f l (fun y Hy => H y (or_intror Hy))). specialize (IH (fun y Hy => H y (or_intror Hy))). assert (Hx := H x (or_introl eq_refl)).
  unfold Qsum in *. cbn [map fold_right]. split.
  - intros E. assert (Ex : (f x == 0)%Q) by lra. assert (Er : (fold_right Qplus 0 (map f l) == 0)%Q) by lra. intros y [<- | Hy]; [exact Ex|]. apply IH; assumption.
  - intros K. rewrite (proj2 IH) by (intros y Hy; apply K; right; exact Hy). rewrite (K x) by (left; reflexivity). ring.
Qed.

(** ** one column *)
Definition qn {A} (l : list A) : Q := inject_Z (Z.of_nat (length l)).
Lemma qn_pos {A} (l : list A) : l <> [] -> (0 < qn l)%Q.
Proof. intros H. unfold qn. change 0%Q with (inject_Z 0). rewrite <- Zlt_Qlt. destruct l; [congruence|cbn [length]; lia]. Qed.
Lemma mean_sum l : l <> [] -> (qn l * q_mean l == Qsum l)%Q.
Proof.
  intros H. assert (P := qn_pos l H). unfold q_mean. fold (qn l). rewrite q_sum_Qsum. field. lra.
Qed.
Lemma Qsum_id l : (Qsum (map (fun x => x) l) == Qsum l)%Q.
Proof. rewrite map_id. reflexivity. Qed.

(** sum of squares about the mean *)
Definition about_mean (xs : list Q) : Q := Qsum (map (fun x => sq (x - q_mean xs)) xs).
Lemma about_mean_spec xs : xs <> [] -> (qn xs * about_mean xs == qn xs * Qsum (map sq xs) - Qsum xs * Qsum xs)%Q.
Proof.
  intros H. assert (M := mean_sum xs H). unfold about_mean.
  rewrite (Qsum_ext _ (fun x => sq x + ((-2 * q_mean xs) * x + sq (q_mean xs)))%Q) by (intros; unfold sq; ring).
  rewrite Qsum_plus, Qsum_plus, Qsum_scale, Qsum_const, Qsum_id. fold (qn xs). rewrite <- M. unfold sq. ring.
Qed.
Lemma pairwise_column xs : (Qsum (map (fun x => Qsum (map (fun y => sq (x - y)) xs)) xs) == 2 * (qn xs * Qsum (map sq xs) - Qsum xs * Qsum xs))%Q.
Proof.
  rewrite (Qsum_ext _ (fun x => qn xs * sq x + ((-2 * Qsum xs) * x + Qsum (map sq xs)))%Q).
  - rewrite Qsum_plus, Qsum_plus, Qsum_scale, Qsum_scale, Qsum_const, Qsum_id. fold (qn xs). ring.
  - intros x _. rewrite (Qsum_ext _ (fun y => sq x + ((-2 * x) * y + sq y))%Q) by (intros; unfold sq; ring).
    rewrite Qsum_plus, Qsum_plus, Qsum_scale, Qsum_const, Qsum_id. unfold qn. ring.
Qed.
Lemma column_identity xs : xs <> [] -> (Qsum (map (fun x => Qsum (map (fun y => sq (x - y)) xs)) xs) == 2 * qn xs * about_mean xs)%Q.
Proof. intros H. rewrite pairwise_column, <- about_mean_spec by exact H. ring. Qed.
Lemma variance_spec xs : xs <> [] -> (qn xs * variance xs == about_mean xs)%Q.
Proof.
  intros H. unfold variance. set (sqs := map _ xs). assert (N : sqs <> []) by (unfold sqs; destruct xs; [congruence|discriminate]).
  assert (E : qn sqs = qn xs) by (unfold qn, sqs; rewrite map_length; reflexivity). rewrite <- E, mean_sum by exact N. reflexivity.
Qed.

(** ** the matrix *)
Lemma sqdist_cols L : forall a b, length a = L -> length b = L ->
  (sqdist a b == Qsum (map (fun j => sq (nth j a 0 - nth j b 0)) (seq 0 L)))%Q.
Proof.
  induction L as [|L IH]; intros [|x a] [|y b] Ha Hb; try discriminate; [reflexivity|].
  cbn [sqdist seq map]. unfold Qsum. cbn [fold_right nth]. rewrite <- seq_shift, map_map. cbn [nth].
  rewrite (IH a b) by (cbn in *; lia). reflexivity.
Qed.
Lemma sub_rows_cols c : forall g, length g = length c ->
  (Qsum (map (fun d => d * d) (sub_rows g c)) == Qsum (map (fun j => sq (nth j g 0 - nth j c 0)) (seq 0 (length c))))%Q.
Proof.
  induction c as [|y c IH]; intros [|x g] H; try discriminate; [reflexivity|].
  cbn [sub_rows length seq map]. unfold Qsum in *. cbn [fold_right nth]. rewrite <- seq_shift, map_map. cbn [nth].
  rewrite (IH g) by (cbn in *; lia). reflexivity.
Qed.
Lemma stack_ok n gs : gs <> [] -> rectangular n gs -> np_stack gs = Ok gs /\ width gs = n.
Proof.
  intros H R. destruct gs as [|g gs]; [congruence|]. inversion R as [|? ? Hg Hr]; subst. cbn. split; [|reflexivity].
  replace (forallb _ gs) with true; [reflexivity|]. symmetry. apply forallb_forall. intros h Hh. apply Nat.eqb_eq. unfold rectangular in Hr. rewrite Forall_forall in Hr. apply Hr, Hh.
Qed.
Lemma column_ne gs j : gs <> [] -> column gs j <> [].
Proof. destruct gs; [congruence|discriminate]. Qed.
Lemma column_qn gs j : qn (column gs j) = qn gs.
Proof. unfold qn, column. rewrite map_length. reflexivity. Qed.

Lemma pairwise_cols n gs : rectangular n gs ->
  (pairwise_sum gs == Qsum (map (fun j => Qsum (map (fun x => Qsum (map (fun y => sq (x - y)) (column gs j))) (column gs j))) (seq 0 n)))%Q.
Proof.
  intros R. unfold rectangular in R. rewrite Forall_forall in R. unfold pairwise_sum.
  transitivity (Qsum (map (fun a => Qsum (map (fun j => Qsum (map (fun b => sq (nth j a 0%Q - nth j b 0%Q)%Q) gs)) (seq 0 n))) gs)).
  - apply Qsum_ext. intros a Ha. rewrite <- Qsum_swap. apply Qsum_ext. intros b Hb. apply sqdist_cols; apply R; assumption.
  - rewrite Qsum_swap. apply Qsum_ext. intros j _. unfold column. rewrite map_map. apply Qsum_ext. intros a _. rewrite map_map. reflexivity.
Qed.

Lemma metric_spec n gs : gs <> [] -> rectangular n gs ->
  exists v, pairwise_squared_distance gs = Ok v /\ (v == pairwise_sum gs)%Q.
Proof.
  intros Hg R. destruct (stack_ok n gs Hg R) as [Es Ew]. unfold pairwise_squared_distance. rewrite Es. cbn [bind].
  eexists. split; [reflexivity|]. rewrite (pairwise_cols n gs R), q_sum_Qsum.
  assert (Ec : length (centroid gs) = n) by (unfold centroid; rewrite map_length, seq_length; exact Ew).
  rewrite (Qsum_ext _ (fun g => Qsum (map (fun j => sq (nth j g 0%Q - q_mean (column gs j))%Q) (seq 0 n)))).
  - rewrite Qsum_swap. rewrite (Qsum_ext (fun j => Qsum (map (fun x => Qsum (map (fun y => sq (x - y)) (column gs j))) (column gs j))) (fun j => (2 * qn gs) * about_mean (column gs j))%Q).
    + rewrite Qsum_scale. replace (inject_Z (2 * Z.of_nat (length gs))) with (2 * qn gs)%Q by (unfold qn; rewrite inject_Z_mult; reflexivity).
      rewrite (Qsum_ext _ (fun j => about_mean (column gs j))); [reflexivity|]. intros j _. unfold about_mean. set (m := q_mean (column gs j)). unfold column. rewrite map_map. reflexivity.
    + intros j _. rewrite column_identity by (apply column_ne, Hg). rewrite column_qn. reflexivity.
  - intros g Hin. rewrite q_sum_Qsum. unfold rectangular in R. rewrite Forall_forall in R. rewrite sub_rows_cols by (rewrite Ec; apply R, Hin). rewrite Ec.
    apply Qsum_ext. intros j Hj. apply in_seq in Hj. unfold centroid. rewrite Ew.
    assert (En : nth j (map (fun j => q_mean (column gs j)) (seq 0 n)) 0%Q = q_mean (column gs j)).
    { rewrite nth_indep with (d' := q_mean (column gs 0)) by (rewrite map_length, seq_length; lia).
      rewrite (map_nth (fun j => q_mean (column gs j)) (seq 0 n) 0 j). rewrite seq_nth by lia. reflexivity. }
    rewrite En. reflexivity.
Qed.

Lemma sq_nonneg x : (0 <= sq x)%Q.
Proof. unfold sq. nra. Qed.
Lemma sqdist_nonneg a : forall b, (0 <= sqdist a b)%Q.
Proof. induction a as [|x a IH]; intros [|y b]; cbn; try lra. specialize (IH b). pose proof (sq_nonneg (x - y)). lra. Qed.
Lemma sq_zero x : (sq x == 0)%Q <-> (x == 0)%Q.
Proof. unfold sq. split; [intros H; apply Qmult_integral in H; tauto|intros ->; ring]. Qed.
Lemma sqdist_zero a : forall b, length a = length b -> ((sqdist a b == 0)%Q <-> same_genome a b).
Proof.
  induction a as [|x a IH]; intros [|y b] H; try discriminate; cbn [sqdist].
  - split; [constructor|reflexivity].
  - assert (A := sq_nonneg (x - y)). assert (B := sqdist_nonneg a b). assert (C := sq_zero (x - y)). specialize (IH b ltac:(cbn in H; lia)). split.
    + intros E. constructor; [assert (x - y == 0)%Q by (apply C; lra); lra|]. apply IH. lra.
    + intros F. inversion F as [|? ? ? ? E F']; subst. apply IH in F'. rewrite F'. rewrite (proj2 C) by lra. ring.
Qed.
Lemma pairwise_zero n gs : rectangular n gs -> ((pairwise_sum gs == 0)%Q <-> forall a b, In a gs -> In b gs -> same_genome a b).
Proof.
  intros R. unfold rectangular in R. rewrite Forall_forall in R. unfold pairwise_sum. rewrite Qsum_zero by (intros; apply Qsum_nonneg; intros; apply sqdist_nonneg). split.
  - intros H a b Ha Hb. specialize (H a Ha). rewrite Qsum_zero in H by (intros; apply sqdist_nonneg). apply sqdist_zero; [rewrite !R by assumption; reflexivity|apply H, Hb].
  - intros H a Ha. rewrite Qsum_zero by (intros; apply sqdist_nonneg). intros b Hb. apply sqdist_zero; [rewrite !R by assumption; reflexivity|auto].
Qed.
Lemma metric_zero n gs v : gs <> [] -> rectangular n gs -> pairwise_squared_distance gs = Ok v ->
  ((v == 0)%Q <-> forall a b, In a gs -> In b gs -> same_genome a b).
Proof.
  intros Hg R E. destruct (metric_spec n gs Hg R) as (v' & E' & Hv). rewrite E in E'. injection E' as <-. rewrite Hv. apply (pairwise_zero n), R.
Qed.

Lemma variances_spec n gs : gs <> [] -> rectangular n gs ->
  exists v, sum_of_variances gs = Ok v /\ (v == pairwise_sum gs / (2 * (qn gs * qn gs)))%Q.
Proof.
  intros Hg R. destruct (stack_ok n gs Hg R) as [Es Ew]. unfold sum_of_variances. rewrite Es. cbn [bind]. rewrite Ew. eexists. split; [reflexivity|].
  rewrite (pairwise_cols n gs R), q_sum_Qsum. assert (P := qn_pos gs Hg).
  rewrite (Qsum_ext (fun j => Qsum (map _ (column gs j))) (fun j => (2 * (qn gs * qn gs)) * variance (column gs j))%Q).
  - rewrite Qsum_scale. field. lra.
  - intros j _. rewrite column_identity by (apply column_ne, Hg). rewrite <- variance_spec by (apply column_ne, Hg). rewrite column_qn. ring.
Qed.

(** ** fixated columns *)
Lemma column_in gs j x : In x (column gs j) <-> exists g, In g gs /\ x = nth j g 0%Q.
Proof. unfold column. rewrite in_map_iff. split; intros (g & A & B); exists g; auto. Qed.
Lemma variance_nonneg xs : xs <> [] -> (0 <= variance xs)%Q.
Proof.
  intros H. assert (P := qn_pos xs H). assert (E := variance_spec xs H). assert (N : (0 <= about_mean xs)%Q) by (apply Qsum_nonneg; intros; apply sq_nonneg).
  rewrite <- E in N. destruct (Qlt_le_dec (variance xs) 0) as [L | L]; [|exact L]. exfalso. nra.
Qed.
Lemma variance_zero xs : xs <> [] -> ((variance xs == 0)%Q <-> forall x y, In x xs -> In y xs -> (x == y)%Q).
Proof.
  intros H. assert (P := qn_pos xs H). assert (E := variance_spec xs H). assert (I := column_identity xs H). rewrite <- E in I.
  assert (Z : (variance xs == 0)%Q <-> (Qsum (map (fun x => Qsum (map (fun y => sq (x - y)%Q) xs)) xs) == 0)%Q).
  { rewrite I. split; [intros ->; ring|]. intros K. apply Qmult_integral in K. destruct K as [K | K]; [exfalso; nra|]. apply Qmult_integral in K. destruct K as [K | K]; [lra|exact K]. }
  rewrite Z, Qsum_zero by (intros; apply Qsum_nonneg; intros; apply sq_nonneg). split.
  - intros K x y Hx Hy. specialize (K x Hx). rewrite Qsum_zero in K by (intros; apply sq_nonneg). specialize (K y Hy). rewrite sq_zero in K. lra.
  - intros K x Hx. rewrite Qsum_zero by (intros; apply sq_nonneg). intros y Hy. apply sq_zero. rewrite (K x y Hx Hy). ring.
Qed.
Lemma constant_variance gs j : gs <> [] -> (constant_column gs j <-> (variance (column gs j) == 0)%Q).
Proof.
  intros H. rewrite variance_zero by (apply column_ne, H). unfold constant_column. split.
  - intros K x y Hx Hy. apply column_in in Hx, Hy. destruct Hx as (a & Ha & ->), Hy as (b & Hb & ->). auto.
  - intros K a b Ha Hb. apply K; apply column_in; eauto.
Qed.

(** integers that are not all equal vary by at least (n-1)/n^2 *)
Lemma integer_sq z : z <> 0%Z -> (1 <= sq (inject_Z z))%Q.
Proof. intros H. unfold sq. rewrite <- inject_Z_mult. change 1%Q with (inject_Z 1). rewrite <- Zle_Qle. nia. Qed.
Lemma Qsum_le {A} (f g : A -> Q) l : (forall x, In x l -> (f x <= g x)%Q) -> (Qsum (map f l) <= Qsum (map g l))%Q.
Proof.
  induction l as [|x l IH]; intros H; unfold Qsum in *; cbn [map fold_right]; [lra|]. specialize (IH (fun y Hy => H y (or_intror Hy))). specialize (H x (or_introl eq_refl)). lra.
Qed.
Lemma Qsum_one {A} (f : A -> Q) l x : (forall z, In z l -> (0 <= f z)%Q) -> In x l -> (f x <= Qsum (map f l))%Q.
Proof.
  induction l as [|u l IH]; intros Hn Hw; [destruct Hw|]. unfold Qsum in *. cbn [map fold_right]. assert (Hu := Hn u (or_introl eq_refl)).
  assert (N : (0 <= fold_right Qplus 0 (map f l))%Q) by (apply (Qsum_nonneg f l); intros; apply Hn; right; assumption).
  destruct Hw as [<- | Hw]; [lra|]. specialize (IH (fun v Hv => Hn v (or_intror Hv)) Hw). lra.
Qed.
Lemma integer_variance xs : xs <> [] -> (forall x, In x xs -> exists z, (x == inject_Z z)%Q) -> ~ (variance xs == 0)%Q ->
  (1 <= 2 * qn xs * variance xs)%Q.
Proof.
  intros H Hi Hv. assert (P := qn_pos xs H). assert (E := variance_spec xs H). assert (I := column_identity xs H). rewrite <- E in I.
  assert (D : exists x y, In x xs /\ In y xs /\ ~ (x == y)%Q).
  { assert (K : (forall x y, In x xs -> In y xs -> (x == y)%Q) \/ exists x y, In x xs /\ In y xs /\ ~ (x == y)%Q).
    { destruct xs as [|x0 xs]; [congruence|]. assert (C : (forall y, In y xs -> (x0 == y)%Q) \/ exists y, In y xs /\ ~ (x0 == y)%Q).
      { clear. induction xs as [|y xs IH]; [left; intros y []|]. destruct (Qeq_dec x0 y) as [Q1 | Q1]; [|right; exists y; split; [left; reflexivity|exact Q1]].
        destruct IH as [IH | (w & Hw & Hq)]; [left; intros w [<- | Hw]; auto|right; exists w; split; [right; exact Hw|exact Hq]]. }
      destruct C as [C | (y & Hy & Hq)]; [left|right; exists x0, y; split; [left; reflexivity|split; [right; exact Hy|exact Hq]]].
      intros a b [<- | Ha] [<- | Hb]; [reflexivity|auto|symmetry; auto|rewrite <- (C a Ha); auto]. }
    destruct K as [K | K]; [|exact K]. exfalso. apply Hv. apply (variance_zero xs H). exact K. }
  destruct D as (x & y & Hx & Hy & Hne).
  assert (R : forall z, In z xs -> (1 <= Qsum (map (fun w => sq (z - w)%Q) xs))%Q).
  { intros z Hz. assert (Hd : exists w, In w xs /\ ~ (z == w)%Q).
    { destruct (Qeq_dec z x) as [Q1 | Q1]; [exists y; split; [exact Hy|]; intros Q2; apply Hne; rewrite <- Q1; exact Q2|exists x; auto]. }
    destruct Hd as (w & Hw & Hq). eapply Qle_trans; [|apply (Qsum_one (fun w => sq (z - w)%Q) xs w); [intros; apply sq_nonneg|exact Hw]].
    destruct (Hi z Hz) as (a & Ea), (Hi w Hw) as (b & Eb).
    assert (Es : (sq (z - w) == sq (inject_Z (a - b)))%Q) by (unfold sq; rewrite Ea, Eb; unfold Z.sub; rewrite inject_Z_plus, inject_Z_opp; ring).
    cbv beta. rewrite Es. apply integer_sq. intros K. apply Hq. rewrite Ea, Eb. assert (a = b) by lia. subst. reflexivity. }
  assert (S := Qsum_le (fun _ => 1%Q) (fun z => Qsum (map (fun w => sq (z - w)%Q) xs)) xs R).
  rewrite Qsum_const in S. fold (qn xs) in S. rewrite I in S. nra.
Qed.

Lemma fixated_lower n gs : gs <> [] -> rectangular n gs ->
  exists counted, NoDup counted /\ num_fixated gs = Ok (length counted) /\ (forall j, In j counted -> j < n) /\
    (forall j, j < n -> constant_column gs j -> In j counted) /\
    (integral gs -> (Z.of_nat (length gs) < 50000000)%Z -> forall j, In j counted -> constant_column gs j).
Proof.
  intros Hg R. destruct (stack_ok n gs Hg R) as [Es Ew]. unfold num_fixated. rewrite Es. cbn [bind]. rewrite Ew. eexists. split; [|split; [reflexivity|split; [|split]]].
  - apply NoDup_filter, seq_NoDup.
  - intros j Hj. apply filter_In in Hj. destruct Hj as [Hj _]. apply in_seq in Hj. lia.
  - intros j Hj Hc. apply filter_In. split; [apply in_seq; lia|]. apply Qle_bool_iff. apply constant_variance in Hc; [|exact Hg]. rewrite Hc. discriminate.
  - intros Hi Hn j Hj. apply filter_In in Hj. destruct Hj as [Hj Hq]. apply in_seq in Hj. apply Qle_bool_iff in Hq.
    assert (V := variance_nonneg (column gs j) (column_ne gs j Hg)). rewrite Qabs_pos in Hq by exact V.
    apply constant_variance; [exact Hg|]. destruct (Qeq_dec (variance (column gs j)) 0) as [E | E]; [exact E|]. exfalso.
    assert (K := integer_variance (column gs j) (column_ne gs j Hg)). rewrite column_qn in K.
    assert (K' : (1 <= 2 * qn gs * variance (column gs j))%Q).
    { apply K; [|exact E]. intros x Hx. apply column_in in Hx. destruct Hx as (g & Hin & ->). unfold integral in Hi. rewrite Forall_forall in Hi.
      specialize (Hi g Hin). rewrite Forall_forall in Hi. apply Hi, nth_In. unfold rectangular in R. rewrite Forall_forall in R. rewrite (R g Hin). lia. }
    assert (Hq2 : (qn gs < 50000000)%Q) by (unfold qn; change 50000000%Q with (inject_Z 50000000); rewrite <- Zlt_Qlt; exact Hn).
    assert (P := qn_pos gs Hg).
    assert (B : (2 * qn gs * variance (column gs j) <= 2 * qn gs * (1 # 100000000))%Q) by nra. lra.
Qed.
Lemma num_fixated_integers n gs : gs <> [] -> rectangular n gs -> integral gs -> (Z.of_nat (length gs) < 50000000)%Z ->
  exists fixed, NoDup fixed /\ (forall j, In j fixed <-> j < n /\ constant_column gs j) /\ num_fixated gs = Ok (length fixed).
Proof.
  intros Hg R Hi Hn. destruct (fixated_lower n gs Hg R) as (c & A & B & C & D & E). exists c. split; [exact A|]. split; [|exact B].
  intros j. split; [intros Hj; split; [apply C, Hj|apply E; assumption]|intros [H1 H2]; apply D; assumption].
Qed.
