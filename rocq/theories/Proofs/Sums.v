(** Finite sums of rationals indexed by 0..n-1, vectors and square matrices. *)
From Coq Require Import Lia Lqa Qabs.
From Verif Require Import Model.Base Model.Metrics Model.RealProblems Spec.Problems Spec.RealProblems Proofs.Metrics.

Lemma sumn_ext n f g : (forall i, i < n -> (f i == g i)%Q) -> (sumn n f == sumn n g)%Q.
Proof. intros H. apply Qsum_ext. intros x Hx. apply in_seq in Hx. apply H. lia. Qed.
Lemma sumn_plus n f g : (sumn n (fun i => f i + g i) == sumn n f + sumn n g)%Q.
Proof. apply Qsum_plus. Qed.
Lemma sumn_scale n c f : (sumn n (fun i => c * f i) == c * sumn n f)%Q.
Proof. apply Qsum_scale. Qed.
Lemma sumn_scale_r n c f : (sumn n (fun i => f i * c) == sumn n f * c)%Q.
Proof. rewrite <- (Qmult_comm c). rewrite <- sumn_scale. apply sumn_ext. intros. ring. Qed.
Lemma sumn_swap n m f : (sumn n (fun i => sumn m (f i)) == sumn m (fun j => sumn n (fun i => f i j)))%Q.
Proof. apply Qsum_swap. Qed.
Lemma sumn_const n c : (sumn n (fun _ => c) == inject_Z (Z.of_nat n) * c)%Q.
Proof. unfold sumn. rewrite Qsum_const, seq_length. reflexivity. Qed.
Lemma sumn_nonneg n f : (forall i, i < n -> (0 <= f i)%Q) -> (0 <= sumn n f)%Q.
Proof. intros H. apply Qsum_nonneg. intros x Hx. apply in_seq in Hx. apply H. lia. Qed.
Lemma sumn_zero n f : (forall i, i < n -> (0 <= f i)%Q) -> ((sumn n f == 0)%Q <-> forall i, i < n -> (f i == 0)%Q).
Proof.
  intros H. unfold sumn. rewrite Qsum_zero.
  - split; intros K i Hi; apply K; [apply in_seq; lia|apply in_seq in Hi; lia].
  - intros x Hx. apply in_seq in Hx. apply H. lia.
Qed.
Lemma sumn_le n f g : (forall i, i < n -> (f i <= g i)%Q) -> (sumn n f <= sumn n g)%Q.
Proof. intros H. apply Qsum_le. intros x Hx. apply in_seq in Hx. apply H. lia. Qed.
Lemma sumn_S n f : (sumn (S n) f == f 0%nat + sumn n (fun i => f (S i)))%Q.
Proof. unfold sumn. cbn [seq map]. rewrite <- seq_shift, map_map. reflexivity. Qed.
Lemma sumn_delta n k f : k < n -> (sumn n (fun i => if i =? k then f i else 0) == f k)%Q.
Proof.
  revert k f. induction n as [|n IH]; intros k f H; [lia|]. rewrite sumn_S. destruct k as [|k]; cbn [Nat.eqb].
  - assert (E : (sumn n (fun _ => 0) == 0)%Q) by (rewrite sumn_const; ring).
    rewrite E. ring.
  - rewrite (IH k (fun i => f (S i))) by lia. ring.
Qed.
Lemma sumn_delta_r n k f : k < n -> (sumn n (fun i => if k =? i then f i else 0) == f k)%Q.
Proof. intros H. rewrite <- (sumn_delta n k f H). apply sumn_ext. intros i _. rewrite Nat.eqb_sym. reflexivity. Qed.

(** ** the model's sums *)
Lemma np_sum_Qsum l : (np_sum l == Qsum l)%Q.
Proof. exact (q_sum_Qsum l). Qed.

Lemma map_nth_seq (l : list Q) : l = map (fun i => nth i l 0%Q) (seq 0 (length l)).
Proof.
  induction l as [|x l IH]; [reflexivity|]. cbn [length seq map nth]. f_equal. rewrite <- seq_shift, map_map. exact IH.
Qed.
Lemma Qsum_sumn (f : Q -> Q) l : (Qsum (map f l) == sumn (length l) (fun i => f (at_ l i)))%Q.
Proof. unfold sumn, at_. rewrite (map_nth_seq l) at 1. rewrite map_map. reflexivity. Qed.
Lemma sq_length_sumn v : (sq_length v == sumn (length v) (fun i => at_ v i * at_ v i))%Q.
Proof. exact (Qsum_sumn (fun x => x * x)%Q v). Qed.

Lemma map2_length f a b : length a = length b -> length (map2 f a b) = length b.
Proof. intros H. unfold map2. rewrite map_length, combine_length. lia. Qed.
Lemma map2_nth f a b i : length a = length b -> i < length b -> nth i (map2 f a b) 0%Q = f (at_ a i) (at_ b i).
Proof.
  unfold map2, at_. revert b i. induction a as [|x a IH]; intros [|y b] i H Hi; cbn in H, Hi; try lia.
  destruct i as [|i]; [reflexivity|]. cbn [combine map nth]. apply IH; lia.
Qed.
Lemma map2_sum f a b : length a = length b -> (np_sum (map2 f a b) == sumn (length b) (fun i => f (at_ a i) (at_ b i)))%Q.
Proof.
  intros H. rewrite np_sum_Qsum. unfold map2. revert b H. induction a as [|x a IH]; intros [|y b] H; cbn in H; try lia; [reflexivity|].
  cbn [combine map length]. rewrite sumn_S. cbn [fst snd]. unfold Qsum in *. cbn [fold_right]. rewrite IH by lia. reflexivity.
Qed.
Lemma dot_sumn a b : length a = length b -> (dot a b == sumn (length b) (fun i => at_ a i * at_ b i))%Q.
Proof. apply map2_sum. Qed.

Lemma nth_map_seq {A} (f : nat -> A) n i d : i < n -> nth i (map f (seq 0 n)) d = f i.
Proof.
  intros H. rewrite (nth_indep _ d (f 0)) by (rewrite map_length, seq_length; exact H).
  rewrite map_nth. rewrite seq_nth by exact H. reflexivity.
Qed.
Lemma nth_map' {A B} (f : A -> B) l i d d' : i < length l -> nth i (map f l) d' = f (nth i l d).
Proof. intros H. rewrite (nth_indep _ d' (f d)) by (rewrite map_length; exact H). apply map_nth. Qed.

(** ** square matrices *)
Lemma square_row n m i : is_square n m -> i < n -> length (nth i m []) = n.
Proof. intros [H1 H2] Hi. rewrite Forall_forall in H2. apply H2, nth_In. lia. Qed.
Lemma square_spec m : square m = true <-> is_square (length m) m.
Proof.
  unfold square, is_square. rewrite forallb_forall, Forall_forall.
  split; [intros H; split; [reflexivity|intros r Hr; apply Nat.eqb_eq, H, Hr]|intros [_ H] r Hr; apply Nat.eqb_eq, H, Hr].
Qed.

Lemma mat_vec_length m v : length (mat_vec m v) = length m.
Proof. apply map_length. Qed.
Lemma mat_vec_at n m v i : is_square n m -> length v = n -> i < n -> (at_ (mat_vec m v) i == image n m v i)%Q.
Proof.
  intros Hm Hv Hi. unfold at_ at 1, mat_vec. rewrite (nth_map' _ _ _ []) by (destruct Hm; lia).
  rewrite dot_sumn by (rewrite (square_row n) by assumption; congruence). rewrite Hv. reflexivity.
Qed.

Lemma column_length m j : length (column m j) = length m.
Proof. apply map_length. Qed.
Lemma column_at m j i : i < length m -> at_ (column m j) i = entry m i j.
Proof. intros H. unfold at_, column, entry. rewrite (nth_map' _ _ _ []) by exact H. reflexivity. Qed.
Lemma entry_transpose n m i j : is_square n m -> i < n -> j < n -> entry (transpose m) i j = entry m j i.
Proof.
  intros Hm Hi Hj. destruct Hm as [H1 H2]. unfold entry at 1, transpose. rewrite nth_map_seq by lia. apply column_at. lia.
Qed.
Lemma transpose_square n m : is_square n m -> is_square n (transpose m).
Proof.
  intros [H1 H2]. split; unfold transpose; [rewrite map_length, seq_length; exact H1|].
  apply Forall_forall. intros r Hr. apply in_map_iff in Hr. destruct Hr as (j & <- & _). rewrite column_length. exact H1.
Qed.
Lemma mat_mul_square n a b : is_square n a -> is_square n b -> is_square n (mat_mul a b).
Proof.
  intros [Ha _] [Hb _]. split; unfold mat_mul; [rewrite map_length; exact Ha|].
  apply Forall_forall. intros r Hr. apply in_map_iff in Hr. destruct Hr as (j & <- & _). rewrite map_length, seq_length. exact Hb.
Qed.
Lemma entry_mat_mul n a b i j : is_square n a -> is_square n b -> i < n -> j < n ->
  (entry (mat_mul a b) i j == sumn n (fun k => entry a i k * entry b k j))%Q.
Proof.
  intros Ha Hb Hi Hj. unfold entry at 1, at_ at 1, mat_mul. rewrite (nth_map' _ _ _ []) by (destruct Ha; lia).
  rewrite nth_map_seq by (destruct Hb; lia).
  rewrite dot_sumn by (rewrite column_length, (square_row n) by assumption; destruct Hb; congruence).
  rewrite column_length. replace (length b) with n by (destruct Hb; congruence).
  apply sumn_ext. intros k Hk. rewrite column_at by (destruct Hb; lia). reflexivity.
Qed.
Lemma vec_mat_at n v m j : is_square n m -> length v = n -> j < n -> (at_ (vec_mat v m) j == sumn n (fun i => at_ v i * entry m i j))%Q.
Proof.
  intros [Hm _] Hv Hj. unfold at_ at 1, vec_mat. rewrite nth_map_seq by lia.
  rewrite dot_sumn by (rewrite column_length; lia). rewrite column_length, Hm.
  apply sumn_ext. intros i Hi. rewrite column_at by lia. reflexivity.
Qed.

(** ** a square matrix with orthonormal rows has orthonormal columns *)
Section Ortho.
Variable n : nat.
Variable A : nat -> nat -> Q.
Hypothesis rows : forall i k, i < n -> k < n -> (sumn n (fun j => A i j * A k j) == if i =? k then 1 else 0)%Q.
Let P a b := sumn n (fun i => A i a * A i b)%Q.

Lemma P_sym a b : (P a b == P b a)%Q.
Proof. apply sumn_ext. intros. ring. Qed.

(** P is idempotent *)
Lemma P_idem a c : (sumn n (fun b => P a b * P b c) == P a c)%Q.
Proof.
  transitivity (sumn n (fun b => sumn n (fun i => sumn n (fun k => (A i a * A k c) * (A i b * A k b)))))%Q.
  { apply sumn_ext. intros b _. unfold P. rewrite <- sumn_scale_r. apply sumn_ext. intros i _.
    rewrite <- sumn_scale. apply sumn_ext. intros k _. ring. }
  rewrite sumn_swap. unfold P at 1. apply sumn_ext. intros i Hi.
  rewrite sumn_swap. transitivity (sumn n (fun k => if i =? k then A i a * A k c else 0))%Q.
  - apply sumn_ext. intros k Hk. rewrite sumn_scale, rows by assumption. destruct (i =? k); ring.
  - apply (sumn_delta_r n i (fun k => A i a * A k c)%Q Hi).
Qed.

Lemma P_trace : (sumn n (fun a => P a a) == inject_Z (Z.of_nat n))%Q.
Proof.
  unfold P. rewrite sumn_swap. transitivity (sumn n (fun _ => 1))%Q; [|rewrite sumn_const; ring].
  apply sumn_ext. intros i Hi. rewrite rows by assumption. rewrite Nat.eqb_refl. reflexivity.
Qed.

Let E a b := ((if a =? b then 1 else 0) - P a b)%Q.
Lemma E_norm : (sumn n (fun a => sumn n (fun b => E a b * E a b)) == 0)%Q.
Proof.
  transitivity (sumn n (fun a => 1 + (- (1)) * P a a))%Q.
  - apply sumn_ext. intros a Ha.
    transitivity (sumn n (fun b => (if a =? b then 1 + (-(2)) * P a b else 0) + P a b * P b a))%Q.
    + apply sumn_ext. intros b _. unfold E. rewrite (P_sym b a). destruct (a =? b); ring.
    + rewrite sumn_plus, P_idem, (sumn_delta_r n a (fun b => 1 + (-(2)) * P a b)%Q Ha). ring.
  - rewrite sumn_plus, sumn_scale, P_trace, sumn_const. ring.
Qed.

Lemma columns_orthonormal a b : a < n -> b < n -> (P a b == if a =? b then 1 else 0)%Q.
Proof.
  intros Ha Hb. assert (N : forall a b, (0 <= E a b * E a b)%Q) by (intros; nra).
  pose proof E_norm as H. rewrite sumn_zero in H by (intros; apply sumn_nonneg; auto).
  specialize (H a Ha). rewrite sumn_zero in H by auto. specialize (H b Hb). unfold E in H.
  assert (K : ((if a =? b then 1 else 0) - P a b == 0)%Q) by nra. lra.
Qed.

Lemma length_preserved (x : nat -> Q) :
  (sumn n (fun i => sumn n (fun j => A i j * x j) * sumn n (fun j => A i j * x j)) == sumn n (fun j => x j * x j))%Q.
Proof.
  transitivity (sumn n (fun i => sumn n (fun j => sumn n (fun k => (x j * x k) * (A i j * A i k)))))%Q.
  { apply sumn_ext. intros i _. rewrite <- sumn_scale_r. apply sumn_ext. intros j _. rewrite <- sumn_scale. apply sumn_ext. intros k _. ring. }
  rewrite sumn_swap. apply sumn_ext. intros j Hj. rewrite sumn_swap.
  transitivity (sumn n (fun k => if j =? k then x j * x k else 0))%Q.
  - apply sumn_ext. intros k Hk. rewrite sumn_scale. fold (P j k). rewrite columns_orthonormal by assumption. destruct (j =? k); ring.
  - apply (sumn_delta_r n j (fun k => x j * x k)%Q Hj).
Qed.
End Ortho.
