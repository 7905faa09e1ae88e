From Coq Require Import Lia Lqa Permutation Qfield.
From Verif Require Import Model.Base Model.Variation Spec.Variation Spec.Odds Spec.Linkage Proofs.Variation Proofs.Odds.
Local Open Scope nat_scope.
Local Open Scope list_scope.

(** ** listing the draws *)
Fixpoint arr (u : list nat) (n : nat) : list (list nat) :=
  match n with 0 => [[]] | S n' => flat_map (fun x => map (cons x) (arr (remove Nat.eq_dec x u) n')) u end.

Lemma arr_in : forall n u d, In d (arr u n) <-> length d = n /\ NoDup d /\ Forall (fun i => In i u) d.
Proof.
  induction n as [|n IH]; intros u d; cbn [arr].
  - split; [intros [<-|[]]; repeat split; constructor|]. intros [H _]. destruct d; [left; reflexivity|discriminate].
  - rewrite in_flat_map. split.
    + intros (x & Hx & H). apply in_map_iff in H as (d' & <- & H). apply IH in H as (L & N & F).
      split; [cbn; lia|]. split.
      * constructor; [|exact N]. intros C. rewrite Forall_forall in F. specialize (F x C). apply remove_In in F. exact F.
      * constructor; [exact Hx|]. eapply Forall_impl; [|exact F]. intros i Hi. apply in_remove in Hi. tauto.
    + intros (L & N & F). destruct d as [|x d]; [discriminate|]. exists x. split; [exact (Forall_inv F)|].
      apply in_map, IH. cbn in L. split; [lia|]. inversion N as [|? ? Nx N']; subst. split; [exact N'|].
      apply Forall_forall. intros i Hi. apply in_in_remove; [intros ->; contradiction|].
      exact (proj1 (Forall_forall _ _) (Forall_inv_tail F) i Hi).
Qed.

Lemma conses_nodup (f : nat -> list (list nat)) u : NoDup u -> (forall x, NoDup (f x)) -> NoDup (flat_map (fun x => map (cons x) (f x)) u).
Proof.
  intros Nu P. induction Nu as [|x u Hx Nu IHu]; cbn; [constructor|]. apply NoDup_app_intro; [|exact IHu|].
  - apply FinFun.Injective_map_NoDup; [|apply P]. intros a b E. congruence.
  - intros d H1 H2. apply in_map_iff in H1 as (d1 & <- & _). apply in_flat_map in H2 as (y & Hy & H2).
    apply in_map_iff in H2 as (d2 & E & _). injection E as -> _. contradiction.
Qed.

Lemma arr_nodup : forall n u, NoDup u -> NoDup (arr u n).
Proof.
  induction n as [|n IH]; intros u Nu; cbn [arr]; [repeat constructor; intros []|].
  assert (R : forall x (l : list nat), NoDup l -> NoDup (remove Nat.eq_dec x l)).
  { intros x l Nl. induction Nl as [|y l Hy Nl IHl]; [constructor|]. cbn. destruct (Nat.eq_dec x y); [exact IHl|].
    constructor; [|exact IHl]. intros C. apply in_remove in C. tauto. }
  assert (P : forall x, NoDup (arr (remove Nat.eq_dec x u) n)) by (intros; apply IH, R, Nu).
  apply (conses_nodup (fun x => arr (remove Nat.eq_dec x u) n) u Nu P).
Qed.

Lemma distinct_perm n k l : all_distinct_draws n k l -> Permutation l (arr (seq 0 n) k).
Proof.
  intros [H1 H2]. apply NoDup_Permutation; [exact H1|apply arr_nodup, seq_NoDup|]. intros d. rewrite H2, arr_in.
  assert (E : Forall (fun i => i < n) d <-> Forall (fun i => In i (seq 0 n)) d).
  { split; apply Forall_impl; intros i; rewrite in_seq; lia. }
  rewrite E. reflexivity.
Qed.

Lemma distinct_exist n k : exists l, all_distinct_draws n k l.
Proof.
  exists (arr (seq 0 n) k). split; [apply arr_nodup, seq_NoDup|]. intros d. rewrite arr_in.
  assert (E : Forall (fun i => i < n) d <-> Forall (fun i => In i (seq 0 n)) d).
  { split; apply Forall_impl; intros i; rewrite in_seq; lia. }
  rewrite E. reflexivity.
Qed.

(** ** counting them *)
Definition cnt (p : nat -> bool) (d : list nat) : nat := length (filter p d).

Lemma filter_remove p x : forall u, filter p (remove Nat.eq_dec x u) = remove Nat.eq_dec x (filter p u).
Proof.
  induction u as [|y u IH]; [reflexivity|]. cbn [remove filter]. destruct (Nat.eq_dec x y) as [<-|N].
  - rewrite IH. destruct (p x); [cbn [remove]; destruct (Nat.eq_dec x x); [reflexivity|contradiction]|reflexivity].
  - cbn [filter]. destruct (p y); [cbn [remove]; destruct (Nat.eq_dec x y); [contradiction|rewrite IH; reflexivity]|exact IH].
Qed.

Lemma remove_one x : forall u, NoDup u -> In x u -> length (remove Nat.eq_dec x u) = length u - 1.
Proof.
  intros u N. induction N as [|y u Hy N IH]; intros I; [destruct I|]. cbn [remove length].
  destruct (Nat.eq_dec x y) as [<-|D]; [rewrite notin_remove by exact Hy; lia|].
  destruct I as [->|I]; [contradiction|]. cbn [length]. rewrite (IH I). destruct u; [destruct I|cbn; lia].
Qed.

Lemma cnt_remove p x u : NoDup u -> In x u ->
  cnt p (remove Nat.eq_dec x u) = if p x then cnt p u - 1 else cnt p u.
Proof.
  intros N I. unfold cnt. rewrite filter_remove. destruct (p x) eqn:E.
  - apply remove_one; [apply NoDup_filter, N|apply filter_In; auto].
  - rewrite notin_remove; [reflexivity|]. intros C. apply filter_In in C. destruct C. congruence.
Qed.

Lemma sum_split (p : nat -> bool) (g : nat -> nat) A B : forall u,
  (forall x, In x u -> g x = if p x then A else B) ->
  list_sum (map g u) = cnt p u * A + cnt (fun x => negb (p x)) u * B.
Proof.
  unfold cnt. induction u as [|x u IH]; intros H; [reflexivity|]. cbn [map filter].
  change (list_sum (g x :: map g u)) with (g x + list_sum (map g u)).
  rewrite (H x (or_introl eq_refl)), IH by (intros y Hy; apply H; right; exact Hy). destruct (p x); cbn [negb length]; lia.
Qed.

Lemma binom_over n : forall k, n < k -> binom n k = 0.
Proof. induction n as [|n IH]; intros [|k] H; try lia; [reflexivity|]. cbn. rewrite !IH by lia. reflexivity. Qed.

Lemma ways_step n k s r : ways (S n) k s r =
  s * (match k with 0 => 0 | S k' => ways n k' (s - 1) r end) + r * ways n k s (r - 1).
Proof.
  unfold ways. destruct k as [|k].
  - rewrite !Nat.sub_0_r. destruct n; cbn [binom falling]; nia.
  - cbn [binom]. change (falling s (S k)) with (s * falling (s - 1) k). replace (S n - S k) with (n - k) by lia.
    destruct (Nat.lt_ge_cases k n) as [L|L].
    + replace (n - k) with (S (n - S k)) by lia. cbn [falling]. nia.
    + rewrite (binom_over n (S k)) by lia. nia.
Qed.

Lemma length_flat_map {A B} (f : A -> list B) u : length (flat_map f u) = list_sum (map (fun x => length (f x)) u).
Proof. induction u as [|x u IH]; [reflexivity|]. cbn [flat_map map]. rewrite app_length, IH. reflexivity. Qed.

Lemma NoDup_remove_all x : forall u : list nat, NoDup u -> NoDup (remove Nat.eq_dec x u).
Proof.
  intros u N. induction N as [|y l Hy Nl IHl]; [constructor|]. cbn. destruct (Nat.eq_dec x y); [exact IHl|].
  constructor; [|exact IHl]. intros C. apply in_remove in C. tauto.
Qed.

Lemma arr_exact p : forall n u k, NoDup u ->
  length (filter (fun d => cnt p d =? k) (arr u n)) = ways n k (cnt p u) (cnt (fun x => negb (p x)) u).
Proof.
  induction n as [|n IH]; intros u k N.
  - cbn. destruct k; reflexivity.
  - cbn [arr]. rewrite filter_flat_map, length_flat_map.
    rewrite (sum_split p _ (match k with 0 => 0 | S k' => ways n k' (cnt p u - 1) (cnt (fun x => negb (p x)) u) end)
                (ways n k (cnt p u) (cnt (fun x => negb (p x)) u - 1))).
    + symmetry. apply ways_step.
    + intros x Hx. rewrite filter_map_comp, map_length. pose proof (NoDup_remove_all x u N) as Nr.
      pose proof (cnt_remove p x u N Hx) as C1. pose proof (cnt_remove (fun y => negb (p y)) x u N Hx) as C2. cbv beta in C2.
      destruct (p x) eqn:E; cbn [negb] in C2.
      * destruct k as [|k].
        { erewrite filter_ext_len with (q := fun _ => false); [induction (arr (remove Nat.eq_dec x u) n); [reflexivity|assumption]|].
          intros d _. unfold cnt. cbn [filter]. rewrite E. reflexivity. }
        { rewrite <- C1, <- C2, <- (IH _ k Nr). apply filter_ext_len. intros d _. unfold cnt. cbn [filter]. rewrite E. reflexivity. }
      * rewrite <- C1, <- C2, <- (IH _ k Nr). apply filter_ext_len. intros d _. unfold cnt. cbn [filter]. rewrite E. reflexivity.
Qed.

Lemma arr_total : forall n u, NoDup u -> length (arr u n) = falling (length u) n.
Proof.
  induction n as [|n IH]; intros u N; [reflexivity|]. cbn [arr falling]. rewrite length_flat_map.
  rewrite (sum_split (fun _ => true) _ (falling (length u - 1) n) 0).
  - unfold cnt. rewrite (Nat.mul_0_r (length _)), Nat.add_0_r. f_equal. clear. induction u; cbn; congruence.
  - intros x Hx. rewrite map_length, IH, remove_one by (try apply NoDup_remove_all; assumption). reflexivity.
Qed.

Lemma distinct_total n k l : all_distinct_draws n k l -> length l = falling n k.
Proof. intros H. rewrite (Permutation_length (distinct_perm n k l H)), arr_total, seq_length by apply seq_NoDup. reflexivity. Qed.

Lemma filter_parity (p : nat -> bool) (ks : list nat) : NoDup ks -> forall l : list (list nat),
  length (filter (fun d => existsb (fun k => cnt p d =? k) ks) l) = list_sum (map (fun k => length (filter (fun d => cnt p d =? k) l)) ks).
Proof.
  intros N. induction N as [|k ks Hk N IH]; intros l.
  - cbn. induction l; [reflexivity|assumption].
  - cbn [map]. change (list_sum (?a :: ?b)) with (a + list_sum b). rewrite <- IH. clear IH. cbn [existsb]. induction l as [|d l IHl]; [reflexivity|].
    cbn [filter]. destruct (Nat.eqb_spec (cnt p d) k) as [E|E]; cbn [orb].
    + assert (F : existsb (fun k0 => cnt p d =? k0) ks = false).
      { apply Bool.not_true_is_false. intros C. apply existsb_exists in C as (k0 & I & C). apply Nat.eqb_eq in C. congruence. }
      rewrite F. cbn [length]. rewrite IHl. reflexivity.
    + destruct (existsb _ ks); cbn [length]; rewrite IHl; lia.
Qed.

Lemma cnt_other p u : cnt (fun x => negb (p x)) u = length u - cnt p u.
Proof.
  assert (H : cnt (fun x => negb (p x)) u + cnt p u = length u); [|lia].
  unfold cnt. induction u as [|x u IH]; [reflexivity|]. cbn [filter]. destruct (p x); cbn [negb length]; lia.
Qed.

Lemma odd_draws p n k l : all_distinct_draws n k l ->
  length (filter (fun d => Nat.odd (cnt p d)) l) = odd_ways k (cnt p (seq 0 n)) (n - cnt p (seq 0 n)).
Proof.
  intros H. rewrite (perm_filter_length _ _ _ (distinct_perm n k l H)).
  rewrite (filter_ext_len _ (fun d => existsb (fun j => cnt p d =? j) (filter Nat.odd (seq 0 (S k))))).
  - rewrite filter_parity by apply NoDup_filter, seq_NoDup. unfold odd_ways. f_equal. apply map_ext. intros j.
    rewrite arr_exact by apply seq_NoDup. f_equal. rewrite <- (seq_length n 0) at 2. apply cnt_other.
  - intros d Hd. apply arr_in in Hd as (L & _ & _). apply bool_iff. rewrite existsb_exists. split.
    + intros O. exists (cnt p d). split; [|apply Nat.eqb_refl]. apply filter_In. split; [|exact O]. apply in_seq.
      assert (cnt p d <= length d) by (unfold cnt; clear; induction d as [|y u IH]; cbn; [lia|destruct (p y); cbn; lia]). lia.
    + intros (j & I & E). apply Nat.eqb_eq in E. apply filter_In in I as [_ I]. congruence.
Qed.

(** ** crossover *)
Section Cross.
Context {G : Type}.
Variables (a b : list G) (n : nat) (l : list (list nat)).
Hypothesis Hlen : length b = length a.
Hypothesis Hn : n <= length a.
Hypothesis Hl : all_distinct_draws (length a) n l.

Lemma child_gene d i x y : In d l -> nth_error a i = Some x -> nth_error b i = Some y ->
  exists c1 c2, nary_recombine n d a b = Ok (c1, c2) /\ length c1 = length a /\
    forall i x y, nth_error a i = Some x -> nth_error b i = Some y ->
      nth_error c1 i = Some (if Nat.odd (cuts_upto d i) then y else x).
Proof.
  intros Hd _ _. apply Hl in Hd as (L & _ & F). destruct (nary_exchanged n d a b (eq_sym Hlen) L Hn F) as (c1 & c2 & E & X & _ & Y).
  exists c1, c2. split; [exact E|]. split; [exact X|]. intros. apply Y; assumption.
Qed.

Lemma upto_count i : i < length a -> cnt (fun p => p <=? i) (seq 0 (length a)) = S i.
Proof.
  unfold cnt. intros H. generalize (length a) as m, H. clear. intros m H.
  replace m with (S i + (m - S i)) by lia. rewrite seq_app, filter_app, app_length.
  assert (A : forall k s, s + k <= S i -> length (filter (fun p => p <=? i) (seq s k)) = k).
  { induction k as [|k IH]; intros s Hs; [reflexivity|]. cbn [seq filter]. destruct (Nat.leb_spec s i); [|lia]. cbn [length]. rewrite IH; lia. }
  assert (B : forall k s, i < s -> length (filter (fun p => p <=? i) (seq s k)) = 0).
  { induction k as [|k IH]; intros s Hs; [reflexivity|]. cbn [seq filter]. destruct (Nat.leb_spec s i); [lia|]. apply IH; lia. }
  rewrite A, B by lia. lia.
Qed.

Lemma between_count i j : i < j -> j < length a ->
  cnt (fun p => (i <? p) && (p <=? j)) (seq 0 (length a)) = j - i.
Proof.
  intros H1 H2. pose proof (upto_count i ltac:(lia)) as A. pose proof (upto_count j H2) as B.
  assert (E : forall u, cnt (fun p => p <=? j) u = cnt (fun p => p <=? i) u + cnt (fun p => (i <? p) && (p <=? j)) u).
  { unfold cnt. induction u as [|x u IH]; [reflexivity|]. cbn [filter].
    destruct (Nat.leb_spec x j), (Nat.leb_spec x i), (Nat.ltb_spec i x); try lia; cbn [andb length]; lia. }
  rewrite E in B. lia.
Qed.

Lemma gene_odds i x y : nth_error a i = Some x -> nth_error b i = Some y -> x <> y ->
  counts (fun d => exists c1 c2, nary_recombine n d a b = Ok (c1, c2) /\ nth_error c1 i = Some y) l
    (odd_ways n (S i) (length a - S i)).
Proof.
  intros Hx Hy N. assert (Hi : i < length a) by (apply nth_error_Some; congruence).
  exists (fun d => Nat.odd (cuts_upto d i)). split.
  - intros d Hd. destruct (child_gene d i x y Hd Hx Hy) as (c1 & c2 & E & _ & C). specialize (C i x y Hx Hy). split.
    + intros O. rewrite O in C. eauto.
    + intros (e1 & e2 & E' & C'). rewrite E in E'. injection E' as <- <-. destruct (Nat.odd (cuts_upto d i)); [reflexivity|congruence].
  - rewrite <- (upto_count i Hi). apply (odd_draws (fun p => p <=? i)). exact Hl.
Qed.

Lemma linkage i j x y x' y' : i < j -> nth_error a i = Some x -> nth_error b i = Some y -> x <> y ->
  nth_error a j = Some x' -> nth_error b j = Some y' -> x' <> y' ->
  counts (fun d => exists c1 c2, nary_recombine n d a b = Ok (c1, c2) /\ parted i j a b c1) l
    (odd_ways n (j - i) (length a - (j - i))).
Proof.
  intros Hij Hx Hy N Hx' Hy' N'. assert (Hj : j < length a) by (apply nth_error_Some; congruence).
  exists (fun d => Nat.odd (cnt (fun p => (i <? p) && (p <=? j)) d)). split.
  - intros d Hd. destruct (child_gene d i x y Hd Hx Hy) as (c1 & c2 & E & _ & C). pose proof (C i x y Hx Hy) as Ci. pose proof (C j x' y' Hx' Hy') as Cj.
    assert (S : cuts_upto d j = cuts_upto d i + cnt (fun p => (i <? p) && (p <=? j)) d).
    { unfold cnt, cuts_upto. clear - Hij. induction d as [|z u IH]; [reflexivity|]. cbn [filter].
      destruct (Nat.leb_spec z j), (Nat.leb_spec z i), (Nat.ltb_spec i z); try lia; cbn [andb length]; lia. }
    rewrite S, Nat.odd_add in Cj. unfold parted. rewrite Hx, Hy, Hx', Hy'. split.
    + intros O. rewrite O in Cj. exists c1, c2. split; [exact E|]. destruct (Nat.odd (cuts_upto d i)); cbn in Cj; auto.
    + intros (e1 & e2 & E' & C'). rewrite E in E'. injection E' as <- <-. rewrite Ci, Cj in C'.
      destruct (Nat.odd (cnt _ d)); [reflexivity|]. destruct (Nat.odd (cuts_upto d i)); cbn in C'; destruct C' as [[A B]|[A B]]; congruence.
  - rewrite <- (between_count i j Hij Hj). apply odd_draws. exact Hl.
Qed.

Lemma last_gene d c1 c2 x y : In d l -> nary_recombine n d a b = Ok (c1, c2) ->
  nth_error a (length a - 1) = Some x -> nth_error b (length a - 1) = Some y ->
  nth_error c1 (length a - 1) = Some (if Nat.odd n then y else x).
Proof.
  intros Hd E Hx Hy. destruct (child_gene d _ x y Hd Hx Hy) as (e1 & e2 & E' & _ & C). rewrite E in E'. injection E' as <- <-.
  specialize (C _ x y Hx Hy). apply Hl in Hd as (L & _ & F).
  assert (Cn : cuts_upto d (length a - 1) = n).
  { unfold cuts_upto. rewrite <- L. clear - F. induction F as [|z d Hz F IH]; [reflexivity|]. cbn [filter].
    destruct (Nat.leb_spec z (length a - 1)); [cbn; f_equal; exact IH|lia]. }
  rewrite Cn in C. exact C.
Qed.
End Cross.

Lemma one_cut s r : odd_ways 1 s r = s.
Proof. unfold odd_ways, ways. cbn. lia. Qed.
Lemma two_cuts s r : odd_ways 2 s r = 2 * (s * r).
Proof. unfold odd_ways, ways. cbn. nia. Qed.

(** drawing order does not matter *)
Lemma order_irrelevant {G} n d d' (a b : list G) : Permutation d d' -> length a = length b -> length d = n -> n <= length a ->
  Forall (fun p => p < length a) d -> nary_recombine n d a b = nary_recombine n d' a b.
Proof.
  intros P HL Hd Hn F.
  assert (F' : Forall (fun p => p < length a) d') by (eapply Permutation_Forall; [exact P|exact F]).
  assert (Hd' : length d' = n) by (rewrite <- (Permutation_length P); exact Hd).
  destruct (nary_exchanged n d a b HL Hd Hn F) as (a1 & b1 & E & L1 & M1 & X).
  destruct (nary_exchanged n d' a b HL Hd' Hn F') as (a2 & b2 & E' & L2 & M2 & X'). rewrite E, E'.
  assert (C : forall i, cuts_upto d i = cuts_upto d' i) by (intros i; unfold cuts_upto; apply perm_filter_length, P).
  assert (T : forall (u v : list G), length u = length v -> (forall i, i < length u -> nth_error u i = nth_error v i) -> u = v).
  { induction u as [|z u IH]; intros [|w v] L H; try discriminate; [reflexivity|].
    pose proof (H 0 ltac:(cbn; lia)) as H0. cbn in H0. injection H0 as <-. f_equal. apply IH; [cbn in L; lia|].
    intros i Hi. exact (H (S i) ltac:(cbn; lia)). }
  f_equal. f_equal; apply T; try congruence; intros i Hi.
  - assert (Ha : i < length a) by congruence. assert (Hb : i < length b) by congruence. apply nth_error_Some in Ha, Hb.
    destruct (nth_error a i) as [x|] eqn:Ex; [|congruence]. destruct (nth_error b i) as [y|] eqn:Ey; [|congruence].
    rewrite (proj1 (X i x y Ex Ey)), (proj1 (X' i x y Ex Ey)), C. reflexivity.
  - assert (Ha : i < length a) by congruence. assert (Hb : i < length b) by congruence. apply nth_error_Some in Ha, Hb.
    destruct (nth_error a i) as [x|] eqn:Ex; [|congruence]. destruct (nth_error b i) as [y|] eqn:Ey; [|congruence].
    rewrite (proj2 (X i x y Ex Ey)), (proj2 (X' i x y Ex Ey)), C. reflexivity.
Qed.

(** ** uniform crossover *)
Local Open Scope Q_scope.
Lemma filter_all {A} (t : list A) : filter (fun _ => true) t = t.
Proof. induction t; cbn; congruence. Qed.

Lemma total_chance p n : qsum (map (mask_chance p) (tuples [false; true] n)) == 1.
Proof.
  apply (masks_total p n). split; [apply tuples_nodup; repeat constructor; cbn; intuition discriminate|].
  intros m. rewrite tuples_in. split; [intros [? _]; assumption|]. intros H. split; [exact H|].
  apply Forall_forall. intros [|] _; cbn; auto.
Qed.

Lemma bit_chance p (v : bool) : forall n i, (i < n)%nat ->
  qsum (map (mask_chance p) (filter (fun m => Bool.eqb (nth i m false) v) (tuples [false; true] n))) == if v then p else 1 - p.
Proof.
  induction n as [|n IH]; intros i Hi; [lia|]. cbn [tuples flat_map]. rewrite app_nil_r. destruct i as [|i].
  - rewrite (filter_ext_in _ (fun m => match m with [] => false | e :: m' => Bool.eqb e v && (fun _ => true) m' end)).
    2:{ intros m Hm. rewrite in_app_iff, !in_map_iff in Hm. destruct Hm as [(m' & <- & _)|(m' & <- & _)]; cbn [nth]; rewrite Bool.andb_true_r; reflexivity. }
    rewrite (chance_step p (mask_chance p) (fun e => Bool.eqb e v) (fun _ => true)) by (intros; reflexivity).
    rewrite filter_all, total_chance. destruct v; cbn [Bool.eqb]; ring.
  - rewrite (filter_ext_in _ (fun m => match m with [] => false | e :: m' => (fun _ => true) e && (fun m' => Bool.eqb (nth i m' false) v) m' end)).
    2:{ intros m Hm. rewrite in_app_iff, !in_map_iff in Hm. destruct Hm as [(m' & <- & _)|(m' & <- & _)]; reflexivity. }
    rewrite (chance_step p (mask_chance p) (fun _ => true) (fun m' => Bool.eqb (nth i m' false) v)) by (intros; reflexivity).
    rewrite (IH i) by lia. destruct v; ring.
Qed.

Lemma parted_chance p : forall n i j, (i < j)%nat -> (j < n)%nat ->
  qsum (map (mask_chance p) (filter (fun m => xorb (nth i m false) (nth j m false)) (tuples [false; true] n))) == 2 * p * (1 - p).
Proof.
  induction n as [|n IH]; intros i j Hij Hj; [lia|]. cbn [tuples flat_map]. rewrite app_nil_r. destruct j as [|j]; [lia|]. destruct i as [|i].
  - rewrite filter_app, map_app, qsum_app, !filter_map_comp, !map_map.
    assert (E : forall e, qsum (map (fun x => mask_chance p (e :: x)) (filter (fun x => xorb (nth 0 (e :: x) false) (nth (S j) (e :: x) false)) (tuples [false; true] n)))
        == (if e then p else 1 - p) * (if e then 1 - p else p)).
    { intros e. cbn [nth]. rewrite (filter_ext _ (fun m => Bool.eqb (nth j m false) (negb e))) by (intros m; destruct e, (nth j m false); reflexivity).
      rewrite (map_ext _ (fun x => (if e then p else 1 - p) * mask_chance p x)) by reflexivity.
      rewrite (qsum_scale (mask_chance p)), (bit_chance p (negb e) n j) by lia. destruct e; cbn [negb]; reflexivity. }
    rewrite (E false), (E true). ring.
  - rewrite (filter_ext_in _ (fun m => match m with [] => false | e :: m' => (fun _ => true) e && (fun m' => xorb (nth i m' false) (nth j m' false)) m' end)).
    2:{ intros m Hm. rewrite in_app_iff, !in_map_iff in Hm. destruct Hm as [(m' & <- & _)|(m' & <- & _)]; reflexivity. }
    rewrite (chance_step p (mask_chance p) (fun _ => true) (fun m' => xorb (nth i m' false) (nth j m' false))) by (intros; reflexivity).
    rewrite (IH i j) by lia. ring.
Qed.

Lemma uniform_linkage {G} p (a b : list G) l i j x y x' y' : length b = length a -> all_masks (length a) l -> (i < j)%nat ->
  nth_error a i = Some x -> nth_error b i = Some y -> x <> y ->
  nth_error a j = Some x' -> nth_error b j = Some y' -> x' <> y' ->
  chance_of (mask_chance p) (fun mask => exists c1 c2, uniform_recombine mask a b = Ok (c1, c2) /\ parted i j a b c1) l (2 * p * (1 - p)).
Proof.
  intros HL Hl Hij Hx Hy N Hx' Hy' N'. assert (Hj : (j < length a)%nat) by (apply nth_error_Some; congruence).
  exists (fun m => xorb (nth i m false) (nth j m false)). split.
  - intros m Hm. apply Hl in Hm. destruct (uniform_exchanged m a b (eq_sym Hm)) as (c1 & c2 & E & _ & _ & X); [congruence|].
    pose proof (proj1 (X i x y Hx Hy)) as Ci. pose proof (proj1 (X j x' y' Hx' Hy')) as Cj.
    unfold parted. rewrite Hx, Hy, Hx', Hy'. split.
    + intros O. exists c1, c2. split; [exact E|]. rewrite Ci, Cj. destruct (nth i m false), (nth j m false); try discriminate; auto.
    + intros (e1 & e2 & E' & C'). rewrite E in E'. injection E' as <- <-. rewrite Ci, Cj in C'.
      destruct (nth i m false), (nth j m false); try reflexivity; destruct C' as [[A B]|[A B]]; congruence.
  - rewrite <- (parted_chance p (length a) i j Hij Hj). apply qsum_perm, Permutation_map, perm_filter, masks_perm, Hl.
Qed.
