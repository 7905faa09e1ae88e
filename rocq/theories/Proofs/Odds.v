From Coq Require Import Lia Lqa Permutation Qfield.
From Verif Require Import Model.Base Model.PyList Model.Scalar Model.Selection Model.Variation
  Spec.Order Spec.Selection Spec.Odds Proofs.Order Proofs.PyList Proofs.ScalarSel.
Local Open Scope nat_scope.
Local Open Scope list_scope.

(** ** Listing all draws *)
Fixpoint tuples {A} (u : list A) (k : nat) : list (list A) :=
  match k with 0 => [[]] | S k' => flat_map (fun i => map (cons i) (tuples u k')) u end.

Lemma tuples_in {A} (u : list A) k : forall d, In d (tuples u k) <-> length d = k /\ Forall (fun i => In i u) d.
Proof.
  induction k as [|k IH]; intros d; cbn [tuples].
  - split; [intros [<-|[]]; auto|]. intros [H _]. destruct d; [left; auto|discriminate].
  - rewrite in_flat_map. split.
    + intros (i & Hi & H). apply in_map_iff in H. destruct H as (d' & <- & H). apply IH in H.
      destruct H as [H1 H2]. split; [cbn; lia|]. constructor; auto.
    + intros [H1 H2]. destruct d as [|i d]; [discriminate|]. inversion H2; subst.
      exists i. split; [auto|]. apply in_map, IH. cbn in H1. split; [lia|auto].
Qed.

Lemma tuples_length {A} (u : list A) k : length (tuples u k) = length u ^ k.
Proof.
  induction k as [|k IH]; [reflexivity|]. cbn [tuples Nat.pow]. rewrite <- IH. clear IH.
  generalize (tuples u k) as t. intros t. induction u as [|i u IHu]; cbn; [reflexivity|].
  rewrite app_length, map_length, IHu. reflexivity.
Qed.

Lemma NoDup_app_intro {A} (l m : list A) : NoDup l -> NoDup m -> (forall x, In x l -> ~ In x m) -> NoDup (l ++ m).
Proof.
  intros Hl Hm H. induction Hl as [|x l Hx Hl IH]; cbn; [auto|].
  constructor; [|apply IH; intros; apply H; cbn; auto].
  rewrite in_app_iff. intros [?|?]; [auto|]. apply (H x); cbn; auto.
Qed.

Lemma tuples_nodup {A} (u : list A) k : NoDup u -> NoDup (tuples u k).
Proof.
  intros Hu. induction k as [|k IH]; cbn [tuples]; [repeat constructor; auto|].
  revert IH. generalize (tuples u k) as t. intros t IH.
  induction Hu as [|i u Hi Hu IHu]; cbn; [constructor|].
  apply NoDup_app_intro; auto.
  - apply FinFun.Injective_map_NoDup; [|exact IH]. intros a b E. congruence.
  - intros d H1 H2. apply in_map_iff in H1. destruct H1 as (d1 & <- & _).
    apply in_flat_map in H2. destruct H2 as (j & Hj & H2). apply in_map_iff in H2.
    destruct H2 as (d2 & E & _). injection E as -> _. auto.
Qed.

Lemma draws_perm n k l : all_draws n k l -> Permutation l (tuples (seq 0 n) k).
Proof.
  intros [H1 H2]. apply NoDup_Permutation; [auto|apply tuples_nodup, seq_NoDup|].
  intros d. rewrite H2, tuples_in. split; intros [? H]; (split; [auto|]); revert H; apply Forall_impl; intros i;
    rewrite in_seq; lia.
Qed.

Lemma masks_perm n l : all_masks n l -> Permutation l (tuples [false; true] n).
Proof.
  intros [H1 H2]. apply NoDup_Permutation; [auto|apply tuples_nodup; repeat constructor; cbn; intuition discriminate|].
  intros d. rewrite H2, tuples_in. split; [|intros [? _]; auto]. intros H. split; [auto|].
  apply Forall_forall. intros [|] _; cbn; auto.
Qed.

Lemma draws_total n k l : all_draws n k l -> length l = n ^ k.
Proof. intros H. rewrite (Permutation_length (draws_perm n k l H)), tuples_length, seq_length. reflexivity. Qed.

Lemma draws_exist n k : exists l, all_draws n k l.
Proof.
  exists (tuples (seq 0 n) k). split; [apply tuples_nodup, seq_NoDup|]. intros d. rewrite tuples_in.
  split; intros [? H]; (split; [auto|]); revert H; apply Forall_impl; intros i; rewrite in_seq; lia.
Qed.

Lemma filter_flat_map {A B} (p : B -> bool) (f : A -> list B) u :
  filter p (flat_map f u) = flat_map (fun i => filter p (f i)) u.
Proof. induction u as [|i u IH]; cbn; [auto|]. rewrite filter_app, IH. reflexivity. Qed.

Lemma filter_map_comp {A B} (p : B -> bool) (f : A -> B) l : filter p (map f l) = map f (filter (fun x => p (f x)) l).
Proof. induction l as [|x l IH]; cbn; [auto|]. destruct (p (f x)); cbn; rewrite IH; reflexivity. Qed.

Lemma tuples_filter {A} (p : A -> bool) u k : filter (forallb p) (tuples u k) = tuples (filter p u) k.
Proof.
  induction k as [|k IH]; [reflexivity|]. cbn [tuples]. rewrite filter_flat_map. rewrite <- IH.
  generalize (tuples u k) as t. intros t. clear IH. induction u as [|i u IHu]; [reflexivity|].
  cbn [flat_map]. rewrite IHu, filter_map_comp. cbn [filter forallb]. destruct (p i) eqn:E; cbn.
  - reflexivity.
  - replace (filter (fun _ => false) t) with (@nil (list A)); [reflexivity|].
    symmetry. clear. induction t; cbn; auto.
Qed.

Lemma perm_filter_length {A} (p : A -> bool) l m : Permutation l m -> length (filter p l) = length (filter p m).
Proof.
  induction 1 as [|x l m P IH|x y l|l m r P1 IH1 P2 IH2]; cbn; auto.
  - destruct (p x); cbn; auto.
  - destruct (p x), (p y); cbn; auto.
  - congruence.
Qed.

Lemma filter_ext_len {A} (p q : A -> bool) l :
  (forall a, In a l -> p a = q a) -> length (filter p l) = length (filter q l).
Proof. intros H. rewrite (filter_ext_in p q l H). reflexivity. Qed.

Lemma bool_iff (a b : bool) : (a = true <-> b = true) -> a = b.
Proof. destruct a, b; intuition congruence. Qed.

Lemma counts_unique {A} (P Q : A -> Prop) l c c' :
  (forall a, In a l -> (P a <-> Q a)) -> counts P l c -> counts Q l c' -> c = c'.
Proof.
  intros H (b & Hb & <-) (b' & Hb' & <-). apply filter_ext_len. intros a Ha. apply bool_iff.
  rewrite Hb, Hb', H; tauto.
Qed.

(** positions of a list and its entries *)
Lemma filter_positions {A} (b : A -> bool) (l : list A) d :
  length (filter (fun i => b (nth i l d)) (seq 0 (length l))) = length (filter b l).
Proof.
  induction l as [|x l IH]; [reflexivity|]. cbn [length seq filter]. cbn [nth].
  assert (E : length (filter (fun i => b (nth i (x :: l) d)) (seq 1 (length l))) = length (filter b l)).
  { rewrite <- seq_shift, filter_map_comp, map_length. exact IH. }
  destruct (b x); cbn [length]; [f_equal|]; exact E.
Qed.

Lemma all_drawn {A} (P : A -> Prop) (population : list A) k l m :
  all_draws (length population) k l -> counts P population m ->
  exists b, (forall d, In d l -> (b d = true <-> forall j y, In j d -> nth_error population j = Some y -> P y)) /\
    length (filter b l) = m ^ k.
Proof.
  intros Hl (p & Hp & <-). destruct population as [|d0 population'] eqn:Ep.
  { exists (fun d => match d with [] => true | _ => false end). destruct Hl as [Hn Hi]. split.
    - intros [|i d] Hd; [split; [intros _ j y []|auto]|].
      apply Hi in Hd. destruct Hd as [_ Hd]. inversion Hd; cbn in *; lia.
    - assert (Hl : all_draws 0 k l) by (split; auto). rewrite (perm_filter_length _ _ _ (draws_perm _ _ _ Hl)).
      cbn [filter length]. destruct k; cbn; reflexivity. }
  rewrite <- Ep in *. clear Ep population'.
  exists (forallb (fun i => p (nth i population d0))). split.
  - intros d Hd. apply Hl in Hd. destruct Hd as [_ Hd]. rewrite Forall_forall in Hd.
    rewrite forallb_forall. split.
    + intros H j y Hj Hy. apply Hp; [eapply nth_error_In; eauto|]. rewrite <- (H j Hj).
      f_equal. symmetry. apply nth_error_nth, Hy.
    + intros H j Hj. specialize (Hd j Hj). apply Hp; [apply nth_In, Hd|].
      apply (H j); [auto|]. apply nth_error_nth', Hd.
  - rewrite (perm_filter_length _ _ _ (draws_perm _ _ _ Hl)), tuples_filter, tuples_length, filter_positions.
    reflexivity.
Qed.

Lemma counts_equiv {A} (P Q : A -> Prop) l c :
  (forall a, In a l -> (P a <-> Q a)) -> counts P l c -> counts Q l c.
Proof. intros H (b & Hb & E). exists b. split; [|auto]. intros a Ha. rewrite Hb, H; tauto. Qed.

Section Tournament.
Variables (mx : bool) (coin : sind -> sind -> bool) (population : list sind).

Lemma drawn_nonempty n k l d : 1 <= k -> all_draws n k l -> In d l -> d <> [] /\ Forall (fun i => i < n) d.
Proof. intros Hk [_ H] Hd. apply H in Hd. destruct Hd as [H1 H2]. split; [|auto]. destruct d; cbn in *; [lia|congruence]. Qed.

(** the winner is at most as good as f iff everything drawn is *)
Lemma best_at_most f k l m indices :
  sharp (map si_fit population) -> 1 <= k -> all_draws (length population) k l ->
  counts (fun x => ~ better mx (si_fit x) f) population m ->
  counts (fun d => exists w r, tournament_turn (ind_lt mx coin) (ind_gt mx coin) population false d indices = Ok (w, r) /\
                     ~ better mx (si_fit w) f) l (m ^ k).
Proof.
  intros Hs Hk Hl Hm. destruct (all_drawn _ _ _ _ _ Hl Hm) as (b & Hb & E). exists b. split; [|exact E].
  intros d Hd. rewrite (Hb d Hd). destruct (drawn_nonempty _ _ _ _ Hk Hl Hd) as [H1 H2].
  destruct (tournament_spec mx coin population false d indices H1 H2) as (i & x & Et & Hi & Hx & Hw). split.
  - intros H. exists x. eexists. split; [exact Et|]. apply (H i x Hi Hx).
  - intros (w & r & Ew & Hn) j y Hj Hy. rewrite Et in Ew. injection Ew as -> _.
    destruct (Hw j y Hj Hy) as [_ Hw']. specialize (Hw' Hs). intros Hb'.
    apply (better_split _ _ (si_fit w)) in Hb'. tauto.
Qed.

Lemma worst_at_least f k l m indices :
  1 <= k -> all_draws (length population) k l ->
  counts (fun x => ~ better mx f (si_fit x)) population m ->
  counts (fun d => exists w r, tournament_turn (ind_lt mx coin) (ind_gt mx coin) population true d indices = Ok (w, r) /\
                     ~ better mx f (si_fit w)) l (m ^ k).
Proof.
  intros Hk Hl Hm. destruct (all_drawn _ _ _ _ _ Hl Hm) as (b & Hb & E). exists b. split; [|exact E].
  intros d Hd. rewrite (Hb d Hd). destruct (drawn_nonempty _ _ _ _ Hk Hl Hd) as [H1 H2].
  destruct (tournament_spec mx coin population true d indices H1 H2) as (i & x & Et & Hi & Hx & Hw). split.
  - intros H. exists x. eexists. split; [exact Et|]. apply (H i x Hi Hx).
  - intros (w & r & Ew & Hn) j y Hj Hy. rewrite Et in Ew. injection Ew as -> _.
    specialize (Hw j y Hj Hy). cbn in Hw. intros Hb'.
    apply (better_split _ _ (si_fit w)) in Hb'. tauto.
Qed.

Lemma beats_dec sw x y : {beats mx sw x y} + {~ beats mx sw x y}.
Proof. unfold beats. destruct sw; apply better_dec. Qed.

Lemma beats_split sw x y z : beats mx sw x z -> beats mx sw x y \/ beats mx sw y z.
Proof. unfold beats. destruct sw; intros H; apply (better_split _ _ (si_fit y)) in H; tauto. Qed.

Lemma beats_irrefl sw x : ~ beats mx sw x x.
Proof. unfold beats. destruct sw; apply better_irrefl. Qed.

Lemma beats_asym sw x y : beats mx sw x y -> ~ beats mx sw y x.
Proof. unfold beats. destruct sw; apply better_asym. Qed.

Lemma winner_spec sw d indices :
  sharp (map si_fit population) \/ sw = true -> d <> [] -> Forall (fun i => i < length population) d ->
  exists i x, tournament_turn (ind_lt mx coin) (ind_gt mx coin) population sw d indices
      = Ok (x, match indices with None => None | Some _ => Some [i] end) /\
    In i d /\ nth_error population i = Some x /\
    forall j y, In j d -> nth_error population j = Some y -> ~ beats mx sw y x.
Proof.
  intros Hs H1 H2. destruct (tournament_spec mx coin population sw d indices H1 H2) as (i & x & Et & Hi & Hx & Hw).
  exists i, x. repeat (split; [assumption|]). intros j y Hj Hy. specialize (Hw j y Hj Hy). unfold beats.
  destruct sw; [exact Hw|]. apply Hw. destruct Hs; [auto|discriminate].
Qed.

Lemma exact_wins sw i x k l m old :
  sharp (map si_fit population) \/ sw = true -> 1 <= k -> all_draws (length population) k l ->
  nth_error population i = Some x ->
  (forall j y, nth_error population j = Some y -> j <> i -> beats mx sw x y \/ beats mx sw y x) ->
  counts (fun y => beats mx sw x y) population m ->
  counts (fun d => tournament_turn (ind_lt mx coin) (ind_gt mx coin) population sw d (Some old) = Ok (x, Some [i])) l
    (S m ^ k - m ^ k).
Proof.
  intros Hs Hk Hl Hx Hu Hm.
  assert (Hm1 : counts (fun y => ~ beats mx sw y x) population (S m)).
  { destruct Hm as (p & Hp & <-). exists (fun y => if beats_dec sw y x then false else true). split.
    { intros a _. destruct (beats_dec sw a x); intuition congruence. }
    assert (Hdiff : forall y, In y population -> p y = true -> ~ beats mx sw y x).
    { intros y Hy E. apply Hp in E; [|auto]. apply beats_asym, E. }
    apply nth_error_split in Hx. destruct Hx as (l1 & l2 & Epop & Hi).
    assert (Hother : forall y, In y l1 \/ In y l2 -> (if beats_dec sw y x then false else true) = p y).
    { intros y Hy. assert (Hin : In y population) by (rewrite Epop, in_app_iff; cbn; tauto).
      assert (Hu' : beats mx sw x y \/ beats mx sw y x).
      { destruct Hy as [Hy|Hy].
        - apply In_nth_error in Hy. destruct Hy as (j & Hj).
          assert (j < length l1) by (apply nth_error_Some; congruence).
          apply (Hu j); [|lia]. rewrite Epop, nth_error_app1; auto.
        - apply In_nth_error in Hy. destruct Hy as (j & Hj).
          apply (Hu (length l1 + S j)); [|lia]. rewrite Epop, nth_error_app2 by lia.
          replace (length l1 + S j - length l1) with (S j) by lia. exact Hj. }
      apply bool_iff. rewrite (Hp y Hin). destruct (beats_dec sw y x) as [B|B].
      - split; [discriminate|]. intros B'. exfalso. exact (beats_asym _ _ _ B B').
      - tauto. }
    assert (Hpx : p x = false).
    { apply not_true_iff_false. rewrite Hp by (rewrite Epop, in_app_iff; cbn; auto). apply beats_irrefl. }
    rewrite Epop, !filter_app. cbn [filter]. rewrite Hpx.
    destruct (beats_dec sw x x) as [B|B]; [destruct (beats_irrefl _ _ B)|].
    rewrite !app_length. cbn [length].
    rewrite (filter_ext_len _ p l1), (filter_ext_len _ p l2); [lia| |]; auto. }
  destruct (all_drawn _ _ _ _ _ Hl Hm) as (bw & Hbw & Ew).
  destruct (all_drawn _ _ _ _ _ Hl Hm1) as (bn & Hbn & En).
  exists (fun d => bn d && negb (bw d)). split.
  - intros d Hd. destruct (drawn_nonempty _ _ _ _ Hk Hl Hd) as [H1 H2].
    destruct (winner_spec sw d (Some old) Hs H1 H2) as (i' & x' & Et & Hi' & Hx' & Hw).
    rewrite Et, andb_true_iff, negb_true_iff, <- not_true_iff_false, (Hbn d Hd), (Hbw d Hd). split.
    + intros [G1 G2]. destruct (Nat.eq_dec i' i) as [->|Hne]; [congruence|]. exfalso. apply G2.
      intros j y Hj Hy. destruct (Hu i' x' Hx' Hne) as [B|B]; [|destruct (G1 i' x' Hi' Hx' B)].
      apply (beats_split _ _ y) in B. destruct B as [B|B]; [auto|destruct (Hw j y Hj Hy B)].
    + intros E. injection E as -> ->. split; [exact Hw|]. intros G. exact (beats_irrefl _ _ (G i x Hi' Hx')).
  - rewrite <- Ew, <- En. assert (Hsub : forall d, In d l -> bw d = true -> bn d = true).
    { intros d Hd. rewrite (Hbw d Hd), (Hbn d Hd). intros G j y Hj Hy. apply beats_asym, (G j y Hj Hy). }
    clear -Hsub. induction l as [|d l IH]; [reflexivity|]. cbn [filter].
    assert (IH' := IH (fun d' Hd' => Hsub d' (or_intror Hd'))). assert (Hd := Hsub d (or_introl eq_refl)).
    assert (Hle : length (filter bw l) <= length (filter bn l)).
    { clear -Hsub. induction l as [|e l IH]; [auto|]. cbn [filter].
      assert (He := Hsub e (or_intror (or_introl eq_refl))).
      assert (IH' : length (filter bw l) <= length (filter bn l)) by (apply IH; intros; apply Hsub; cbn in *; tauto).
      destruct (bw e); [rewrite He by auto|destruct (bn e)]; cbn; lia. }
    destruct (bn d), (bw d); cbn [andb negb filter length]; try lia; specialize (Hd eq_refl); discriminate.
Qed.

Lemma pow_gap k : forall a b, a <= b -> S a ^ k + b ^ k <= S b ^ k + a ^ k.
Proof.
  induction k as [|k IH]; intros a b H; [cbn; lia|]. specialize (IH a b H).
  assert (a ^ k <= S a ^ k) by (apply Nat.pow_le_mono_l; lia).
  assert (b ^ k <= S b ^ k) by (apply Nat.pow_le_mono_l; lia).
  assert (S a ^ k <= S b ^ k) by (apply Nat.pow_le_mono_l; lia).
  cbn [Nat.pow]. revert IH H0 H1 H2. generalize (S a ^ k) (S b ^ k) (a ^ k) (b ^ k). intros u w v z H1 H2 H3 H4.
  nia.
Qed.

Lemma counts_exists sw x : exists m, counts (fun y => beats mx sw x y) population m.
Proof.
  eexists. exists (fun y => if beats_dec sw x y then true else false). split; [|reflexivity].
  intros y _. destruct (beats_dec sw x y); intuition congruence.
Qed.

Lemma pressure sw i x j y k l ci cj old :
  sharp (map si_fit population) \/ sw = true -> 1 <= k -> all_draws (length population) k l ->
  nth_error population i = Some x -> nth_error population j = Some y ->
  (forall a z, nth_error population a = Some z -> a <> i -> beats mx sw x z \/ beats mx sw z x) ->
  (forall a z, nth_error population a = Some z -> a <> j -> beats mx sw y z \/ beats mx sw z y) ->
  beats mx sw x y ->
  counts (fun d => tournament_turn (ind_lt mx coin) (ind_gt mx coin) population sw d (Some old) = Ok (x, Some [i])) l ci ->
  counts (fun d => tournament_turn (ind_lt mx coin) (ind_gt mx coin) population sw d (Some old) = Ok (y, Some [j])) l cj ->
  cj <= ci /\ (2 <= k -> cj < ci).
Proof.
  intros Hs Hk Hl Hx Hy Ux Uy Hb Hci Hcj.
  destruct (counts_exists sw x) as (a & Ha). destruct (counts_exists sw y) as (b & Hbb).
  rewrite (counts_unique _ _ _ _ _ (fun _ _ => iff_refl _) Hci (exact_wins sw i x k l a old Hs Hk Hl Hx Ux Ha)).
  rewrite (counts_unique _ _ _ _ _ (fun _ _ => iff_refl _) Hcj (exact_wins sw j y k l b old Hs Hk Hl Hy Uy Hbb)).
  assert (Hlt : b < a).
  { destruct Ha as (pa & Ha & <-), Hbb as (pb & Hbb & <-).
    assert (Hsub : forall z, In z population -> pb z = true -> pa z = true).
    { intros z Hz. rewrite (Ha z Hz), (Hbb z Hz). intros B.
      apply (beats_split sw y x z) in B. destruct B as [B|B]; [|auto].
      destruct (beats_asym _ _ _ Hb B). }
    assert (Hiny : In y population) by (eapply nth_error_In; eauto).
    assert (Hya : pa y = true) by (apply Ha; auto).
    assert (Hyb : pb y = false) by (apply not_true_iff_false; rewrite Hbb by auto; apply beats_irrefl).
    clear -Hsub Hiny Hya Hyb.
    assert (G : forall q, (forall z, In z q -> pb z = true -> pa z = true) -> length (filter pb q) <= length (filter pa q)).
    { induction q as [|e q IH]; intros Hq; cbn [filter]; [auto|].
      assert (He := Hq e (or_introl eq_refl)). specialize (IH (fun z Hz => Hq z (or_intror Hz))).
      destruct (pb e); [rewrite He by auto|destruct (pa e)]; cbn; lia. }
    apply in_split in Hiny. destruct Hiny as (l1 & l2 & E). rewrite E in *.
    rewrite !filter_app. cbn [filter]. rewrite Hya, Hyb, !app_length. cbn [length].
    assert (G1 := G l1 ltac:(intros; apply Hsub; [rewrite in_app_iff; auto|auto])).
    assert (G2 := G l2 ltac:(intros; apply Hsub; [rewrite in_app_iff; cbn; auto|auto])). lia. }
  assert (S b ^ k + a ^ k <= S a ^ k + b ^ k) by (apply pow_gap; lia).
  assert (b ^ k <= S b ^ k) by (apply Nat.pow_le_mono_l; lia).
  assert (a ^ k <= S a ^ k) by (apply Nat.pow_le_mono_l; lia).
  split; [lia|]. intros Hk2. destruct k as [|[|k]]; [lia|lia|].
  assert (P := pow_gap (S k) b a ltac:(lia)).
  assert (b ^ S k <= S b ^ S k) by (apply Nat.pow_le_mono_l; lia).
  assert (a ^ S k <= S a ^ S k) by (apply Nat.pow_le_mono_l; lia).
  assert (S b ^ S k < S a ^ S k) by (apply Nat.pow_lt_mono_l; lia).
  change (S b ^ S (S k)) with (S b * S b ^ S k) in *. change (S a ^ S (S k)) with (S a * S a ^ S k) in *.
  change (b ^ S (S k)) with (b * b ^ S k) in *. change (a ^ S (S k)) with (a * a ^ S k) in *.
  revert H H0 H1 H2 H3 H4 P. generalize (S b ^ S k) (S a ^ S k) (b ^ S k) (a ^ S k). intros u w v z. intros. nia.
Qed.
End Tournament.

(** ** Ties *)
Definition swap (i j a : nat) : nat := if a =? i then j else if a =? j then i else a.

Lemma swap_invol i j a : swap i j (swap i j a) = a.
Proof.
  unfold swap. destruct (Nat.eqb_spec a i) as [->|H].
  - destruct (Nat.eqb_spec j i); [auto|]. rewrite Nat.eqb_refl. reflexivity.
  - destruct (Nat.eqb_spec a j) as [->|H2]; [rewrite Nat.eqb_refl; reflexivity|].
    destruct (Nat.eqb_spec a i); [congruence|]. destruct (Nat.eqb_spec a j); congruence.
Qed.

Lemma swap_inj i j a b : swap i j a = swap i j b -> a = b.
Proof. intros H. rewrite <- (swap_invol i j a), <- (swap_invol i j b), H. reflexivity. Qed.

Lemma swap_bound i j a n : i < n -> j < n -> (swap i j a < n <-> a < n).
Proof. unfold swap. intros. destruct (Nat.eqb_spec a i); destruct (Nat.eqb_spec a j); lia. Qed.

Lemma pymax_swap (gt : nat -> nat -> bool) s (H : forall a b, gt (s a) (s b) = gt a b) l : forall c,
  pymax_from gt (s c) (map s l) = s (pymax_from gt c l).
Proof. induction l as [|x l IH]; intros c; cbn; [auto|]. rewrite H. destruct (gt x c); apply IH. Qed.

Lemma pymin_swap (lt : nat -> nat -> bool) s (H : forall a b, lt (s a) (s b) = lt a b) l : forall c,
  pymin_from lt (s c) (map s l) = s (pymin_from lt c l).
Proof. induction l as [|x l IH]; intros c; cbn; [auto|]. rewrite H. destruct (lt x c); apply IH. Qed.

Section Ties.
Variables (mx : bool) (coin : sind -> sind -> bool) (population : list sind) (i j : nat) (x y : sind).
Hypothesis Hs : sharp (map si_fit population).
Hypothesis Hv : Forall (fun z => viable (si_fit z)) population.
Hypothesis Hi : nth_error population i = Some x.
Hypothesis Hj : nth_error population j = Some y.
Hypothesis Hsame : same_value mx (si_fit x) (si_fit y).

Lemma same_nth d0 a : In d0 population ->
  same_value mx (si_fit (nth (swap i j a) population d0)) (si_fit (nth a population d0)).
Proof.
  intros Hd. unfold swap.
  destruct (Nat.eqb_spec a i) as [->|]; [|destruct (Nat.eqb_spec a j) as [->|]].
  - rewrite (nth_error_nth _ _ d0 Hi), (nth_error_nth _ _ d0 Hj). destruct Hsame; split; auto.
  - rewrite (nth_error_nth _ _ d0 Hi), (nth_error_nth _ _ d0 Hj). destruct Hsame; split; auto.
  - split; apply better_irrefl.
Qed.

Lemma better_same f f' g g' : same_value mx f f' -> same_value mx g g' -> (better mx f g <-> better mx f' g').
Proof.
  intros [H1 H2] [H3 H4]. split; intros H.
  - apply (better_split _ _ f') in H. destruct H as [H|H]; [tauto|].
    apply (better_split _ _ g') in H. tauto.
  - apply (better_split _ _ f) in H. destruct H as [H|H]; [tauto|].
    apply (better_split _ _ g) in H. tauto.
Qed.

Lemma nth_pop d0 a : In d0 population -> In (nth a population d0) population.
Proof.
  intros Hd. destruct (Nat.lt_ge_cases a (length population)); [apply nth_In; auto|].
  rewrite nth_overflow; auto.
Qed.

Lemma judge_swap sw d0 a b : In d0 population ->
  judge (ind_lt mx coin) (ind_gt mx coin) sw population d0 (swap i j a) (swap i j b)
    = judge (ind_lt mx coin) (ind_gt mx coin) sw population d0 a b.
Proof.
  intros Hd. rewrite Forall_forall in Hv. assert (N := fun a => nth_pop d0 a Hd).
  assert (Sa := same_nth d0 a Hd). assert (Sb := same_nth d0 b Hd). unfold judge. destruct sw; apply bool_iff.
  - rewrite !ind_lt_spec by auto. apply better_same; auto.
  - assert (G : forall u w, In u population -> In w population ->
       (ind_gt mx coin u w = true <-> better mx (si_fit u) (si_fit w))).
    { intros u w Hu Hw. split.
      - intros E. apply ind_gt_spec in E; [apply E|auto].
      - intros E. apply not_false_iff_true. intros F. exact (ind_gt_false_sharp mx coin population u w Hs Hu Hw F E). }
    rewrite !G by auto. apply better_same; auto.
Qed.

Lemma turn_swap sw d old :
  tournament_turn (ind_lt mx coin) (ind_gt mx coin) population sw (map (swap i j) d) (Some old) = Ok (x, Some [i]) <->
  tournament_turn (ind_lt mx coin) (ind_gt mx coin) population sw d (Some old) = Ok (y, Some [j]).
Proof.
  unfold tournament_turn. destruct population as [|d0 pop'] eqn:Ep; [split; discriminate|].
  rewrite <- Ep in *. assert (Hd0 : In d0 population) by (rewrite Ep; cbn; auto). clear Ep pop'.
  destruct d as [|c cs]; [split; discriminate|]. cbn [map].
  assert (E : (if sw then pymin_from (judge (ind_lt mx coin) (ind_gt mx coin) true population d0) (swap i j c) (map (swap i j) cs)
     else pymax_from (judge (ind_lt mx coin) (ind_gt mx coin) false population d0) (swap i j c) (map (swap i j) cs))
    = swap i j (if sw then pymin_from (judge (ind_lt mx coin) (ind_gt mx coin) true population d0) c cs
     else pymax_from (judge (ind_lt mx coin) (ind_gt mx coin) false population d0) c cs)).
  { destruct sw; [apply pymin_swap|apply pymax_swap]; intros; apply judge_swap; auto. }
  cbv zeta. rewrite E. match goal with |- context [swap i j ?e] => generalize e end. intros a. cbn [option_map].
  split; intros H.
  - destruct (nth_error population (swap i j a)) as [w|] eqn:Ew; [|discriminate]. injection H as -> Ea.
    assert (Eaj : a = j).
    { apply (swap_inj i j). rewrite Ea. unfold swap. destruct (Nat.eqb_spec j i); [auto|]. rewrite Nat.eqb_refl. auto. }
    rewrite Eaj, Hj. reflexivity.
  - destruct (nth_error population a) as [w|] eqn:Ew; [|discriminate]. injection H as -> Ea. subst a.
    assert (Es : swap i j j = i) by (unfold swap; destruct (Nat.eqb_spec j i); [auto|]; rewrite Nat.eqb_refl; auto).
    rewrite Es, Hi. reflexivity.
Qed.

Lemma ties_share sw k l ci cj old : all_draws (length population) k l ->
  counts (fun d => tournament_turn (ind_lt mx coin) (ind_gt mx coin) population sw d (Some old) = Ok (x, Some [i])) l ci ->
  counts (fun d => tournament_turn (ind_lt mx coin) (ind_gt mx coin) population sw d (Some old) = Ok (y, Some [j])) l cj ->
  ci = cj.
Proof.
  intros Hl (bi & Hbi & <-) (bj & Hbj & <-).
  assert (Li : i < length population) by (apply nth_error_Some; congruence).
  assert (Lj : j < length population) by (apply nth_error_Some; congruence).
  assert (Hin : forall d, In d l -> In (map (swap i j) d) l).
  { intros d Hd. apply Hl in Hd. apply Hl. rewrite map_length. split; [tauto|]. apply Forall_map.
    destruct Hd as [_ Hd]. revert Hd. apply Forall_impl. intros a. apply swap_bound; auto. }
  assert (P : Permutation l (map (map (swap i j)) l)).
  { apply NoDup_Permutation; [apply Hl| |].
    - apply FinFun.Injective_map_NoDup; [|apply Hl]. intros a b E.
      assert (I : forall d, map (swap i j) (map (swap i j) d) = d).
      { intros d. rewrite map_map. rewrite <- (map_id d) at 2. apply map_ext. intros. apply swap_invol. }
      rewrite <- (I a), <- (I b), E. reflexivity.
    - intros d. rewrite in_map_iff. split.
      + intros Hd. exists (map (swap i j) d). split; [|auto]. rewrite map_map. rewrite <- (map_id d) at 2.
        apply map_ext. intros. apply swap_invol.
      + intros (d' & <- & Hd'). auto. }
  rewrite (perm_filter_length bi _ _ P), filter_map_comp, map_length. apply filter_ext_len.
  intros d Hd. apply bool_iff. rewrite (Hbi _ (Hin d Hd)), (Hbj d Hd). apply turn_swap.
Qed.
End Ties.

(** ** Uniform crossover *)
Fixpoint mixed {G} (mask : list bool) (a b : list G) : list G :=
  match mask, a, b with
  | m :: mask', x :: a', y :: b' => (if m then y else x) :: mixed mask' a' b'
  | _, _, _ => []
  end.

Lemma assign_mixed {G} (mask : list bool) : forall (a b : list G), length a = length mask -> length b = length mask ->
  assign_mask mask a (select_mask mask b) = mixed mask a b.
Proof.
  induction mask as [|m mask IH]; intros [|x a] [|y b] Ha Hb; try discriminate; [reflexivity|].
  cbn in Ha, Hb. cbn. destruct m; f_equal; apply IH; lia.
Qed.

Lemma recombine_mixed {G} (mask : list bool) (a b : list G) : length a = length mask -> length b = length mask ->
  uniform_recombine mask a b = Ok (mixed mask a b, mixed mask b a).
Proof.
  intros Ha Hb. unfold uniform_recombine. rewrite Ha, Hb, Nat.eqb_refl. cbn.
  rewrite !assign_mixed by auto. reflexivity.
Qed.

Section Xover.
Local Open Scope Q_scope.

Lemma qsum_app l m : qsum (l ++ m) == qsum l + qsum m.
Proof. unfold qsum. induction l as [|x l IH]; cbn [app fold_right]; [ring|]. rewrite IH. ring. Qed.

Lemma qsum_perm l m : Permutation l m -> qsum l == qsum m.
Proof.
  unfold qsum. induction 1 as [|x l m P IH|x y l|l m r P1 IH1 P2 IH2]; cbn [fold_right].
  - reflexivity.
  - rewrite IH. reflexivity.
  - ring.
  - rewrite IH1. exact IH2.
Qed.

Lemma qsum_scale {A} (w : A -> Q) c l : qsum (map (fun a => c * w a) l) == c * qsum (map w l).
Proof. unfold qsum. induction l as [|x l IH]; cbn [map fold_right]; [ring|]. rewrite IH. ring. Qed.

Lemma perm_filter {A} (p : A -> bool) l m : Permutation l m -> Permutation (filter p l) (filter p m).
Proof.
  induction 1 as [|x l m P IH|x y l|l m r P1 IH1 P2 IH2]; cbn; auto.
  - destruct (p x); auto.
  - destruct (p x), (p y); auto. apply perm_swap.
  - eapply perm_trans; eauto.
Qed.

Variables (G : Type) (eq_dec : forall x y : G, {x = y} + {x <> y}) (p : Q).

Definition same (c d : list G) : bool := if list_eq_dec eq_dec c d then true else false.

Lemma same_true c d : same c d = true <-> c = d.
Proof. unfold same. destruct (list_eq_dec eq_dec c d); intuition congruence. Qed.

Lemma same_cons x c y d : same (x :: c) (y :: d) = (if eq_dec x y then true else false) && same c d.
Proof.
  apply bool_iff. rewrite andb_true_iff, !same_true. destruct (eq_dec x y); intuition congruence.
Qed.

Lemma chance_step (w : list bool -> Q) (q : bool -> bool) (r : list bool -> bool) t :
  (forall b m, w (b :: m) = (if b then p else 1 - p) * w m) ->
  qsum (map w (filter (fun m => match m with [] => false | b :: m' => q b && r m' end) (map (cons false) t ++ map (cons true) t)))
  == ((if q false then 1 - p else 0) + (if q true then p else 0)) * qsum (map w (filter r t)).
Proof.
  intros Hw. rewrite filter_app, map_app, qsum_app, !filter_map_comp, !map_map.
  assert (E : forall b, qsum (map (fun x => w (b :: x)) (filter (fun x => q b && r x) t))
     == (if q b then (if b then p else 1 - p) else 0) * qsum (map w (filter r t))).
  { intros b. destruct (q b); cbn [andb].
    - rewrite (map_ext _ (fun x => (if b then p else 1 - p) * w x)) by (intros; apply Hw).
      apply (qsum_scale w).
    - replace (filter (fun _ => false) t) with (@nil (list bool)) by (clear; induction t; auto). cbn [map]. change (qsum []) with 0. ring. }
  rewrite (E false), (E true). destruct (q false), (q true); ring.
Qed.

Lemma mass_tuples : forall a b c : list G, length b = length a -> length c = length a ->
  qsum (map (mask_chance p) (filter (fun m => same (mixed m a b) c) (tuples [false; true] (length a))))
  == qprod (map (gene_chance eq_dec p) (combine (combine a b) c)).
Proof.
  induction a as [|x a IH]; intros [|y b] [|z c] Hb Hc; try discriminate.
  - reflexivity.
  - cbn in Hb, Hc. cbn [length tuples flat_map]. rewrite app_nil_r.
    rewrite (filter_ext_in _ (fun m => match m with [] => false | e :: m' =>
      (fun e : bool => if eq_dec (if e then y else x) z then true else false) e && (fun m' => same (mixed m' a b) c) m' end)).
    2:{ intros m Hm. rewrite in_app_iff, !in_map_iff in Hm.
        destruct Hm as [(m' & <- & _)|(m' & <- & _)]; cbn [mixed]; apply same_cons. }
    rewrite (chance_step (mask_chance p)) by (intros; reflexivity).
    rewrite IH by lia. cbn [combine map]. unfold qprod at 2. cbn [fold_right]. fold (qprod (map (gene_chance eq_dec p) (combine (combine a b) c))).
    apply Qmult_comp; [|reflexivity]. unfold gene_chance.
    destruct (eq_dec x y), (eq_dec z x), (eq_dec z y), (eq_dec x z), (eq_dec y z); try congruence; try ring.
Qed.

Lemma uniform_odds (a b c : list G) l : length b = length a -> length c = length a -> all_masks (length a) l ->
  chance_of (mask_chance p) (fun mask => exists c', uniform_recombine mask a b = Ok (c, c')) l
    (qprod (map (gene_chance eq_dec p) (combine (combine a b) c))).
Proof.
  intros Hb Hc Hl. exists (fun m => same (mixed m a b) c). split.
  - intros m Hm. apply Hl in Hm. rewrite same_true, recombine_mixed by congruence. split.
    + intros <-. eexists. reflexivity.
    + intros (c' & E). congruence.
  - rewrite <- mass_tuples by auto. apply qsum_perm, Permutation_map, perm_filter, masks_perm, Hl.
Qed.

Lemma masks_total n l : all_masks n l -> qsum (map (mask_chance p) l) == 1.
Proof.
  intros Hl. rewrite (qsum_perm _ _ (Permutation_map _ (masks_perm n l Hl))). clear Hl. induction n as [|n IH].
  - reflexivity.
  - cbn [tuples flat_map]. rewrite app_nil_r.
    assert (E := chance_step (mask_chance p) (fun _ => true) (fun _ => true) (tuples [false; true] n) (fun _ _ => eq_refl)).
    assert (F : forall t : list (list bool), filter (fun _ => true) t = t) by (induction t; cbn; congruence).
    rewrite F, IH in E. rewrite <- (F (map (cons false) _ ++ _)).
    rewrite (filter_ext_in _ (fun m => match m with [] => false | b :: m' => true && true end)).
    + rewrite E. ring.
    + intros m Hm. rewrite in_app_iff, !in_map_iff in Hm. destruct Hm as [(? & <- & _)|(? & <- & _)]; reflexivity.
Qed.
End Xover.
