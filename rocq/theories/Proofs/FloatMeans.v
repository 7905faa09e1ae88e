From Verif Require Import Model.Base Model.Rules Model.Floats Model.FloatMeans Spec.Floats Spec.FloatMeans Proofs.Order Proofs.Floats Proofs.FloatUses Proofs.FloatChoices.
From Coq Require Import QArith Qabs Qpower Lia Lqa Qfield Setoid Morphisms Permutation.
Local Open Scope Q_scope.

Lemma nth_mono l l' : Forall2 Qle l l' -> forall i, nth i l 0 <= nth i l' 0.
Proof. intros F. induction F as [|x y l l' H F IH]; intros [|i]; cbn; try apply Qle_refl; auto. Qed.
Lemma sum_in_mono o l l' : Forall2 Qle l l' -> sum_in o l <= sum_in o l'.
Proof. intros F. induction o as [i|a IHa b IHb]; cbn [sum_in]; [apply nth_mono, F|]. apply rnd_mono. lra. Qed.
Lemma F2_length {A B} (R : A -> B -> Prop) l l' : Forall2 R l l' -> length l = length l'.
Proof. intros F. induction F; cbn; congruence. Qed.
Lemma div_mono a b n : (1 <= n)%Z -> a <= b -> fdiv a (of_int n) <= fdiv b (of_int n).
Proof.
  intros Hn H. assert (1 <= of_int n) by (apply of_int_pos, Hn). apply rnd_mono. unfold Qdiv. apply Qmult_le_compat_r; [exact H|].
  apply Qlt_le_weak, Qinv_lt_0_compat. lra.
Qed.
Lemma mean_in_mono o l l' : l <> [] -> Forall2 Qle l l' -> mean_in o l <= mean_in o l'.
Proof.
  intros N F. unfold mean_in. rewrite (F2_length _ _ _ F). apply div_mono; [rewrite <- (F2_length _ _ _ F); destruct l; [congruence|cbn; lia]|].
  apply sum_in_mono, F.
Qed.

(** whole numbers *)
Definition picked (o : adding) (zs : list Z) : Z := Zsum (map (fun i => nth i zs 0%Z) (items o)).
Lemma Zsum_app a b : Zsum (a ++ b) = (Zsum a + Zsum b)%Z.
Proof. induction a as [|x a IH]; cbn [app Zsum fold_right]; [reflexivity|]. fold (Zsum (a ++ b)) (Zsum a). rewrite IH. lia. Qed.
Lemma Zsum_perm a b : Permutation a b -> Zsum a = Zsum b.
Proof. intros P. induction P; cbn [Zsum fold_right] in *; repeat fold (Zsum l) in *; try fold (Zsum l') in *; lia. Qed.
Definition size_picked (o : adding) (zs : list Z) : Z := Zsum (map (fun i => Z.abs (nth i zs 0%Z)) (items o)).
Lemma picked_size o zs : (Z.abs (picked o zs) <= size_picked o zs)%Z.
Proof.
  unfold picked, size_picked. induction (items o) as [|i is IH]; cbn [map Zsum fold_right]; [lia|].
  fold (Zsum (map (fun i => nth i zs 0%Z) is)) (Zsum (map (fun i => Z.abs (nth i zs 0%Z)) is)). lia.
Qed.
Lemma nth_inject zs i : nth i (map inject_Z zs) 0 = inject_Z (nth i zs 0%Z).
Proof. change 0 with (inject_Z 0). apply map_nth. Qed.
Lemma sum_in_int o zs : (size_picked o zs <= 2 ^ 53)%Z -> sum_in o (map inject_Z zs) == inject_Z (picked o zs).
Proof.
  induction o as [i|a IHa b IHb]; intros H; cbn [sum_in].
  - rewrite nth_inject. unfold picked. cbn [items map Zsum fold_right]. rewrite Z.add_0_r. reflexivity.
  - assert (E : picked (Plus a b) zs = (picked a zs + picked b zs)%Z) by (unfold picked; cbn [items]; rewrite map_app; apply Zsum_app).
    assert (E' : size_picked (Plus a b) zs = (size_picked a zs + size_picked b zs)%Z) by (unfold size_picked; cbn [items]; rewrite map_app; apply Zsum_app).
    assert (A := picked_size a zs). assert (B := picked_size b zs). rewrite E' in H. rewrite E.
    unfold fadd. rewrite IHa, IHb, <- inject_Z_plus by lia. apply rnd_id, b64_int. lia.
Qed.
Lemma map_nth_seq {A} (l : list A) d : map (fun i => nth i l d) (seq 0 (length l)) = l.
Proof.
  induction l as [|x l IH]; [reflexivity|]. cbn [length seq map nth]. f_equal. rewrite <- seq_shift, map_map. exact IH.
Qed.
Lemma picked_all o zs : covers o (length zs) -> picked o zs = Zsum zs.
Proof.
  intros C. unfold picked. rewrite (Zsum_perm _ (map (fun i => nth i zs 0%Z) (seq 0 (length zs)))) by (apply Permutation_map, C).
  rewrite map_nth_seq. reflexivity.
Qed.
Lemma size_picked_all o zs : covers o (length zs) -> size_picked o zs = Zsum (map Z.abs zs).
Proof.
  intros C. unfold size_picked. rewrite (Zsum_perm _ (map (fun i => Z.abs (nth i zs 0%Z)) (seq 0 (length zs)))) by (apply Permutation_map, C).
  rewrite <- (map_map (fun i => nth i zs 0%Z) Z.abs), map_nth_seq. reflexivity.
Qed.
Lemma mean_in_nearest o zs : zs <> [] -> covers o (length zs) -> (Zsum (map Z.abs zs) <= 2 ^ 53)%Z ->
  (Z.of_nat (length zs) <= 2 ^ 53)%Z ->
  nearest (inject_Z (Zsum zs) / inject_Z (Z.of_nat (length zs))) (mean_in o (map inject_Z zs)).
Proof.
  intros N C H L. apply (nearest_comp _ _ (rnd (inject_Z (Zsum zs) / inject_Z (Z.of_nat (length zs))))); [|apply rnd_nearest].
  unfold mean_in, fdiv. rewrite map_length, of_int_id by lia. rewrite sum_in_int by (rewrite size_picked_all by exact C; exact H).
  rewrite picked_all by exact C. reflexivity.
Qed.
Lemma mean_in_constant o z n : (1 <= n)%nat -> covers o n -> (Z.of_nat n <= 2 ^ 53)%Z -> (Z.abs z * Z.of_nat n <= 2 ^ 53)%Z ->
  mean_in o (map inject_Z (repeat z n)) == inject_Z z.
Proof.
  intros Hn C N Z1. assert (Es : Zsum (repeat z n) = (z * Z.of_nat n)%Z).
  { clear. induction n as [|n IH]; [cbn; lia|]. cbn [repeat Zsum fold_right]. fold (Zsum (repeat z n)). rewrite IH. lia. }
  assert (Ea : Zsum (map Z.abs (repeat z n)) = (Z.abs z * Z.of_nat n)%Z).
  { clear. induction n as [|n IH]; [cbn; lia|]. cbn [repeat map Zsum fold_right]. fold (Zsum (map Z.abs (repeat z n))). rewrite IH. lia. }
  unfold mean_in, fdiv. rewrite map_length, repeat_length, of_int_id by lia.
  rewrite sum_in_int by (rewrite size_picked_all by (rewrite repeat_length; exact C); lia).
  rewrite picked_all by (rewrite repeat_length; exact C). rewrite Es, inject_Z_mult.
  assert (P : 0 < inject_Z (Z.of_nat n)) by (change 0 with (inject_Z 0); rewrite <- Zlt_Qlt; lia).
  setoid_replace (inject_Z z * inject_Z (Z.of_nat n) / inject_Z (Z.of_nat n)) with (inject_Z z) by (field; lra).
  apply rnd_id, b64_int. nia.
Qed.

(** the error in general *)
Definition picks (o : adding) (l : list Q) : list Q := map (fun i => nth i l 0) (items o).
Lemma exact_cons x l : exact_sum (x :: l) = x + exact_sum l. Proof. reflexivity. Qed.
Lemma size_cons x l : size_sum (x :: l) = Qabs x + size_sum l. Proof. reflexivity. Qed.
Lemma exact_app a b : exact_sum (a ++ b) == exact_sum a + exact_sum b.
Proof.
  induction a as [|x a IH]; cbn [app]; [change (exact_sum []) with 0; rewrite Qplus_0_l; reflexivity|]. rewrite !exact_cons.
  set (p := exact_sum (a ++ b)) in *. set (q := exact_sum a) in *. set (r := exact_sum b) in *. clearbody p q r. lra.
Qed.
Lemma size_app a b : size_sum (a ++ b) == size_sum a + size_sum b.
Proof.
  induction a as [|x a IH]; cbn [app]; [change (size_sum []) with 0; rewrite Qplus_0_l; reflexivity|]. rewrite !size_cons.
  set (p := size_sum (a ++ b)) in *. set (q := size_sum a) in *. set (r := size_sum b) in *. clearbody p q r. lra.
Qed.
Lemma exact_perm a b : Permutation a b -> exact_sum a == exact_sum b.
Proof. intros P. induction P; rewrite ?exact_cons; try lra. Qed.
Lemma size_perm a b : Permutation a b -> size_sum a == size_sum b.
Proof. intros P. induction P; rewrite ?size_cons; try lra. Qed.
Lemma size_nonneg l : 0 <= size_sum l.
Proof. induction l as [|x l IH]; [apply Qle_refl|]. rewrite size_cons. assert (H := Qabs_nonneg x). lra. Qed.
Lemma exact_size l : Qabs (exact_sum l) <= size_sum l.
Proof.
  induction l as [|x l IH]; [apply Qle_refl|]. rewrite exact_cons, size_cons.
  eapply Qle_trans; [apply Qabs_triangle|]. lra.
Qed.
Lemma sum_in_b64 o l : Forall binary64 l -> binary64 (sum_in o l).
Proof.
  intros F. destruct o as [i|a b]; cbn [sum_in]; [|apply rnd_b64]. destruct (nth_in_or_default i l 0) as [I| ->]; [|apply b64_0].
  rewrite Forall_forall in F. apply F, I.
Qed.
Lemma grow_ge h : 1 <= grow h.
Proof. induction h as [|h IH]; cbn [grow]; [apply Qle_refl|]. assert (E := eps_pos). assert (1 * (1 + eps) <= grow h * (1 + eps)) by (apply Qmult_le_compat_r; lra). lra. Qed.
Lemma grow_mono h k : (h <= k)%nat -> grow h <= grow k.
Proof.
  intros H. induction H as [|k H IH]; [apply Qle_refl|]. cbn [grow]. assert (G := grow_ge k). assert (E := eps_pos).
  assert (0 <= grow k * eps) by (apply Qmult_le_0_compat; lra). lra.
Qed.
Lemma sum_in_err o l : Forall binary64 l ->
  Qabs (sum_in o l - exact_sum (picks o l)) <= (grow (height o) - 1) * size_sum (picks o l).
Proof.
  intros F. induction o as [i|a IHa b IHb]; cbn [sum_in height grow].
  - unfold picks. cbn [items map exact_sum size_sum fold_right]. setoid_replace (nth i l 0 - (nth i l 0 + 0)) with 0 by ring. change (Qabs 0) with 0. lra.
  - unfold picks in *. cbn [items]. rewrite map_app.
    set (xa := map (fun i => nth i l 0) (items a)) in *. set (xb := map (fun i => nth i l 0) (items b)) in *.
    rewrite exact_app, size_app. set (h := Nat.max (height a) (height b)).
    assert (Ga : grow (height a) <= grow h) by (apply grow_mono; unfold h; lia).
    assert (Gb : grow (height b) <= grow h) by (apply grow_mono; unfold h; lia).
    assert (G := grow_ge h). assert (E := eps_pos). assert (Sa := size_nonneg xa). assert (Sb := size_nonneg xb).
    assert (Ia : Qabs (sum_in a l - exact_sum xa) <= (grow h - 1) * size_sum xa) by (eapply Qle_trans; [exact IHa|]; apply Qmult_le_compat_r; lra).
    assert (Ib : Qabs (sum_in b l - exact_sum xb) <= (grow h - 1) * size_sum xb) by (eapply Qle_trans; [exact IHb|]; apply Qmult_le_compat_r; lra).
    assert (R := add_rel _ _ (sum_in_b64 a l F) (sum_in_b64 b l F)). unfold within in R. fold (fadd (sum_in a l) (sum_in b l)) in R.
    set (va := sum_in a l) in *. set (vb := sum_in b l) in *. set (v := fadd va vb) in *.
    assert (Ea := exact_size xa). assert (Eb := exact_size xb).
    set (ea := exact_sum xa) in *. set (eb := exact_sum xb) in *. set (sa := size_sum xa) in *. set (sb := size_sum xb) in *. set (g := grow h) in *.
    clearbody ea eb sa sb g va vb v. clear IHa IHb Ga Gb.
    assert (T1 : Qabs (v - (ea + eb)) <= Qabs (v - (va + vb)) + Qabs (va - ea) + Qabs (vb - eb)).
    { setoid_replace (v - (ea + eb)) with ((v - (va + vb)) + (va - ea) + (vb - eb)) by ring. eapply Qle_trans; [apply Qabs_triangle|].
      assert (X := Qabs_triangle (v - (va + vb)) (va - ea)). lra. }
    assert (Va : Qabs va <= g * sa).
    { setoid_replace va with ((va - ea) + ea) by ring. eapply Qle_trans; [apply Qabs_triangle|]. lra. }
    assert (Vb : Qabs vb <= g * sb).
    { setoid_replace vb with ((vb - eb) + eb) by ring. eapply Qle_trans; [apply Qabs_triangle|]. lra. }
    assert (T2 : Qabs (va + vb) <= g * sa + g * sb) by (eapply Qle_trans; [apply Qabs_triangle|]; lra).
    assert (T3 : eps * Qabs (va + vb) <= eps * (g * sa + g * sb)) by (rewrite !(Qmult_comm eps); apply Qmult_le_compat_r; lra).
    assert (T4 : (g * (1 + eps) - 1) * (sa + sb) == eps * (g * sa + g * sb) + (g - 1) * sa + (g - 1) * sb) by ring.
    lra.
Qed.
Lemma sum_error o l : covers o (length l) -> Forall binary64 l ->
  Qabs (sum_in o l - exact_sum l) <= (grow (height o) - 1) * size_sum l.
Proof.
  intros C F. assert (P : Permutation (picks o l) l).
  { unfold picks. eapply Permutation_trans; [apply Permutation_map, C|]. rewrite map_nth_seq. apply Permutation_refl. }
  assert (E := sum_in_err o l F). rewrite (exact_perm _ _ P), (size_perm _ _ P) in E. exact E.
Qed.
(** a linear bound *)
Lemma grow_lin h : inject_Z (Z.of_nat h) * eps <= 1 # 4 -> grow h <= 1 + 2 * (inject_Z (Z.of_nat h) * eps).
Proof.
  induction h as [|h IH]; intros H; [vm_compute; discriminate|]. rewrite Nat2Z.inj_succ in *. unfold Z.succ in *. rewrite inject_Z_plus in *. change (inject_Z 1) with 1 in *.
  assert (E := eps_pos). assert (N : 0 <= inject_Z (Z.of_nat h)) by (change 0 with (inject_Z 0); rewrite <- Zle_Qle; lia).
  set (k := inject_Z (Z.of_nat h)) in *. clearbody k. cbn [grow]. assert (IH' : grow h <= 1 + 2 * (k * eps)) by (apply IH; lra).
  assert (0 <= k * eps) by (apply Qmult_le_0_compat; lra).
  assert (grow h * (1 + eps) <= (1 + 2 * (k * eps)) * (1 + eps)) by (apply Qmult_le_compat_r; lra).
  assert (k * eps * eps <= (1 # 4) * eps) by (apply Qmult_le_compat_r; lra). lra.
Qed.
Lemma sum_error_lin o l : covers o (length l) -> Forall binary64 l -> inject_Z (Z.of_nat (height o)) * eps <= 1 # 4 ->
  Qabs (sum_in o l - exact_sum l) <= 2 * inject_Z (Z.of_nat (height o)) * eps * size_sum l.
Proof.
  intros C F H. eapply Qle_trans; [apply sum_error; assumption|]. apply Qmult_le_compat_r; [|apply size_nonneg].
  assert (G := grow_lin _ H). lra.
Qed.
Lemma average_between o ev n lo hi : (1 <= n)%nat -> covers o n -> (Z.of_nat n <= 2 ^ 53)%Z ->
  (Z.abs lo * Z.of_nat n <= 2 ^ 53)%Z -> (Z.abs hi * Z.of_nat n <= 2 ^ 53)%Z ->
  (forall k, (k < n)%nat -> inject_Z lo <= ev k /\ ev k <= inject_Z hi) ->
  inject_Z lo <= average_f o ev n /\ average_f o ev n <= inject_Z hi.
Proof.
  intros Hn C Hn53 Hlo Hhi H. unfold average_f.
  assert (R : forall z, (Z.abs z * Z.of_nat n <= 2 ^ 53)%Z -> mean_in o (map (fun _ => inject_Z z) (seq 0 n)) == inject_Z z).
  { intros z Z1. assert (El : map (fun _ : nat => inject_Z z) (seq 0 n) = map inject_Z (repeat z n)).
    { clear. generalize 0%nat. induction n as [|n IH]; intros s; cbn; [reflexivity|]. f_equal. apply IH. }
    rewrite El. apply mean_in_constant; assumption. }
  assert (Nn : forall f : nat -> Q, map f (seq 0 n) <> []) by (intros f; destruct n; [lia|discriminate]).
  assert (M : forall f g : nat -> Q, (forall k, (k < n)%nat -> f k <= g k) -> Forall2 Qle (map f (seq 0 n)) (map g (seq 0 n))).
  { intros f g Hfg. assert (S : forall k, In k (seq 0 n) -> (k < n)%nat) by (intros k Hk; apply in_seq in Hk; lia).
    clear R Nn. induction (seq 0 n) as [|k ks IH]; cbn [map]; constructor; [apply Hfg, S; left; reflexivity|apply IH; intros; apply S; right; assumption]. }
  split.
  - rewrite <- (R lo) by lia. apply mean_in_mono; [apply Nn|]. apply M. intros k Hk. apply H, Hk.
  - rewrite <- (R hi) by lia. apply mean_in_mono; [apply Nn|]. apply M. intros k Hk. apply H, Hk.
Qed.

(** adding up from the left *)
Lemma left_fold l : forall ks pre o, ks = seq (length pre) (length l) ->
  sum_in (fold_left (fun o i => Plus o (Item i)) ks o) (pre ++ l) = fold_left fadd l (sum_in o (pre ++ l)).
Proof.
  induction l as [|x l IH]; intros ks pre o ->; cbn [length seq fold_left]; [reflexivity|].
  assert (E : pre ++ x :: l = (pre ++ [x]) ++ l) by (rewrite <- app_assoc; reflexivity).
  rewrite E. rewrite IH by (rewrite app_length, Nat.add_1_r; reflexivity). cbn [sum_in]. f_equal. f_equal.
  rewrite <- E, app_nth2, Nat.sub_diag by lia. reflexivity.
Qed.
#[local] Instance fadd_proper : Proper (Qeq ==> Qeq ==> Qeq) fadd.
Proof. intros a b H c d K. apply rnd_comp. rewrite H, K. reflexivity. Qed.
Lemma fold_fadd_comp l : forall a b, a == b -> fold_left fadd l a == fold_left fadd l b.
Proof. induction l as [|x l IH]; intros a b H; cbn [fold_left]; [exact H|]. apply IH. rewrite H. reflexivity. Qed.
Lemma mean_left l : l <> [] -> Forall binary64 l -> mean_f l == mean_in (from_left (length l)) l.
Proof.
  intros N F. destruct l as [|x l]; [congruence|]. unfold mean_f, mean_in, fdiv. apply rnd_comp. unfold Qdiv. apply Qmult_comp; [|reflexivity].
  unfold from_left. cbn [length]. rewrite Nat.sub_succ, Nat.sub_0_r.
  assert (E := left_fold l (seq 1 (length l)) [x] (Item 0) eq_refl). cbn [app] in E. rewrite E. cbn [sum_in nth fold_left].
  apply fold_fadd_comp. unfold fadd. transitivity (rnd x); [apply rnd_comp; ring|]. apply rnd_id. exact (Forall_inv F).
Qed.
Lemma left_items n : (1 <= n)%nat -> covers (from_left n) n.
Proof.
  intros H. unfold covers. enough (E : items (from_left n) = seq 0 n) by (rewrite E; apply Permutation_refl).
  unfold from_left. assert (G : forall ks o, items (fold_left (fun o i => Plus o (Item i)) ks o) = items o ++ ks).
  { induction ks as [|k ks IH]; intros o; cbn [fold_left]; [rewrite app_nil_r; reflexivity|]. rewrite IH. cbn [items]. rewrite <- app_assoc. reflexivity. }
  rewrite G. destruct n; [lia|]. cbn [items app seq]. rewrite Nat.sub_succ, Nat.sub_0_r. reflexivity.
Qed.

Lemma height_items o : (height o < length (items o))%nat.
Proof. induction o; cbn [height items length]; [lia|]. rewrite app_length. lia. Qed.
Lemma height_covers o n : covers o n -> (height o < n)%nat.
Proof. intros C. apply Permutation_length in C. rewrite seq_length in C. rewrite <- C. apply height_items. Qed.
Lemma sum_in_nonneg o l : Forall (fun x => 0 <= x) l -> 0 <= sum_in o l.
Proof.
  intros F. induction o as [i|a IHa b IHb]; cbn [sum_in].
  - destruct (nth_in_or_default i l 0) as [I| ->]; [|apply Qle_refl]. rewrite Forall_forall in F. apply F, I.
  - apply rnd_nonneg. lra.
Qed.
Lemma sum_in_ge o l i : Forall binary64 l -> Forall (fun x => 0 <= x) l -> In i (items o) -> nth i l 0 <= sum_in o l.
Proof.
  intros B F. assert (Bi : binary64 (nth i l 0)).
  { destruct (nth_in_or_default i l 0) as [I| ->]; [|apply b64_0]. rewrite Forall_forall in B. apply B, I. }
  induction o as [k|a IHa b IHb]; cbn [items sum_in].
  - intros [->|[]]. apply Qle_refl.
  - intros H. apply in_app_or in H. assert (A := sum_in_nonneg a l F). assert (A' := sum_in_nonneg b l F). apply rnd_ge_b; [exact Bi|].
    destruct H as [H|H]; [apply IHa in H|apply IHb in H]; lra.
Qed.
