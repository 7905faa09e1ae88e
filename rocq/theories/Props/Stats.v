(** Property C73: the statistical helpers *)
From Verif Require Import Model.Base Model.Transfer Model.Stats Spec.Transfer Spec.Stats Proofs.Stats.
From Coq Require Import Sorted Lqa.

(** collect_distribution counts every output of the function, and the counts add up to the number of samples *)
Theorem C73_collect {S} (f : S -> result Z * S) os s s' : calls f s os s' ->
  exists d, collect_distribution f (length os) s = (Ok d, s') /\ dict d /\ (forall k, In k (map fst d) <-> In k os) /\
    (forall k v, In (k, v) d -> (v == inject_Z (Z.of_nat (count_occ Z.eq_dec os k)))%Q) /\
    (sumQ (map snd d) == inject_Z (Z.of_nat (length os)))%Q.
Proof. exact (collect_spec f os s s'). Qed.
Print Assumptions C73_collect.
Theorem C73_collect_raises {S} (f : S -> result Z * S) os s s1 e s2 n : calls f s os s1 -> f s1 = (Err e, s2) -> length os < n ->
  collect_distribution f n s = (Err e, s2).
Proof. exact (collect_err f os s s1 e s2 n). Qed.
Print Assumptions C73_collect_raises.
Example C73_collect_ex : fst (collect_distribution (fun s => (Ok (Z.of_nat (s mod 3)), S s)) 7 1) = Ok [(1%Z, 3%Q); (2%Z, 2%Q); (0%Z, 2%Q)].
Proof. reflexivity. Qed.

(** _normalize_dicts aligns the amounts of the two dicts over all their keys, in ascending order; both dicts end up with all keys *)
Theorem C73_normalize d1 d2 : dict d1 -> dict d2 -> exists ks v1 v2 d1' d2',
  normalize_dicts d1 d2 = (Ok (v1, v2), (d1', d2')) /\ all_keys d1 d2 ks /\
  Forall2 (amount d1) ks v1 /\ Forall2 (amount d2) ks v2 /\ padded d1 d1' ks /\ padded d2 d2' ks /\
  (sumQ (map snd d1') == sumQ (map snd d1))%Q /\ (sumQ (map snd d2') == sumQ (map snd d2))%Q.
Proof. exact (normalize_spec d1 d2). Qed.
Print Assumptions C73_normalize.
Example C73_normalize_ex : normalize_dicts [(5%Z, 2%Q); (1%Z, 3%Q)] [(1%Z, 4%Q); (0%Z, 1%Q)] =
  (Ok ([0; 3; 2]%Q, [1; 4; 0]%Q), ([(5%Z, 2%Q); (1%Z, 3%Q); (0%Z, 0%Q)], [(1%Z, 4%Q); (0%Z, 1%Q); (5%Z, 0%Q)])).
Proof. reflexivity. Qed.

(** stochastic_equals compares directly when there is one key, raises when the totals differ, and otherwise lets the tail of
    the chi-squared distribution at Pearson's statistic decide *)
Theorem C73_verdict tail e o p ks ov ev : dict e -> dict o -> all_keys o e ks -> Forall2 (amount o) ks ov -> Forall2 (amount e) ks ev ->
  (length ks = 1 -> exists b, fst (stochastic_equals tail e o p) = Ok b /\ (b = true <-> Forall2 Qeq ov ev)) /\
  (length ks <> 1 -> ~ (sumQ (map snd e) == sumQ (map snd o))%Q -> fst (stochastic_equals tail e o p) = Err AssertionError) /\
  (length ks <> 1 -> (sumQ (map snd e) == sumQ (map snd o))%Q -> Forall (fun x => ~ x == 0)%Q ev ->
     exists x, is_value x (pearson ov ev) /\
       fst (stochastic_equals tail e o p) = Ok (negb (num_ltb (tail (Z.of_nat (length ks) - 1)%Z x) (NFlt true (Fin p))))).
Proof. exact (equals_verdict tail e o p ks ov ev). Qed.
Print Assumptions C73_verdict.

(** equal distributions are accepted, whatever the threshold *)
Theorem C73_equal_accepted tail e o p k0 : chi_tail_ok tail -> dict e -> dict o -> (p <= 1)%Q -> in_either o e k0 ->
  (forall k v w, amount o k v -> amount e k w -> (v == w)%Q) -> (forall k w, in_either o e k -> amount e k w -> ~ (w == 0)%Q) ->
  fst (stochastic_equals tail e o p) = Ok true.
Proof. exact (fun H => accepts_equal tail H e o p k0). Qed.
Print Assumptions C73_equal_accepted.

(** an outcome that is expected never but does occur is rejected, whatever the threshold, if no key has amount 0 on both sides *)
Theorem C73_impossible_rejected tail e o p k0 : chi_tail_ok tail -> dict e -> dict o -> (0 < p)%Q -> in_either o e k0 -> amount e k0 0%Q ->
  (sumQ (map snd e) == sumQ (map snd o))%Q -> (exists k1, k1 <> k0 /\ in_either o e k1) ->
  (forall k v w, in_either o e k -> amount o k v -> amount e k w -> (w == 0)%Q -> ~ (v == 0)%Q) ->
  fst (stochastic_equals tail e o p) = Ok false.
Proof. exact (fun H => rejects_impossible tail H e o p k0). Qed.
Print Assumptions C73_impossible_rejected.

(** equals_uniform never raises on a non-empty dict with a non-zero total (in exact arithmetic), leaves it alone, and uses
    the statistic for equal shares *)
Theorem C73_uniform tail o p ks ov : dict o -> all_keys o o ks -> Forall2 (amount o) ks ov -> ~ (sumQ ov == 0)%Q ->
  let mean := (sumQ ov / inject_Z (Z.of_nat (length ks)))%Q in
  snd (equals_uniform tail o p) = o /\
  (length ks = 1 -> fst (equals_uniform tail o p) = Ok true) /\
  (length ks <> 1 -> exists x, is_value x (sumQ (map (fun v => (v - mean) * (v - mean) / mean) ov)%Q) /\
     fst (equals_uniform tail o p) = Ok (negb (num_ltb (tail (Z.of_nat (length ks) - 1)%Z x) (NFlt true (Fin p))))).
Proof. exact (uniform_verdict tail o p ks ov). Qed.
Print Assumptions C73_uniform.

Example C73_examples : chi_tail_ok ex_tail /\
  fst (stochastic_equals ex_tail ex_observed ex_observed 1%Q) = Ok true /\
  fst (stochastic_equals ex_tail ex_second ex_observed (1 # 100)%Q) = Ok false /\
  fst (stochastic_equals ex_tail [(1, 4%Q)]%Z [(1, 3%Q)]%Z 0%Q) = Ok false /\
  fst (stochastic_equals ex_tail [(1, 4%Q); (2, 1%Q)]%Z [(1, 4%Q)]%Z 0%Q) = Err AssertionError /\
  fst (equals_uniform ex_tail [(1, 4%Q); (2, 2%Q)]%Z (1 # 2)%Q) = Ok true /\
  fst (equals_uniform ex_tail [(1, 5%Q); (2, 1%Q)]%Z (1 # 2)%Q) = Ok false.
Proof.
  split.
  { split; [|split; [|reflexivity]].
    - intros k x _ (q & E & H). unfold ex_tail. rewrite E. eexists. split; [reflexivity|]. rewrite H. reflexivity.
    - intros k b _. exists 0%Q. split; reflexivity. }
  repeat split; vm_compute; reflexivity.
Qed.

(** when a key has amount 0 on both sides the statistic is NaN, no comparison with it holds, and any two distributions with
    equal totals are found equal *)
Theorem C73_zero_cell_accepts_anything tail e o p k0 k1 : chi_tail_ok tail -> dict e -> dict o -> in_either o e k0 -> amount o k0 0%Q -> amount e k0 0%Q ->
  k1 <> k0 -> in_either o e k1 -> (sumQ (map snd e) == sumQ (map snd o))%Q -> fst (stochastic_equals tail e o p) = Ok true.
Proof. exact (nan_accepts tail e o p k0 k1). Qed.
Print Assumptions C73_zero_cell_accepts_anything.
Theorem C73_different_rejected_refuted : exists e o, dict e /\ dict o /\ amount e 1 10%Q /\ amount o 1 0%Q /\ amount e 2 0%Q /\ amount o 2 10%Q /\
  forall tail p, chi_tail_ok tail -> fst (stochastic_equals tail e o p) = Ok true.
Proof.
  exists [(0, 0%Q); (1, 10%Q); (2, 0%Q)]%Z, [(0, 0%Q); (1, 0%Q); (2, 10%Q)]%Z.
  assert (D : forall a b c : Q, dict [(0, a); (1, b); (2, c)]%Z).
  { intros a b c. unfold dict. cbn. constructor; [cbn; intros [H|[H|[]]]; discriminate|]. constructor; [cbn; intros [H|[]]; discriminate|]. constructor; [intros []|constructor]. }
  split; [apply D|]. split; [apply D|]. split; [left; cbn; auto|]. split; [left; cbn; auto|]. split; [left; cbn; auto|]. split; [left; cbn; auto|].
  intros tail p T. apply (nan_accepts tail _ _ p 0%Z 1%Z T); [apply D|apply D| | | |discriminate| |reflexivity]; try (left; cbn; auto).
Qed.
Print Assumptions C73_different_rejected_refuted.

(** comparing adds keys to the caller's dicts, so the same observations can be rejected at first and accepted after they
    were compared with something else *)
Theorem C73_comparison_repeatable_refuted : exists o e1 e2, dict o /\ dict e1 /\ dict e2 /\ forall tail p, chi_tail_ok tail -> (0 < p)%Q ->
  fst (stochastic_equals tail e2 o p) = Ok false /\
  fst (stochastic_equals tail e2 (snd (snd (stochastic_equals tail e1 o p))) p) = Ok true.
Proof.
  exists ex_observed, ex_first, ex_second.
  assert (D1 : dict ex_observed) by (unfold dict; cbn; constructor; [cbn; intros [H|[]]; discriminate|constructor; [intros []|constructor]]).
  assert (D3 : dict ex_second) by (unfold dict; cbn; constructor; [cbn; intros [H|[]]; discriminate|constructor; [intros []|constructor]]).
  assert (D2 : forall a b c : Q, dict [(0, a); (1, b); (2, c)]%Z).
  { intros a b c. unfold dict. cbn. constructor; [cbn; intros [H|[H|[]]]; discriminate|]. constructor; [cbn; intros [H|[]]; discriminate|]. constructor; [intros []|constructor]. }
  split; [exact D1|]. split; [apply D2|]. split; [exact D3|]. intros tail p T Hp. split.
  - apply (rejects_impossible tail T _ _ p 1%Z D3 D1 Hp).
    + left. cbn. auto.
    + right. split; [cbn; intros [H|[H|[]]]; discriminate|reflexivity].
    + reflexivity.
    + exists 0%Z. split; [discriminate|left; cbn; auto].
    + intros k v w I A B Z0. apply amount_get in A; [|exact D1]. apply amount_get in B; [|exact D3].
      assert (K : k = 0%Z \/ k = 1%Z \/ k = 3%Z) by (destruct I as [I|I]; cbn in I; intuition auto).
      destruct K as [->|[->| ->]]; cbn in A, B; subst; lra.
  - change (snd (snd (stochastic_equals tail ex_first ex_observed p))) with [(0, 10%Q); (1, 10%Q); (2, 0%Q)]%Z.
    apply (nan_accepts tail _ _ p 2%Z 0%Z T); [exact D3|apply D2| | | |discriminate| |reflexivity].
    + left. cbn. auto.
    + left. cbn. auto.
    + right. split; [cbn; intros [H|[H|[]]]; discriminate|reflexivity].
    + left. cbn. auto.
Qed.
Print Assumptions C73_comparison_repeatable_refuted.

(** equals_gaussian gives the t test the mean and the mean squared deviation of the sample, and says yes when the p-value exceeds p *)
Theorem C73_gaussian t_tail l rm rs rn p : l <> [] ->
  (sample_mean l * inject_Z (Z.of_nat (length l)) == sumQ l)%Q /\
  (sample_var l * inject_Z (Z.of_nat (length l)) == sumQ (map (fun x => (x - sample_mean l) * (x - sample_mean l)) l))%Q /\
  (equals_gaussian t_tail l rm rs rn p = true <->
   match num_val (t_tail (sample_mean l) (sample_var l) (length l) rm (rs * rs)%Q rn) with
   | Some (Fin q) => (p < q)%Q | Some PInf => True | _ => False end).
Proof. exact (fun H => conj (sample_mean_spec l H) (conj (sample_var_spec l H) (gaussian_spec t_tail l rm rs rn p))). Qed.
Print Assumptions C73_gaussian.
(** which is not the corrected sample variance that the test from statistics is defined with *)
Theorem C73_gaussian_corrected_variance_refuted : exists l, 2 <= length l /\
  ~ (sample_var l * inject_Z (Z.of_nat (length l) - 1) == sumQ (map (fun x => (x - sample_mean l) * (x - sample_mean l)) l))%Q.
Proof. exists [0; 2]%Q. split; [repeat constructor|]. vm_compute. discriminate. Qed.
Print Assumptions C73_gaussian_corrected_variance_refuted.
Example C73_gaussian_ex : equals_gaussian (fun m v n rm rv rn => if Qeq_bool m rm && Qeq_bool v rv then NFlt false (Fin 1%Q) else NFlt false (Fin 0%Q)) [1; 3]%Q 2%Q 1%Q 5 (1 # 2)%Q = true.
Proof. reflexivity. Qed.
