From Coq Require Import Lia.
From Verif Require Import Model.Base Model.Decoders Spec.Decoders Proofs.Decoders.
Local Open Scope Z_scope.

Lemma gray_encode_negative v : gray_encode v = None <-> v < 0.
Proof.
  split.
  - intros H. destruct (Z_lt_le_dec v 0) as [|Hv]; [assumption|].
    destruct (Z.eq_dec v 0) as [->|Hne]; [discriminate|].
    rewrite (encode_xall (S (Z.to_nat (Z.log2 v)))) in H; [discriminate|].
    destruct (Z.log2_spec v) as [_ L]; [lia|]. assert (0 <= Z.log2 v) by apply Z.log2_nonneg.
    rewrite Nat2Z.inj_succ, Z2Nat.id by lia. lia.
  - intros H. unfold gray_encode. apply gray_loop_negative. rewrite shiftr1. apply Z.div_lt_upper_bound; lia.
Qed.

Lemma all_some_none {A} (l : list (option A)) : all_some l = None <-> In None l.
Proof.
  induction l as [|[x|] l IH]; cbn; [split; [discriminate|contradiction]| |tauto].
  destruct (all_some l) as [r|]; split; intros H; try discriminate; try tauto.
  destruct H as [H|H]; [discriminate|]. apply IH in H. discriminate.
Qed.

Lemma segments_error ds : forall c o g e, fst (decode_segments c ds o g) = Err e -> e = ValueError.
Proof.
  induction ds as [|d ds IH]; intros c o g e H; cbn [decode_segments] in H; [discriminate|].
  destruct (binary_to_int _ _) as [v|e0] eqn:E.
  - destruct (decode_segments _ _ _ _) as [[r|e1] c'] eqn:E2; cbn in H; [discriminate|]. injection H as <-.
    eapply IH. rewrite E2. reflexivity.
  - cbn in H. injection H as <-. unfold binary_to_int, dot in E. destruct (_ =? _)%nat; congruence.
Qed.

Lemma gray_endless ds c g : fst (decode_gray ds c g) = Err RuntimeError <->
  exists vs v, fst (decode_int ds c g) = Ok vs /\ In v vs /\ v < 0.
Proof.
  unfold decode_gray. destruct (decode_int ds c g) as [[vs|e] c'] eqn:E; cbn.
  - destruct (all_some (map gray_encode vs)) as [ws|] eqn:A.
    + split; [discriminate|]. intros (vs' & v & H & Hv & Hn). assert (vs' = vs) by congruence. subst vs'.
      apply gray_encode_negative in Hn. apply (in_map gray_encode) in Hv. rewrite Hn in Hv. apply all_some_none in Hv. congruence.
    + split; [|reflexivity]. intros _. apply all_some_none in A. apply in_map_iff in A. destruct A as (v & Hn & Hv).
      exists vs, v. split; [reflexivity|]. split; [exact Hv|]. apply gray_encode_negative. exact Hn.
  - split; [|intros (vs & v & H & _); discriminate]. intros H. injection H as ->. exfalso.
    assert (RuntimeError = ValueError); [|discriminate]. apply (segments_error ds c 0%nat g). unfold decode_int in E. rewrite E. reflexivity.
Qed.

Lemma wide_segment c b l : table c -> bits (b :: l) -> length l = 63%nat ->
  fst (decode_int [64%nat] c (b :: l)) = Ok [big_endian l - b * 2 ^ 63].
Proof.
  intros HT HB HL. unfold decode_int. cbn [decode_segments skipn].
  assert (EF : firstn 64 (b :: l) = b :: l) by (apply firstn_all2; cbn [length]; lia). rewrite EF.
  destruct (cache_table c (length (b :: l)) HT) as (m & -> & Hm).
  unfold binary_to_int, cache_or_new. rewrite powers_length.
  destruct (Nat.ltb_spec m (length (b :: l))); [lia|]. rewrite last_powers by (cbn [length] in *; lia).
  unfold dot. rewrite powers_length, Nat.eqb_refl. cbn [length]. rewrite powers_succ. cbn [combine map fold_right fst snd].
  inversion HB as [|? ? Hb HBl]; subst. rewrite dot_powers by (auto; lia). rewrite HL.
  assert (R := be_range l HBl). rewrite HL in R. change (Z.of_nat 63) with 63 in *.
  change (wrap64 (2 ^ 63)) with (- 2 ^ 63). cbn [fst bind].
  replace (b * - 2 ^ 63 + big_endian l) with (big_endian l - b * 2 ^ 63) by lia.
  rewrite wrap64_small; [reflexivity|]. destruct Hb as [->| ->]; lia.
Qed.

Lemma gray_half history b l : bits (b :: l) -> length l = 63%nat ->
  fst (decode_gray [64%nat] (decoder_history [64%nat] history) (b :: l)) = if b =? 0 then Ok [gray_value (b :: l)] else Err RuntimeError.
Proof.
  intros HB HL. assert (E := wide_segment (decoder_history [64%nat] history) b l (history_table _ _) HB HL).
  inversion HB as [|? ? Hb HBl]; subst. assert (R := be_range l HBl). rewrite HL in R. change (Z.of_nat 63) with 63 in R.
  destruct Hb as [->| ->]; cbn [Z.eqb].
  - replace (big_endian l - 0 * 2 ^ 63) with (big_endian (0 :: l)) in E by (rewrite be_cons; lia).
    unfold decode_gray. destruct (decode_int _ _ _) as [r c']. cbn [fst] in *. rewrite E. cbn [bind map all_some].
    rewrite gray_encode_bits by exact HB. reflexivity.
  - apply gray_endless. exists [big_endian l - 1 * 2 ^ 63], (big_endian l - 1 * 2 ^ 63). split; [exact E|]. split; [left; reflexivity|lia].
Qed.

From Verif Require Import Model.Counters Model.Problems Model.CoopRun.
Notation num := Model.Base.num.
Local Open Scope nat_scope.

Section Initial.
Context {G : Type}.
Variable sel : nat -> nat -> nat -> list (list (option num)) -> nat -> nat -> list (Problems.cind G) -> nat -> result (Problems.cind G).
Variable num_trials : nat.
Variable combine : list (list G) -> result (list G).
Variable score : list G -> result num.
Variable subpops : list (list (member G)).
Variable current : nat.
Notation evaluated i k m := (Problems.coop_evaluate (sel 0 i k (map (map m_fit) subpops)) combine score false num_trials (m_ind m)
    current (map (map m_ind) subpops)).

Lemma initial_pop_members i pop : forall k0 r, initial_pop sel num_trials combine score (Some (subpops, current)) i k0 pop = Ok r ->
  length r = length pop /\
  forall k m, nth_error pop k = Some m ->
    exists f, nth_error r k = Some (mk_member (m_ind m) (Some f)) /\ evaluated i (k0 + k) m = Ok f.
Proof.
  induction pop as [|m pop IH]; intros k0 r H; cbn [initial_pop] in H.
  - injection H as <-. split; [reflexivity|]. intros [|k] m H; discriminate.
  - destruct (Problems.coop_evaluate _ _ _ _ _ _ _ _) as [f|e] eqn:E; [|discriminate]. cbn [bind] in H.
    destruct (initial_pop _ _ _ _ _ _ _ _) as [r'|e] eqn:E2; [|discriminate]. cbn [bind] in H.
    assert (Er : mk_member (m_ind m) (Some f) :: r' = r) by congruence. subst r.
    destruct (IH _ _ E2) as [L HM]. split; [cbn; lia|]. intros [|k] x Hx; cbn in Hx.
    + assert (x = m) by congruence. subst x. exists f. rewrite Nat.add_0_r. auto.
    + destruct (HM k x Hx) as (f' & A & B). exists f'. split; [exact A|]. replace (k0 + S k) with (S k0 + k) by lia. exact B.
Qed.

Lemma initial_members created : forall i0 r, initial_pops sel num_trials combine score (Some (subpops, current)) i0 created = Ok r ->
  length r = length created /\
  forall i pop, nth_error created i = Some pop -> exists pop', nth_error r i = Some pop' /\ length pop' = length pop /\
  forall k m, nth_error pop k = Some m ->
    exists f, nth_error pop' k = Some (mk_member (m_ind m) (Some f)) /\ evaluated (i0 + i) k m = Ok f.
Proof.
  induction created as [|p created IH]; intros i0 r H; cbn [initial_pops] in H.
  - injection H as <-. split; [reflexivity|]. intros [|k] m H; discriminate.
  - destruct (initial_pop _ _ _ _ _ _ _ _) as [p'|e] eqn:E; [|discriminate]. cbn [bind] in H.
    destruct (initial_pops _ _ _ _ _ _ _) as [r'|e] eqn:E2; [|discriminate]. cbn [bind] in H.
    assert (Er : p' :: r' = r) by congruence. subst r.
    destruct (IH _ _ E2) as [L HM]. destruct (initial_pop_members _ _ _ _ E) as [Lp HP]. split; [cbn; lia|]. intros [|i] x Hx; cbn in Hx.
    + assert (x = p) by congruence. subst x. exists p'. rewrite Nat.add_0_r. split; [reflexivity|]. split; [exact Lp|]. exact HP.
    + destruct (HM i x Hx) as (q & A & B & C). exists q. split; [exact A|]. split; [exact B|]. replace (i0 + S i) with (S i0 + i) by lia. exact C.
Qed.
End Initial.

(** a run of no generations shows its initial populations *)
Lemma left_over_scores {G} pick mutate uuid sel num_trials size combine score chunk max_generations stop
    (subpops created final : list (list (member G))) current gc evss : (max_generations <= 0)%Z ->
  coop_problem_run_default pick mutate uuid sel num_trials size combine score chunk max_generations stop (Some (subpops, current)) created =
    Some (Ok final, gc, evss) ->
  length final = length created /\
  forall i pop, nth_error created i = Some pop -> exists pop', nth_error final i = Some pop' /\ length pop' = length pop /\
  forall k m, nth_error pop k = Some m ->
    exists f, nth_error pop' k = Some (mk_member (m_ind m) (Some f)) /\
      Problems.coop_evaluate (sel 0 i k (map (map m_fit) subpops)) combine score false num_trials (m_ind m)
        current (map (map m_ind) subpops) = Ok f.
Proof.
  intros Hm H. unfold coop_problem_run_default in H.
  destruct (initial_pops _ _ _ _ _ _ _) as [r|e] eqn:E; [|discriminate].
  assert (Er : r = final).
  { unfold Algorithm.multi_population_ea in H. replace (Z.to_nat max_generations) with 0 in H by lia.
    cbn [Algorithm.mp_loop] in H. change (gc_generation (inc_generation 0)) with 0%Z in H.
    destruct (Z.ltb_spec 0 max_generations); [lia|]. congruence. }
  subst r. exact (initial_members sel num_trials combine score subpops current created 0 final E).
Qed.
