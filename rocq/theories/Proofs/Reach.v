From Coq Require Import Lia Lqa Permutation Qfield.
From Verif Require Import Model.Base Model.PyList Model.Scalar Model.Variation Model.Heap Model.Pipeline Model.HeapEa
  Model.Executable Spec.Variation Spec.Heap Spec.HeapEa Spec.HeapRuns Spec.Reach
  Proofs.Variation Proofs.HeapEa Proofs.HeapRuns.
Local Open Scope nat_scope.
Local Open Scope list_scope.

(** ** Crossover alone *)
Lemma create_all_ext {G P} (init init' : nat -> list G) problem decoder robust n : forall k (w : world G P num),
  (forall i, k <= i < k + n -> init i = init' i) ->
  create_all init problem decoder robust n k w = create_all init' problem decoder robust n k w.
Proof.
  induction n as [|n IH]; intros k w H; cbn [create_all]; [reflexivity|].
  rewrite (H k) by lia. destruct (new_arr w (init' k)) as [a w1].
  destruct (create w1 a problem decoder robust) as [i w2].
  rewrite (IH (S k) w2) by (intros; apply H; lia). reflexivity.
Qed.

Section Genes.
Context {G : Type}.
Variables (n pop_size : nat) (initialize : nat -> list G).
Definition loci : list (G -> Prop) :=
  map (fun p x => exists k, k < pop_size /\ nth_error (initialize k) p = Some x) (seq 0 n).

Lemma loci_length : length loci = n.
Proof. unfold loci. rewrite map_length, seq_length. reflexivity. Qed.

Lemma loci_nth p : p < n -> nth_error loci p = Some (fun x => exists k, k < pop_size /\ nth_error (initialize k) p = Some x).
Proof.
  intros H. unfold loci. rewrite nth_error_map.
  assert (E : nth_error (seq 0 n) p = Some p).
  { rewrite (nth_error_nth' _ 0) by (rewrite seq_length; auto). rewrite seq_nth by auto. reflexivity. }
  rewrite E. reflexivity.
Qed.

Lemma box_loci g : box (fun x (A : G -> Prop) => A x) loci g <-> length g = n /\ stems_from pop_size initialize g.
Proof.
  unfold box. rewrite F2_nth, loci_length. split; intros [L H]; (split; [exact L|]).
  - intros p x Hx. assert (p < length g) by (apply nth_error_Some; congruence).
    exact (H p x _ Hx (loci_nth p ltac:(lia))).
  - intros p x A Hx HA. assert (p < length g) by (apply nth_error_Some; congruence).
    rewrite loci_nth in HA by lia. injection HA as <-. apply H, Hx.
Qed.
End Genes.

Lemma crossover_run {G P} (decoder_of : nat -> option (list G -> result P)) (problem_of : nat -> phen_value G P -> result num)
    n problem decoder robust maximize coin k_elites max_generations size operators pick stop initialize pop_size start
    (w : world G P num) :
  (forall i, breeds_with (crossing n) (operators i)) ->
  robust = true \/ (forall g, length g = n -> exists f, score (decoder_of decoder) (problem_of problem) g = Ok f) ->
  (forall i w l k, l <> [] -> pick i w l k < length l) ->
  (forall k, k < pop_size -> length (initialize k) = n) -> 1 <= pop_size -> 1 <= size ->
  exists final w' earlier gc',
    heap_ea decoder_of problem_of maximize coin max_generations k_elites size operators pick stop
      initialize problem decoder robust pop_size start w = Some (Ok (final, w', earlier), gc') /\
    ((forall i w l, stop i w l = false) -> length earlier = Z.to_nat (max_generations - start)) /\
    forall p i, In p (earlier ++ [final]) -> In i p ->
      length (genes w' i) = n /\ stems_from pop_size initialize (genes w' i) /\
      i_fitness (w_ind w' i) = Some (outcome NNan (score (decoder_of decoder) (problem_of problem) (genes w' i))).
Proof.
  intros Ho Hsc Hpk Hi Hp Hs.
  set (init' := fun k => initialize (Nat.min k (pop_size - 1))).
  assert (E0 : heap_ea decoder_of problem_of maximize coin max_generations k_elites size operators pick stop
      initialize problem decoder robust pop_size start w
    = heap_ea decoder_of problem_of maximize coin max_generations k_elites size operators pick stop
      init' problem decoder robust pop_size start w).
  { unfold heap_ea. rewrite (create_all_ext initialize init'); [reflexivity|]. intros i H. unfold init'. f_equal. lia. }
  set (D := box (fun x (A : G -> Prop) => A x) (loci n pop_size initialize)).
  assert (Hv : forall (i : nat) o, crossing n o -> safe D o).
  { intros _ o H. apply crossing_safe. rewrite loci_length. exact H. }
  assert (Hi' : forall k, D (init' k)).
  { intros k. apply box_loci. unfold init'. split; [apply Hi; lia|]. intros p x Hx. exists (Nat.min k (pop_size - 1)). split; [lia|exact Hx]. }
  assert (Hsc' : robust = true \/ (forall g, D g -> exists f, score (decoder_of decoder) (problem_of problem) g = Ok f)).
  { destruct Hsc as [H|H]; [auto|]. right. intros g Hg. apply H. apply box_loci in Hg. apply Hg. }
  destruct (safe_run decoder_of problem_of D (fun _ => crossing n) Hv problem decoder robust maximize coin k_elites
    max_generations size operators pick stop init' pop_size start w Ho Hsc' Hpk Hi' Hp Hs)
    as (final & w' & earlier & gc' & E & HN & HG).
  exists final, w', earlier, gc'. rewrite E0. split; [exact E|]. split; [exact HN|].
  intros p i Hin Hip. destruct (HG p i Hin Hip) as [HD HF]. apply box_loci in HD. tauto.
Qed.

(** ** Mutation *)
Lemma list_ext {A} (l m : list A) : (forall i, nth_error l i = nth_error m i) -> l = m.
Proof.
  revert m. induction l as [|x l IH]; intros [|y m] H; auto.
  - specialize (H 0). discriminate.
  - specialize (H 0). discriminate.
  - f_equal; [specialize (H 0); cbn in H; congruence|]. apply IH. intros i. exact (H (S i)).
Qed.

Lemma bitflip_reaches expected probability p g h :
  rate_is expected probability (length g) p -> (0 < p)%Q -> (p < 1)%Q -> binary g -> binary h -> length h = length g ->
  exists us, length us = length g /\ unit_draws us /\ genome_mutate_bitflip expected probability us g = Ok h.
Proof.
  intros Hr H0 H1 Hg Hh L.
  set (us := map (fun xy => if Z.eqb (fst xy) (snd xy) then p else 0%Q) (combine g h)).
  assert (Lu : length us = length g) by (unfold us; rewrite map_length, combine_length; lia).
  exists us. split; [exact Lu|]. split.
  { apply Forall_map, Forall_forall. intros xy _. destruct (_ =? _)%Z; split; lra. }
  destruct (bitflip_changed expected probability us g p Lu Hr ltac:(lra) ltac:(lra) Hg) as (g' & E & Lg & C).
  rewrite E. f_equal. apply list_ext. intros i. destruct (nth_error g i) as [x|] eqn:Ex.
  - destruct (C i x Ex) as (x' & -> & C1 & C2).
    destruct (nth_error h i) as [y|] eqn:Ey.
    2:{ apply nth_error_None in Ey. assert (i < length g) by (apply nth_error_Some; congruence). lia. }
    assert (Eu : nth_error us i = Some (if (x =? y)%Z then p else 0%Q)).
    { unfold us. rewrite nth_error_map.
      assert (Ec : nth_error (combine g h) i = Some (x, y)).
      { clear -Ex Ey. revert h i Ex Ey. induction g as [|a g IH]; intros [|b h] [|i] Ex Ey; try discriminate; cbn in *; [congruence|auto]. }
      rewrite Ec. reflexivity. }
    f_equal. destruct (Z.eqb_spec x y) as [Exy|Nxy].
    + subst y. apply C2. intros (u & Hu & Hlt). rewrite Eu in Hu. injection Hu as <-. lra.
    + assert (x' = 1 - x)%Z by (apply C1; exists 0%Q; split; [exact Eu|lra]).
      unfold binary in Hg, Hh. rewrite Forall_forall in Hg, Hh.
      destruct (Hg x (nth_error_In _ _ Ex)), (Hh y (nth_error_In _ _ Ey)); lia.
  - apply nth_error_None in Ex. transitivity (@None Z); [|symmetry]; apply nth_error_None; lia.
Qed.

Lemma bitflip_certain expected probability p us g h :
  rate_is expected probability (length g) p -> (p == 1)%Q -> binary g -> length us = length g -> unit_draws us ->
  genome_mutate_bitflip expected probability us g = Ok h ->
  forall i x, nth_error g i = Some x -> nth_error h i = Some (1 - x)%Z.
Proof.
  intros Hr Hp Hg Lu Hu E i x Hx.
  destruct (bitflip_changed expected probability us g p Lu Hr ltac:(lra) ltac:(lra) Hg) as (g' & E' & Lg & C).
  rewrite E in E'. injection E' as <-. destruct (C i x Hx) as (x' & -> & C1 & _). f_equal. apply C1.
  assert (i < length us) by (rewrite Lu; apply nth_error_Some; congruence).
  destruct (nth_error us i) as [u|] eqn:Eu; [|apply nth_error_None in Eu; lia].
  exists u. split; [auto|]. unfold unit_draws in Hu. rewrite Forall_forall in Hu.
  destruct (Hu u (nth_error_In _ _ Eu)). lra.
Qed.

Lemma zeros_select {A} p (l : list A) : (0 < p)%Q -> select_mask (map (fun u => Qltb u p) (map (fun _ => 0%Q) l)) l = l.
Proof.
  intros H. apply Qltb_lt in H. induction l as [|x l IH]; cbn [map select_mask]; [reflexivity|]. rewrite H, IH. reflexivity.
Qed.

Lemma select_mask_all {A B} p (l : list A) : (0 < p)%Q -> forall m : list B, length m = length l ->
  select_mask (map (fun u => Qltb u p) (map (fun _ => 0%Q) l)) m = m.
Proof.
  intros H. apply Qltb_lt in H. induction l as [|x l IH]; intros [|y m] L; try discriminate; cbn [map select_mask]; [reflexivity|].
  rewrite H, IH by (cbn in L; lia). reflexivity.
Qed.

Lemma assign_all {A} p (l : list A) : (0 < p)%Q -> forall m new : list A, length m = length l -> length new = length l ->
  assign_mask (map (fun u => Qltb u p) (map (fun _ => 0%Q) l)) m new = new.
Proof.
  intros H. apply Qltb_lt in H. induction l as [|x l IH]; intros [|y m] [|z new] L1 L2; try discriminate; cbn [map assign_mask]; [reflexivity|].
  rewrite H, IH by (cbn in *; lia). reflexivity.
Qed.

Lemma randint_reaches bs expected probability p g h :
  rate_is expected probability (length g) p -> (0 < p)%Q -> (p <= 1)%Q -> length g = length bs -> int_box bs h ->
  exists us ds, length us = length g /\ unit_draws us /\ length ds = length g /\
    individual_mutate_randint bs expected probability us ds g = Ok h.
Proof.
  intros Hr H0 H1 Lg Hh.
  set (us := map (fun _ : Z => 0%Q) g).
  exists us, (map (fun xb => fst xb - fst (snd xb))%Z (combine h bs)).
  assert (Lh : length h = length bs) by (exact (box_length _ _ h Hh)).
  split; [unfold us; apply map_length|]. split; [apply Forall_map, Forall_forall; intros; split; lra|].
  split; [rewrite map_length, combine_length; lia|].
  unfold individual_mutate_randint. destruct (mask_of_rate AssertionError expected probability us (length g) p Hr ltac:(lra) H1) as [-> ->].
  cbn [bind]. unfold us. rewrite !map_length, <- Lg, Nat.eqb_refl, select_mask_all by auto.
  assert (E : randint_genes (map (fun xb => fst xb - fst (snd xb))%Z (combine h bs)) bs = Ok h).
  { unfold int_box in Hh. clear -Hh. induction Hh as [|x [low high] h bs Hx Hh IH]; [reflexivity|].
    cbn in Hx. cbn [combine map randint_genes fst snd]. unfold randint_gene.
    destruct (Z.leb_spec (high + 1) low); [lia|]. cbn [bind]. rewrite IH. cbn [bind].
    rewrite Z.mod_small by lia. do 2 f_equal. lia. }
  rewrite E. cbn [bind]. rewrite assign_all by (auto; lia). reflexivity.
Qed.

Lemma selected_zeros {A} p (l : list A) i : (0 < p)%Q -> i <= length l -> selected_before (map (fun _ => 0%Q) l) p i = i.
Proof.
  intros H. unfold selected_before. revert i. induction l as [|x l IH]; intros [|i] Hi; cbn in Hi; try reflexivity; [lia|].
  cbn [map firstn filter]. destruct (Qlt_le_dec 0 p); [|lra]. cbn [length]. f_equal. apply IH. lia.
Qed.

Lemma ext_le_qeq_l a b c : (a == b)%Q -> ext_le c (Fin a) -> ext_le c (Fin b).
Proof. destruct c; cbn; auto. intros E H. rewrite <- E. exact H. Qed.

Lemma ext_le_qeq_r a b c : (a == b)%Q -> ext_le (Fin a) c -> ext_le (Fin b) c.
Proof. destruct c; cbn; auto. intros E H. rewrite <- E. exact H. Qed.

Definition noise_for (stds : Q + list Q) (slope intercept : Q) (g h : list Q) : list Q :=
  map (fun '(x, y, s) => ((y - intercept) / slope - x) / s)%Q
    (combine (combine g h) (match stds with inl s => map (fun _ => s) g | inr l => l end)).

Lemma nth_combine {A B} (l : list A) : forall (m : list B) i x y,
  nth_error l i = Some x -> nth_error m i = Some y -> nth_error (combine l m) i = Some (x, y).
Proof. induction l as [|a l IH]; intros [|b m] [|i] x y Hx Hy; try discriminate; cbn in *; [congruence|auto]. Qed.

Lemma gaussian_reaches stds expected b slope intercept g h p :
  bounds_fit b (length g) ->
  (forall i low high, bound_at b i = Some (low, high) -> ext_le low high) ->
  match stds with inl s => (0 < s)%Q | inr l => length l = length g /\ Forall (fun s => 0 < s)%Q l end ->
  ~ (slope == 0)%Q ->
  match expected with None => p == 1 | Some e => length g <> 0%nat /\ p * inject_Z (Z.of_nat (length g)) == e end%Q ->
  (0 < p)%Q -> (p <= 1)%Q -> length h = length g -> in_bounds ext_le b (map Fin h) ->
  exists us noise inplace g', length us = length g /\ unit_draws us /\ length noise = length g /\
    genome_mutate_gaussian stds expected b slope intercept us noise g = Ok (inplace, g') /\ Forall2 holds_value g' h.
Proof.
  intros Hf Hlh Hs Hslope He H0 H1 L Hh.
  set (us := map (fun _ : Q => 0%Q) g). set (noise := noise_for stds slope intercept g h).
  assert (Lu : length us = length g) by apply map_length.
  assert (Ln : length noise = length g).
  { unfold noise, noise_for. rewrite map_length, !combine_length. destruct stds; [rewrite map_length|]; lia. }
  assert (Ls : length noise = length (select_mask (map (fun u => Qltb u p) us) g)).
  { unfold us. rewrite select_mask_all by auto. exact Ln. }
  assert (Hs' : match stds with inl s => 0 <= s | inr l => length l = length g end%Q) by (destruct stds; [lra|tauto]).
  destruct (gaussian_changed stds expected b slope intercept us noise g p Lu Hf Ls Hs' He ltac:(lra) H1 Hlh)
    as (ip & g' & E & Lg & C).
  exists us, noise, ip, g'. split; [exact Lu|]. split; [apply Forall_map, Forall_forall; intros; split; lra|].
  split; [exact Ln|]. split; [exact E|]. apply F2_nth. split; [congruence|].
  intros i e y Hi Hy. destruct (nth_error g i) as [x|] eqn:Ex.
  2:{ apply nth_error_None in Ex. assert (i < length g') by (apply nth_error_Some; congruence). lia. }
  assert (Hlt : i < length g) by (apply nth_error_Some; congruence).
  destruct (C i x Ex) as (x' & Ex' & C1 & _). rewrite Hi in Ex'. injection Ex' as <-.
  destruct C1 as (low & high & z & s & Eb & Ez & Es & _ & _ & HC).
  { exists 0%Q. split; [|exact H0]. unfold us. rewrite nth_error_map, Ex. reflexivity. }
  unfold us in Ez. rewrite selected_zeros in Ez by (auto; lia).
  assert (Hspos : (0 < s)%Q).
  { destruct stds as [s0|l]; cbn in Es; [injection Es as <-; exact Hs|]. destruct Hs as [_ Hs]. rewrite Forall_forall in Hs.
    apply Hs. eapply nth_error_In; eauto. }
  assert (Ez' : z = (((y - intercept) / slope - x) / s)%Q).
  { unfold noise, noise_for in Ez. rewrite nth_error_map in Ez.
    rewrite (nth_combine (combine g h) _ i (x, y) s) in Ez.
    - cbn in Ez. congruence.
    - apply nth_combine; auto.
    - destruct stds as [s0|l]; cbn in Es; [|exact Es]. rewrite nth_error_map, Ex. cbn. exact Es. }
  assert (Ev : (slope * (x + z * s) + intercept == y)%Q) by (rewrite Ez'; field; split; lra).
  assert (Hb : exists low high, bound_at b i = Some (low, high) /\ ext_le low (Fin y) /\ ext_le (Fin y) high).
  { apply (Hh i (Fin y)). rewrite nth_error_map, Hy. reflexivity. }
  destruct Hb as (low' & high' & Eb' & B1 & B2). rewrite Eb in Eb'. injection Eb' as <- <-.
  exists (slope * (x + z * s) + intercept)%Q. split; [|exact Ev]. apply HC.
  - exact (ext_le_qeq_l _ _ _ (Qeq_sym _ _ Ev) B1).
  - exact (ext_le_qeq_r _ _ _ (Qeq_sym _ _ Ev) B2).
Qed.
