(** The life of a two-segment CGP genome: proofs. *)
From Coq Require Import Lia Lqa.
From Verif Require Import Model.Base Model.Variation Model.Segmented Model.SegMutate Model.Cgp Model.CgpParams Model.Transfer.
From Verif Require Import Spec.Variation Spec.Segmented Spec.SegMutate Spec.Cgp Spec.CgpParams.
From Verif Require Import Proofs.Variation Proofs.SegMutate Proofs.CgpDecode Proofs.CgpExec Proofs.CgpProps Proofs.CgpPrune.
Local Open Scope nat_scope.
Local Open Scope list_scope.

Lemma int_genes_map l : int_genes (map inl l) = Ok l.
Proof. induction l as [|a l IH]; [reflexivity|]. cbn. rewrite IH. reflexivity. Qed.
Lemma real_genes_map l : real_genes (map inr l) = Ok l.
Proof. induction l as [|a l IH]; [reflexivity|]. cbn. rewrite IH. reflexivity. Qed.
Lemma finite_cells_map l : finite_cells (map Fin l) = Ok (map inr l).
Proof. induction l as [|a l IH]; [reflexivity|]. cbn. rewrite IH. reflexivity. Qed.

Lemma select_count {A} (f : Q -> bool) : forall us (g : list A), length us = length g ->
  length (select_mask (map f us) g) = length (filter f us).
Proof.
  induction us as [|u us IH]; intros [|a g] E; cbn in *; try discriminate; [reflexivity|].
  destruct (f u); cbn; rewrite IH by lia; reflexivity.
Qed.

(** what is known of the genome at every point of its life *)
Definition good {V} (d : decoder V) (n : nat) (low high : Q) (segments : list (list cell)) : Prop :=
  exists c p, segments = [map inl c; map inr p] /\ within c (bounds d) /\ length p = n /\ Forall (fun q => low <= q /\ q <= high)%Q p.

Lemma within_len {V} (d : decoder V) (Hd : proper d) c : within c (bounds d) -> length c = num_genes d.
Proof. intros H. rewrite <- bounds_length by exact Hd. exact (Forall2_len _ _ _ H). Qed.

Lemma clipped_finite low high out : in_bounds ext_le (BScalar (Fin low) (Fin high)) out ->
  exists l, out = map Fin l /\ Forall (fun q => low <= q /\ q <= high)%Q l.
Proof.
  induction out as [|x out IH]; intros H; [exists []; split; [reflexivity|constructor]|].
  destruct IH as (l & -> & F); [intros i y Hy; exact (H (S i) y Hy)|].
  destruct (H 0 x eq_refl) as (lo & hi & E & H1 & H2). cbn in E. injection E as <- <-.
  destruct x as [|q|]; cbn in H1, H2; try contradiction. exists (q :: l). split; [reflexivity|]. constructor; auto.
Qed.

Lemma turn_keeps {V} (d : decoder V) (Hd : proper d) n low high ms segments : (1 <= c_back d)%Z -> (low <= high)%Q ->
  good d n low high segments -> sound_turn d n low high ms -> exists gs', segment_wise ms segments gs' /\ good d n low high gs'.
Proof.
  intros Hb Hlh (c & p & -> & Hw & Hn & Hp)
    (ex & pr & us & ds & r & stds & ex' & sl & ic & us' & noise & r' & -> & R1 & R2 & R3 & R4 & R5 & S1 & S2 & S3 & S4 & S5 & S6).
  pose proof (within_len d Hd c Hw) as Lc.
  destruct (mutate_returns d Hd ex pr us ds c r Hb) as (c' & _ & Ec & Wc & _); try congruence; auto; try lia.
  destruct (gaussian_in_bounds stds ex' (BScalar (Fin low) (Fin high)) sl ic us' noise p r') as (ip & out & Ep & Hin & [Lo _]); auto.
  - congruence.
  - cbn. exact I.
  - rewrite S6, select_count by congruence. reflexivity.
  - destruct stds; [exact S1|congruence].
  - destruct ex'; [|exact S2]. rewrite Hn. exact S2.
  - intros i lo hi E. cbn in E. injection E as <- <-. exact Hlh.
  - destruct (clipped_finite low high out Hin) as (l & -> & Fl). rewrite map_length in Lo.
    exists [map inl c'; map inr l]. split.
    + constructor; [|constructor; [|constructor]].
      * unfold circuit_mutator, turns_into. rewrite int_genes_map. cbn [bind]. rewrite Ec. eexists _, _. split; reflexivity.
      * unfold parameter_mutator, turns_into. rewrite real_genes_map. cbn [bind]. rewrite Ep, finite_cells_map. eexists _, _. split; reflexivity.
    + exists c', l. split; [reflexivity|]. split; [exact Wc|]. split; [congruence|exact Fl].
Qed.

Lemma life_good {V} (d : decoder V) (Hd : proper d) n low high st x st' x' : (1 <= c_back d)%Z -> (low <= high)%Q ->
  seg_sane st x -> NoDup (sg_genome x) -> good d n low high (contents st x) -> life d n low high st x st' x' ->
  seg_sane st' x' /\ NoDup (sg_genome x') /\ good d n low high (contents st' x').
Proof.
  intros Hb Hlh Hs Hnd Hg L. induction L as [|st1 x1 ms st2 x2 L (I1 & I2 & I3) T E|st1 x1 st2 x2 L (I1 & I2 & I3) S N E]; auto.
  - destruct (turn_keeps d Hd n low high ms _ Hb Hlh I3 T) as (gs' & W & G').
    destruct (turn_ok ms st1 x1 gs' I1 I2 W) as (st3 & y & E3 & Ec & _ & Sy & Ny & _). rewrite E3 in E. injection E as <- <-.
    rewrite Ec. auto.
  - rewrite E. auto.
Qed.

Lemma real_vector_good low high : forall n us, (low <= high)%Q -> length us = n -> Forall (fun u => 0 <= u /\ u <= 1)%Q us ->
  length (create_real_vector (repeat (low, high) n) us) = n /\
  Forall (fun q => low <= q /\ q <= high)%Q (create_real_vector (repeat (low, high) n) us).
Proof.
  unfold create_real_vector. induction n as [|n IH]; intros us Hlh L F; [split; [reflexivity|constructor]|].
  destruct us as [|u us]; [discriminate|]. inversion F as [|? ? [U1 U2] F']; subst. cbn [repeat map combine].
  cbn [length] in L. destruct (IH us Hlh ltac:(lia) F') as [E G]. cbn [length]. split; [rewrite E; reflexivity|].
  constructor; [|exact G]. cbn [fst snd].
  pose proof (Qmult_le_0_compat (high - low) u ltac:(lra) U1) as A.
  pose proof (Qmult_le_0_compat (high - low) (1 - u) ltac:(lra) ltac:(lra)) as B.
  assert (E2 : ((high - low) * (1 - u) == (high - low) - (high - low) * u)%Q) by ring. rewrite E2 in B.
  set (w := ((high - low) * u)%Q) in *. clearbody w. split; lra.
Qed.

Lemma initial_good {V} (d : decoder V) (Hd : proper d) ds us n low high segments : (1 <= c_back d)%Z -> num_genes d <= length ds ->
  (low <= high)%Q -> length us = n -> Forall (fun u => 0 <= u /\ u <= 1)%Q us ->
  initialize_with_parameters d ds (Ok (create_real_vector (repeat (low, high) n) us)) = Ok segments -> good d n low high segments.
Proof.
  intros Hb Hds Hlh L F E. destruct (create_within d Hd ds Hb Hds) as (c & Ec & Wc).
  unfold initialize_with_parameters in E. rewrite Ec in E. cbn [bind] in E. injection E as <-.
  destruct (real_vector_good low high n us Hlh L F). eexists c, _. split; [reflexivity|]. auto.
Qed.

Lemma good_decodes {V} (val : cell -> V) (d : decoder V) (Hd : proper d) np low high prune segments :
  good d (np * (c_layers d * c_width d)) low high segments ->
  exists c p nodes outs prog g, segments = [map inl c; map inr p] /\ within c (bounds d) /\ length p = np * (c_layers d * c_width d) /\
    Forall (fun q => low <= q /\ q <= high)%Q p /\ layout d c nodes outs /\ feasible d nodes outs /\
    program d (params_of np (map val (map inr p))) nodes prog /\
    decode_segments val d np prune segments = Ok g /\ circuit_of d prune prog outs g.
Proof.
  intros (c & p & -> & Wc & Lp & Fp). pose proof Wc as W. apply within_iff in W as (nodes & outs & Hl & Hf); [|exact Hd].
  destruct (program_exists d Hd c nodes outs (params_of np (map val (map inr p))) Hl Hf) as (prog & Hp).
  destruct (decode_params_ok d Hd np prune c nodes outs (map val (map inr p)) prog Hl Hf) as (g & E & Hc); [rewrite !map_length; exact Lp|exact Hp|].
  exists c, p, nodes, outs, prog, g. repeat (split; [first [reflexivity|assumption]|]). split; [|exact Hc].
  cbn [decode_segments]. rewrite int_genes_map. cbn [bind]. exact E.
Qed.

Lemma whole_life {V} (val : cell -> V) (d : decoder V) np prune ds us low high segments st x st' x' :
  proper d -> (1 <= c_back d)%Z -> num_genes d <= length ds -> (low <= high)%Q ->
  length us = np * (c_layers d * c_width d) -> Forall (fun u => 0 <= u /\ u <= 1)%Q us ->
  initialize_with_parameters d ds (Ok (create_real_vector (repeat (low, high) (np * (c_layers d * c_width d))) us)) = Ok segments ->
  seg_sane st x -> NoDup (sg_genome x) -> contents st x = segments -> life d (np * (c_layers d * c_width d)) low high st x st' x' ->
  (exists c p nodes outs prog g, contents st' x' = [map inl c; map inr p] /\ within c (bounds d) /\ length p = np * (c_layers d * c_width d) /\
    Forall (fun q => low <= q /\ q <= high)%Q p /\ layout d c nodes outs /\ feasible d nodes outs /\
    program d (params_of np (map val (map inr p))) nodes prog /\
    decode_segments val d np prune (contents st' x') = Ok g /\ circuit_of d prune prog outs g) /\
  forall ms, sound_turn d (np * (c_layers d * c_width d)) low high ms ->
    exists st2 x2, segmented_mutate ms st' x' = (st2, x2, Ok tt) /\ sg_fitness x2 = None.
Proof.
  intros Hd Hb Hds Hlh L F E Hs Hn Ec HL.
  assert (G : good d (np * (c_layers d * c_width d)) low high (contents st x)) by (rewrite Ec; exact (initial_good d Hd ds us _ low high segments Hb Hds Hlh L F E)).
  destruct (life_good d Hd _ low high st x st' x' Hb Hlh Hs Hn G HL) as (S' & N' & G').
  split; [exact (good_decodes val d Hd np low high prune _ G')|].
  intros ms T. destruct (turn_keeps d Hd _ low high ms _ Hb Hlh G' T) as (gs' & W & _).
  destruct (turn_ok ms st' x' gs' S' N' W) as (st3 & y & E3 & _ & Ef & _). exists st3, y. auto.
Qed.

Lemma initialize_total {V} (d : decoder V) ds pars : proper d -> (1 <= c_back d)%Z -> num_genes d <= length ds ->
  exists c, within c (bounds d) /\ initialize_with_parameters d ds (Ok pars) = Ok [map inl c; map inr pars].
Proof.
  intros Hd Hb Hds. destruct (create_within d Hd ds Hb Hds) as (c & Ec & Wc). exists c. split; [exact Wc|].
  unfold initialize_with_parameters. rewrite Ec. reflexivity.
Qed.

(** ** parameters of nodes that no output depends on *)
Lemma program_shape {V} (d : decoder V) params params' nodes prog prog' : program d params nodes prog -> program d params' nodes prog' ->
  length prog' = length prog /\ forall j p srcs par, nth_error prog j = Some (p, srcs, par) ->
    par = params j /\ nth_error prog' j = Some (p, srcs, params' j).
Proof.
  intros [L1 H1] [L2 H2]. split; [congruence|]. intros j p srcs par E.
  destruct (nth_error nodes j) as [nd|] eqn:En; [|apply nth_error_None in En; assert (j < length prog) by (apply nth_error_Some; congruence); lia].
  destruct (H1 j nd En) as (p1 & A1 & B1). destruct (H2 j nd En) as (p2 & A2 & B2).
  rewrite B1 in E. injection E as <- <- <-. rewrite A1 in A2. injection A2 as <-. auto.
Qed.

Lemma value_carries {V} ni (prog prog' : list (pnode V)) outs input : feed_forward ni prog outs ->
  (forall j p srcs par, nth_error prog j = Some (p, srcs, par) -> needed ni prog outs (Z.of_nat (ni + j)) -> nth_error prog' j = Some (p, srcs, par)) ->
  forall m s v, (0 <= s < Z.of_nat m)%Z -> needed ni prog outs s -> value ni prog input s v -> value ni prog' input s v.
Proof.
  intros [FF _] HS. induction m as [|m IH]; intros s v Hm Hn Hv; [lia|].
  destruct Hv as [k v Hk Ek|j p srcs par args v Ej Fa Ec]; [apply value_input; assumption|].
  eapply value_node; [exact (HS j p srcs par Ej Hn)| |exact Ec].
  specialize (FF j p srcs par Ej).
  assert (Hsub : forall s', In s' srcs -> needed ni prog outs s') by (intros s' Hi; exact (needed_arg ni prog outs j p srcs par s' Hn Ej Hi)).
  clear Ec Ej. induction Fa as [|a b la lb Hab Fl IHf]; [constructor|]. inversion FF as [|? ? Fa1 Fa2]; subst.
  constructor.
  - apply IH; [lia|apply Hsub; left; reflexivity|exact Hab].
  - apply IHf; [exact Fa2|]. intros s' Hi. apply Hsub. right. exact Hi.
Qed.

Lemma needed_same {V} ni (prog prog' : list (pnode V)) outs :
  (forall j p srcs par, nth_error prog j = Some (p, srcs, par) -> exists p' par', nth_error prog' j = Some (p', srcs, par')) ->
  forall s, needed ni prog outs s -> needed ni prog' outs s.
Proof.
  intros H s N. induction N as [s Hs|j p srcs par s N IH E Hi]; [apply needed_out, Hs|].
  destruct (H j p srcs par E) as (p' & par' & E'). exact (needed_arg ni prog' outs j p' srcs par' s IH E' Hi).
Qed.

Lemma unread_values {V} (d : decoder V) np genome nodes outs pars pars' prog prog' input vs : proper d ->
  layout d genome nodes outs -> feasible d nodes outs ->
  program d (params_of np pars) nodes prog -> program d (params_of np pars') nodes prog' ->
  same_where_needed (c_inputs d) np prog outs pars pars' ->
  Forall2 (value (c_inputs d) prog input) outs vs -> Forall2 (value (c_inputs d) prog' input) outs vs.
Proof.
  intros Hd Hl Hf P1 P2 S F.
  assert (Hff : feed_forward (c_inputs d) prog outs) by exact (prog_feed_forward d Hd genome nodes outs Hl Hf prog _ P1).
  destruct (program_shape d _ _ nodes prog prog' P1 P2) as [L Sh].
  assert (C : forall s v, In s outs -> value (c_inputs d) prog input s v -> value (c_inputs d) prog' input s v).
  { intros s v Hs. destruct Hff as [F1 F2]. rewrite Forall_forall in F2.
    apply (value_carries (c_inputs d) prog prog' outs input) with (m := c_inputs d + length prog).
    - split; [exact F1|rewrite Forall_forall; exact F2].
    - intros j p srcs par E N. destruct (Sh j p srcs par E) as [-> E']. rewrite E'. rewrite (S j); [reflexivity| |exact N].
      apply nth_error_Some. congruence.
    - apply F2, Hs.
    - apply needed_out, Hs. }
  clear - F C. induction F as [|a b la lb Hab Fl IH]; constructor; [apply C; [left; reflexivity|exact Hab]|].
  apply IH. intros s v Hs. apply C. right. exact Hs.
Qed.

Lemma unread_parameters {V} (d : decoder V) np genome nodes outs pars pars' prog input : proper d ->
  layout d genome nodes outs -> feasible d nodes outs ->
  length pars = np * (c_layers d * c_width d) -> length pars' = np * (c_layers d * c_width d) ->
  program d (params_of np pars) nodes prog -> same_where_needed (c_inputs d) np prog outs pars pars' -> length input = c_inputs d ->
  exists g g', decode_with_parameters d np true genome pars = Ok g /\ decode_with_parameters d np true genome pars' = Ok g' /\
    forall o vs, (exists o', call g (c_inputs d) (c_outputs d) o input = Ok (o', vs)) <-> (exists o', call g' (c_inputs d) (c_outputs d) o input = Ok (o', vs)).
Proof.
  intros Hd Hl Hf L1 L2 P1 S Hi. destruct (program_exists d Hd genome nodes outs (params_of np pars') Hl Hf) as (prog' & P2).
  destruct (params_run d np genome nodes outs pars prog input Hd Hl Hf L1 P1 Hi) as (g0 & g & _ & E & R).
  destruct (params_run d np genome nodes outs pars' prog' input Hd Hl Hf L2 P2 Hi) as (g0' & g' & _ & E' & R').
  exists g, g'. split; [exact E|]. split; [exact E'|]. intros o vs.
  destruct (R o vs) as [_ Q1]. destruct (R' o vs) as [_ Q2]. rewrite Q1, Q2. split.
  - exact (unread_values d np genome nodes outs pars pars' prog prog' input vs Hd Hl Hf P1 P2 S).
  - apply (unread_values d np genome nodes outs pars' pars prog' prog input vs Hd Hl Hf P2 P1).
    destruct (program_shape d _ _ nodes prog prog' P1 P2) as [L Sh]. destruct (program_shape d _ _ nodes prog' prog P2 P1) as [_ Sh'].
    intros j Hj N. symmetry. apply S; [congruence|]. revert N. apply needed_same.
    intros k p srcs par Ek. destruct (Sh' k p srcs par Ek) as [_ E2]. exists p, (params_of np pars k). exact E2.
Qed.

Lemma segments_refused {V} (val : cell -> V) (d : decoder V) np prune segments : length segments <> 2 ->
  decode_segments val d np prune segments = Err AssertionError.
Proof. destruct segments as [|a [|b [|c l]]]; cbn; intros H; try reflexivity. congruence. Qed.

(** ** an example: two inputs, two layers of two nodes *)
Definition val_z (c : cell) : Z := match c with inl z => z | inr q => (Qnum q / Zpos (Qden q))%Z end.
Definition ex_turn : list (smutator cell) :=
  [circuit_mutator (ex_decoder [ex_sum; ex_opp]) (Some 1%Q) None (repeat 0 1 ++ repeat (1#2) 12)%Q (repeat 3%Z 13);
   parameter_mutator (inl 50%Q) (Some 1%Q) 0 255 1 0 [0; 1 # 2; 1 # 2; 1 # 2]%Q [6]%Q].
Definition ex_segments : list (list cell) := [map inl ex_genome; map inr [100; 20; 3; 1]%Q].
Definition ex_store : store cell := mk_store (fun n => nth n ex_segments []) 2.
Lemma ex_turn_sound : sound_turn (ex_decoder [ex_sum; ex_opp]) 4 0 255 ex_turn.
Proof.
  do 4 eexists. exists (1 # 13)%Q. do 6 eexists. exists (1 # 4)%Q. split; [reflexivity|].
  split; [right; exists 1%Q; split; [reflexivity|split; [reflexivity|split; [vm_compute; discriminate|vm_compute; reflexivity]]]|].
  split; [vm_compute; discriminate|]. split; [vm_compute; discriminate|]. split; [reflexivity|]. split; [vm_compute; lia|].
  split; [cbn; lra|]. split; [split; [discriminate|vm_compute; reflexivity]|]. split; [vm_compute; discriminate|].
  split; [vm_compute; discriminate|]. split; reflexivity.
Qed.

(** the parameter mutator leaves its unclipped numbers in the old array, where whoever shares it finds them *)
Lemma shared_array : exists (ms : list (smutator cell)) st x y st' x' p, sound_turn (ex_decoder [ex_sum; ex_opp]) 4 0 255 ms /\ sg_genome y = sg_genome x /\
  nth 1 (contents st y) [] = map inr p /\ Forall (fun q => 0 <= q /\ q <= 255)%Q p /\ segmented_mutate ms st x = (st', x', Ok tt) /\
  exists p', nth 1 (contents st' y) [] = map inr p' /\ ~ Forall (fun q => 0 <= q /\ q <= 255)%Q p'.
Proof.
  exists ex_turn, ex_store, (mk_sind [0; 1] None), (mk_sind [0; 1] None).
  exists (fst (fst (segmented_mutate ex_turn ex_store (mk_sind [0; 1] None)))), (snd (fst (segmented_mutate ex_turn ex_store (mk_sind [0; 1] None)))), [100; 20; 3; 1]%Q.
  split; [exact ex_turn_sound|]. split; [reflexivity|]. split; [reflexivity|].
  split; [repeat constructor; cbn; discriminate|].
  split.
  - assert (E : snd (segmented_mutate ex_turn ex_store (mk_sind [0; 1] None)) = Ok tt) by (vm_compute; reflexivity).
    destruct (segmented_mutate ex_turn ex_store (mk_sind [0; 1] None)) as [[a b] c]. cbn in E. rewrite E. reflexivity.
  - exists [400; 20; 3; 1]%Q. split; [vm_compute; reflexivity|]. intros F. inversion F as [|? ? [_ H] _]. revert H. vm_compute. congruence.
Qed.
