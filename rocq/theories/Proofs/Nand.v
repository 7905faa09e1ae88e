From Coq Require Import Lia Lqa ZifyBool.
From Verif Require Import Model.Base Model.PyList Model.Cgp Model.CgpPrims Model.Executable Spec.Cgp Spec.Executable Spec.Nand
  Proofs.CgpDecode Proofs.CgpExec Proofs.CgpProps Proofs.Executable Model.Variation Spec.Variation Spec.HeapRuns Proofs.Variation Proofs.Reach.
From Verif Require Import Model.Cgp Spec.Cgp.
Local Open Scope nat_scope. Local Open Scope list_scope.

(** ** straight-line NAND code: registers are the inputs and one more for each instruction *)
Definition step (R : list bool) (ab : nat * nat) : list bool :=
  R ++ [negb (nth (fst ab) R false && nth (snd ab) R false)].
Definition regs (x : list bool) (code : list (nat * nat)) : list bool := fold_left step code x.
Definition wf (n : nat) (code : list (nat * nat)) : Prop :=
  forall k ab, nth_error code k = Some ab -> fst ab < n + k /\ snd ab < n + k.

Lemma regs_length x code : length (regs x code) = length x + length code.
Proof.
  revert x. induction code as [|ab code IH]; intros x; [cbn; lia|]. change (regs x (ab :: code)) with (regs (step x ab) code). rewrite IH. unfold step. rewrite app_length. cbn. lia.
Qed.
Lemma regs_app x P Q : regs x (P ++ Q) = regs (regs x P) Q.
Proof. unfold regs. apply fold_left_app. Qed.
Lemma regs_old x code r : r < length x -> nth r (regs x code) false = nth r x false.
Proof.
  revert x. induction code as [|ab code IH]; intros x H; [reflexivity|]. change (regs x (ab :: code)) with (regs (step x ab) code).
  rewrite IH by (unfold step; rewrite app_length; lia). unfold step. rewrite app_nth1 by exact H. reflexivity.
Qed.
Lemma regs_stable x P Q r : r < length x + length P -> nth r (regs x (P ++ Q)) false = nth r (regs x P) false.
Proof. intros H. rewrite regs_app. apply regs_old. rewrite regs_length. exact H. Qed.
Lemma regs_last x P ab : nth (length x + length P) (regs x (P ++ [ab])) false =
  negb (nth (fst ab) (regs x P) false && nth (snd ab) (regs x P) false).
Proof.
  rewrite regs_app. cbn. unfold step. rewrite app_nth2; rewrite regs_length; [|lia]. rewrite Nat.sub_diag. reflexivity.
Qed.
Lemma regs_at x code k ab : wf (length x) code -> nth_error code k = Some ab ->
  nth (length x + k) (regs x code) false = negb (nth (fst ab) (regs x code) false && nth (snd ab) (regs x code) false).
Proof.
  intros W H. destruct (W k ab H) as [W1 W2]. destruct (nth_error_split code k H) as (P & Q & -> & <-).
  change (P ++ ab :: Q) with (P ++ [ab] ++ Q). rewrite app_assoc.
  rewrite !(regs_stable x (P ++ [ab]) Q) by (rewrite app_length; cbn; lia).
  rewrite regs_last. rewrite !(regs_stable x P [ab]) by lia. reflexivity.
Qed.

Lemma wf_snoc n P a b : wf n P -> a < n + length P -> b < n + length P -> wf n (P ++ [(a, b)]).
Proof.
  intros W Ha Hb k ab H. destruct (Nat.lt_ge_cases k (length P)) as [L | L].
  - rewrite nth_error_app1 in H by exact L. exact (W k ab H).
  - rewrite nth_error_app2 in H by exact L. destruct (k - length P) as [|i] eqn:E; cbn in H; [|destruct i; discriminate].
    injection H as <-. cbn. lia.
Qed.

(** code that has [v x] in register [r] *)
Definition holds (n : nat) (P : list (nat * nat)) (r : nat) (v : list bool -> bool) : Prop :=
  r < n + length P /\ forall x, length x = n -> nth r (regs x P) false = v x.

Lemma holds_more n P Q r v : holds n P r v -> holds n (P ++ Q) r v.
Proof.
  intros [H1 H2]. split; [rewrite app_length; lia|]. intros x Hx. rewrite regs_stable by lia. apply H2, Hx.
Qed.
Lemma emit n P a b u v : wf n P -> holds n P a u -> holds n P b v ->
  wf n (P ++ [(a, b)]) /\ holds n (P ++ [(a, b)]) (n + length P) (fun x => negb (u x && v x)).
Proof.
  intros W [A1 A2] [B1 B2]. split; [apply wf_snoc; assumption|]. split; [rewrite app_length; cbn; lia|].
  intros x Hx. rewrite <- Hx at 1. rewrite regs_last. cbn [fst snd]. rewrite A2, B2 by exact Hx. reflexivity.
Qed.
Lemma holds_input n P k : k < n -> holds n P k (fun x => nth k x false).
Proof. intros H. split; [lia|]. intros x Hx. apply regs_old. lia. Qed.
Lemma holds_ext n P r u v : (forall x, length x = n -> u x = v x) -> holds n P r u -> holds n P r v.
Proof. intros E [H1 H2]. split; [exact H1|]. intros x Hx. rewrite H2, E by exact Hx. reflexivity. Qed.

(** Shannon expansion over the first k inputs *)
Lemma synth n k : 0 < n -> k <= n -> forall (f : list bool -> bool) P, wf n P -> exists Q r,
  wf n (P ++ Q) /\ holds n (P ++ Q) r (fun x => f (firstn k x)).
Proof.
  intros Hn. induction k as [|k IH]; intros Hk f P W.
  - (* constants *)
    assert (exists Q t, wf n (P ++ Q) /\ holds n (P ++ Q) t (fun _ => true)) as (Q & t & WQ & HQ).
    { destruct (emit n P 0 0 _ _ W (holds_input n P 0 Hn) (holds_input n P 0 Hn)) as [W1 H1].
      destruct (emit n _ 0 (n + length P) _ _ W1 (holds_input n _ 0 Hn) H1) as [W2 H2]. rewrite <- app_assoc in W2, H2.
      eexists _, _. split; [exact W2|]. eapply holds_ext; [|exact H2]. intros x _. cbn. destruct (nth 0 x false); reflexivity. }
    destruct (f []) eqn:E.
    + exists Q, t. split; [exact WQ|]. eapply holds_ext; [|exact HQ]. intros x _. cbn. symmetry. exact E.
    + destruct (emit n _ t t _ _ WQ HQ HQ) as [W2 H2]. rewrite <- app_assoc in W2, H2. eexists _, _. split; [exact W2|].
      eapply holds_ext; [|exact H2]. intros x _. cbn. symmetry. exact E.
  - destruct (IH ltac:(lia) (fun p => f (p ++ [true])) P W) as (Q1 & r1 & W1 & H1).
    destruct (IH ltac:(lia) (fun p => f (p ++ [false])) _ W1) as (Q0 & r0 & W0 & H0).
    pose proof (holds_more _ _ Q0 _ _ H1) as H1'. clear H1 W1. rewrite <- app_assoc in *.
    set (R := P ++ Q1 ++ Q0) in *.
    pose proof (fun R => holds_input n R k ltac:(lia)) as Hx.
    destruct (emit n R k k _ _ W0 (Hx _) (Hx _)) as [W2 H2]. set (R2 := R ++ _) in *.
    destruct (emit n R2 k r1 _ _ W2 (Hx _) (holds_more _ _ _ _ _ H1')) as [W3 H3]. set (R3 := R2 ++ _) in *.
    assert (G0 : holds n R3 r0 (fun x => f (firstn k x ++ [false]))) by (apply holds_more, holds_more; exact H0).
    destruct (emit n R3 (n + length R) r0 _ _ W3 (holds_more _ _ _ _ _ H2) G0) as [W4 H4]. set (R4 := R3 ++ _) in *.
    destruct (emit n R4 (n + length R2) (n + length R3) _ _ W4 (holds_more _ _ _ _ _ H3) H4) as [W5 H5].
    unfold R4, R3, R2, R in W5, H5. rewrite <- !app_assoc in W5, H5. eexists _, _. split; [exact W5|].
    eapply holds_ext; [|exact H5]. intros x Hl. cbv beta.
    assert (E : firstn (S k) x = firstn k x ++ [nth k x false]).
    { assert (L : k < length x) by lia. clear -L. revert x L. induction k as [|k IH]; intros [|y x] L; cbn in *; try lia; [reflexivity|].
      rewrite <- IH by lia. reflexivity. }
    rewrite E. destruct (nth k x false); cbn; destruct (f _); reflexivity.
Qed.

Lemma synth_all n (Hn : 0 < n) (fs : list (list bool -> bool)) : forall P, wf n P -> exists Q rs,
  wf n (P ++ Q) /\ Forall2 (holds n (P ++ Q)) rs fs.
Proof.
  induction fs as [|f fs IH]; intros P W.
  - exists [], []. rewrite app_nil_r. split; [exact W|constructor].
  - destruct (synth n n Hn (le_n _) f P W) as (Q1 & r & W1 & H1). destruct (IH _ W1) as (Q2 & rs & W2 & H2).
    rewrite <- app_assoc in W2, H2. exists (Q1 ++ Q2), (r :: rs). split; [exact W2|]. constructor; [|exact H2].
    rewrite app_assoc. apply holds_more. eapply holds_ext; [|exact H1]. intros x Hx. cbn. rewrite firstn_all2 by lia. reflexivity.
Qed.

(** ** the code as a genome: instruction k is the first node of layer k *)
Definition zb (b : bool) : Z := if b then 1%Z else 0%Z.
Section Genome.
Variables (n w A p : nat) (code : list (nat * nat)).
Hypothesis Hn : 0 < n.
Hypothesis Hw : 0 < w.
Hypothesis HA : 2 <= A.
Hypothesis Wf : wf n code.
Definition ren (r : nat) : nat := if r <? n then r else n + (r - n) * w.
Definition block (a b : nat) : Z * list Z := (Z.of_nat p, Z.of_nat a :: Z.of_nat b :: repeat 0%Z (A - 2)).
Definition node_of (j : nat) : Z * list Z :=
  if j mod w =? 0 then match nth_error code (j / w) with Some ab => block (ren (fst ab)) (ren (snd ab)) | None => block 0 0 end
  else block 0 0.
Definition nodes_of (L : nat) : list (Z * list Z) := map node_of (seq 0 (L * w)).
Definition prog_of (L : nat) : list (pnode Z) := map (fun nd => (nand, firstn 2 (snd nd), [])) (nodes_of L).

Lemma nth_error_map_seq {B} (f : nat -> B) N j : j < N -> nth_error (map f (seq 0 N)) j = Some (f j).
Proof.
  intros H. erewrite map_nth_error; [reflexivity|]. rewrite (nth_error_nth' _ 0) by (rewrite seq_length; exact H).
  rewrite seq_nth by exact H. reflexivity.
Qed.
Lemma nodes_at L j nd : nth_error (nodes_of L) j = Some nd -> j < L * w /\ nd = node_of j.
Proof.
  intros H. assert (j < length (nodes_of L)) as Hj by (apply nth_error_Some; congruence).
  unfold nodes_of in *. rewrite map_length, seq_length in Hj. rewrite nth_error_map_seq in H by exact Hj. injection H as <-. auto.
Qed.
Lemma prog_at L j : j < L * w -> nth_error (prog_of L) j = Some (nand, firstn 2 (snd (node_of j)), []).
Proof. intros H. unfold prog_of. erewrite map_nth_error; [reflexivity|]. apply nth_error_map_seq, H. Qed.

Lemma ren_lt r k : r < n + k -> ren r < n + k * w.
Proof. unfold ren. intros H. destruct (Nat.ltb_spec r n); [lia|]. assert (r - n < k) by lia. nia. Qed.

Lemma node_of_shape j : exists a b, node_of j = block a b /\ a < n + j / w * w /\ b < n + j / w * w.
Proof.
  unfold node_of. destruct (j mod w =? 0); [|exists 0, 0; split; [reflexivity|lia]].
  destruct (nth_error code (j / w)) as [ab|] eqn:E; [|exists 0, 0; split; [reflexivity|lia]].
  destruct (Wf _ _ E) as [E1 E2]. exists (ren (fst ab)), (ren (snd ab)). split; [reflexivity|].
  split; apply ren_lt; assumption.
Qed.

Section Run.
Variables (L : nat) (x : list bool).
Hypothesis HL : length code <= L.
Hypothesis Hx : length x = n.
Let input := map zb x.
Let val := value n (prog_of L) input.
Definition node_val (j : nat) : bool :=
  if j mod w =? 0 then match nth_error code (j / w) with Some _ => nth (n + j / w) (regs x code) false | None => negb (nth 0 x false) end
  else negb (nth 0 x false).

Lemma input_val k : k < n -> val (Z.of_nat k) (zb (nth k x false)).
Proof.
  intros H. apply value_input; [exact H|]. unfold input. apply map_nth_error. apply nth_error_nth'. lia.
Qed.
Lemma nand_zb a b : nand_call [zb a; zb b] = Ok (zb (negb (a && b))).
Proof. destruct a, b; reflexivity. Qed.

Lemma node_values : forall j, j < L * w -> val (Z.of_nat (n + j)) (zb (node_val j)).
Proof.
  intros j. induction j as [j IH] using (well_founded_induction lt_wf). intros Hj.
  assert (G : forall a b u v, node_of j = block a b -> val (Z.of_nat a) (zb u) -> val (Z.of_nat b) (zb v) ->
    node_val j = negb (u && v) -> val (Z.of_nat (n + j)) (zb (node_val j))).
  { intros a b u v E Ha Hb ->. eapply value_node; [rewrite prog_at by exact Hj; rewrite E; reflexivity| |].
    - cbn. constructor; [exact Ha|]. constructor; [exact Hb|constructor].
    - cbn [app p_call nand]. apply nand_zb. }
  assert (D : node_of j = block 0 0 -> node_val j = negb (nth 0 x false) -> val (Z.of_nat (n + j)) (zb (node_val j))).
  { intros E1 E2. apply (G 0 0 (nth 0 x false) (nth 0 x false) E1 (input_val 0 Hn) (input_val 0 Hn)).
    rewrite E2, andb_diag. reflexivity. }
  pose proof (Nat.div_mod j w ltac:(lia)) as DM.
  assert (RV : forall r, j mod w = 0 -> r < n + j / w -> j / w <= length code -> val (Z.of_nat (ren r)) (zb (nth r (regs x code) false))).
  { intros r M Hr HK. unfold ren. destruct (Nat.ltb_spec r n) as [C | C].
    - rewrite regs_old by lia. apply input_val, C.
    - set (k := r - n). assert (Hk : k < j / w) by (unfold k; lia). assert (k * w < j) by nia.
      replace (nth r (regs x code) false) with (node_val (k * w)); [apply IH; [assumption|lia]|].
      unfold node_val. rewrite Nat.mod_mul, Nat.div_mul by lia. cbn [Nat.eqb].
      destruct (nth_error code k) eqn:E; [|apply nth_error_None in E; lia]. f_equal. unfold k. lia. }
  destruct (j mod w =? 0) eqn:EM; [|apply D; unfold node_of, node_val; rewrite EM; reflexivity].
  destruct (nth_error code (j / w)) as [ab|] eqn:EC; [|apply D; unfold node_of, node_val; rewrite EM, EC; reflexivity].
  apply Nat.eqb_eq in EM. destruct (Wf _ _ EC) as [W1 W2].
  assert (j / w < length code) by (apply nth_error_Some; congruence).
  apply (G (ren (fst ab)) (ren (snd ab)) (nth (fst ab) (regs x code) false) (nth (snd ab) (regs x code) false)).
  - unfold node_of. rewrite EM. cbn [Nat.eqb]. rewrite EC. reflexivity.
  - apply RV; lia.
  - apply RV; lia.
  - unfold node_val. rewrite EM. cbn [Nat.eqb]. rewrite EC. rewrite <- Hx. apply regs_at; [rewrite Hx; exact Wf|exact EC].
Qed.

Lemma reg_val r : r < n + length code -> val (Z.of_nat (ren r)) (zb (nth r (regs x code) false)).
Proof.
  intros Hr. unfold ren. destruct (Nat.ltb_spec r n) as [C | C].
  - rewrite regs_old by lia. apply input_val, C.
  - set (k := r - n). assert (Hk : k < length code) by (unfold k; lia). assert (k * w < L * w) by nia.
    replace (nth r (regs x code) false) with (node_val (k * w)); [apply node_values; assumption|].
    unfold node_val. rewrite Nat.mod_mul, Nat.div_mul by lia. cbn [Nat.eqb].
    destruct (nth_error code k) eqn:E; [|apply nth_error_None in E; lia]. f_equal. unfold k. lia.
Qed.
End Run.
End Genome.

(** ** the theorem *)
Lemma bits_zb n i : bit_vector n i -> exists x, length x = n /\ i = map zb x.
Proof.
  intros [Hl F]. exists (map (fun b => negb (b =? 0)%Z) i). split; [rewrite map_length; exact Hl|].
  rewrite map_map. clear Hl. induction F as [|b i Hb F IH]; cbn; [reflexivity|]. rewrite <- IH. f_equal.
  destruct Hb as [-> | ->]; reflexivity.
Qed.
Lemma zb_bits n x : length x = n -> bit_vector n (map zb x).
Proof.
  intros <-. split; [apply map_length|]. induction x as [|b x IH]; cbn; constructor; [destruct b; auto|exact IH].
Qed.

Section Main.
Variables (prims : list (prim Z)) (p n m w A : nat) (f : list Z -> list Z).
Hypothesis Hp : nth_error prims p = Some nand.
Hypothesis Hn : 0 < n.
Hypothesis Hm : 0 < m.
Hypothesis Hw : 0 < w.
Hypothesis HA : 2 <= A.
Hypothesis Hf : boolean_function n m f.

Definition bit_of (k : nat) (x : list bool) : bool := negb (nth k (f (map zb x)) 0%Z =? 0)%Z.

Lemma complete_gen : exists L0, forall L, L0 <= L -> exists d genome, make_decoder prims n m L w A None = Ok d /\
  within genome (bounds d) /\ forall prune, exists g, decode d prune genome = Ok g /\
  forall o i, bit_vector n i -> exists o', call g n m o i = Ok (o', f i).
Proof.
  destruct (synth_all n Hn (map bit_of (seq 0 m)) []) as (code & rs & W & F); [intros k ab; destruct k; discriminate|].
  cbn [app] in W, F. exists (S (length code)). intros L HL.
  assert (exists d, make_decoder prims n m L w A None = Ok d) as (d & Ed).
  { unfold make_decoder. destruct (_ || _) eqn:E; [|eauto]. exfalso.
    assert (length prims <> 0) by (intros E0; apply length_zero_iff_nil in E0; subst prims; destruct p; discriminate).
    repeat (apply orb_prop in E as [E | E]); lia. }
  pose proof (make_proper _ _ _ _ _ _ _ _ Ed) as (Pd & D1 & D2 & D3 & D4 & D5 & D6).
  pose proof (make_back _ _ _ _ _ _ _ _ Ed) as Bd. cbn in Bd.
  set (nodes := nodes_of n w A p code L). set (outs := map (fun r => Z.of_nat (ren n w r)) rs).
  assert (Lr : length rs = m).
  { clear -F. assert (G : forall (P : nat -> (list bool -> bool) -> Prop) a b, Forall2 P a b -> length a = length b)
      by (intros P a b H; induction H; cbn; congruence). rewrite (G _ _ _ F), map_length, seq_length. reflexivity. }
  set (genome := concat (map (fun nd => fst nd :: snd nd) nodes) ++ outs).
  assert (Hrs : Forall (fun r => r < n + length code) rs).
  { clear -F. induction F as [|r g rs gs H F IH]; constructor; [apply H|exact IH]. }
  assert (Hl : layout d genome nodes outs).
  { split; [reflexivity|]. split; [unfold nodes, nodes_of; rewrite map_length, seq_length, D4, D5; reflexivity|].
    split; [|unfold outs; rewrite map_length, D3; exact Lr].
    apply Forall_forall. intros nd Hin. apply In_nth_error in Hin as (j & Hj). apply nodes_at in Hj as [_ ->].
    destruct (node_of_shape n w A p code Hn Hw HA W j) as (a & b & -> & _). cbn. rewrite repeat_length. lia. }
  assert (Hfe : feasible d nodes outs).
  { split.
    - intros layer pos nd H1 H2 H3. rewrite D4 in H1. rewrite D5 in H2, H3. apply nodes_at in H3 as [_ ->].
      destruct (node_of_shape n w A p code Hn Hw HA W (layer * w + pos)) as (a & b & -> & Ha & Hb).
      replace ((layer * w + pos) / w) with layer in Ha, Hb.
      2:{ rewrite Nat.add_comm, Nat.div_add by lia. rewrite Nat.div_small by lia. reflexivity. }
      cbn. split; [rewrite D1; assert (p < length prims) by (apply nth_error_Some; congruence); lia|].
      assert (G : forall s, s < n + layer * w -> may_read d layer (Z.of_nat s)) by (intros s Hs; apply Bd; lia).
      constructor; [apply G, Ha|]. constructor; [apply G, Hb|]. apply Forall_forall. intros z Hz. apply repeat_spec in Hz.
      subst z. apply (G 0). lia.
    - rewrite D2, D4, D5. unfold outs. apply Forall_map. eapply Forall_impl; [|exact Hrs]. intros r Hr. cbn in Hr.
      pose proof (ltac:(eapply ren_lt; try eassumption; exact Hr) : ren n w r < n + length code * w). assert (length code * w <= L * w) by nia. lia. }
  set (prog := prog_of n w A p code L).
  assert (Hpr : program d (fun _ => []) nodes prog).
  { split; [unfold prog, prog_of; apply map_length|]. intros j nd Hj. apply nodes_at in Hj as [Hj ->]. exists nand.
    destruct (node_of_shape n w A p code Hn Hw HA W j) as (a & b & E & _). split.
    - rewrite D1, E. cbn. rewrite Nat2Z.id. exact Hp.
    - unfold prog. rewrite prog_at by exact Hj. reflexivity. }
  exists d, genome. split; [exact Ed|]. split; [apply (within_iff d Pd); eauto|]. intros prune.
  destruct (decode_ok d Pd prune genome nodes outs prog Hl Hfe Hpr) as (g & Eg & Hc). exists g. split; [exact Eg|].
  intros o i Hi. destruct (bits_zb n i Hi) as (x & Hx & ->).
  assert (Hff : feed_forward (c_inputs d) prog outs) by exact (prog_feed_forward d Pd genome nodes outs Hl Hfe prog _ Hpr).
  assert (Li : length (map zb x) = c_inputs d) by (rewrite map_length, D2; exact Hx).
  assert (Lo : length outs = c_outputs d) by (rewrite D3; unfold outs; rewrite map_length; exact Lr).
  assert (FV : Forall2 (value (c_inputs d) prog (map zb x)) outs (f (map zb x))).
  { rewrite D2. pose proof (Hf _ Hi) as [Lf Bf].
    replace (f (map zb x)) with (map (fun g => zb (g x)) (map bit_of (seq 0 m))).
    - clear -F Hn Hw HA W Hx HL. unfold outs. induction F as [|r g rs gs H F IH]; cbn; constructor; [|exact IH].
      destruct H as [H1 H2]. rewrite <- (H2 x Hx). apply reg_val; try assumption. lia.
    - rewrite map_map. apply nth_ext with (d := 0%Z) (d' := 0%Z); [rewrite map_length, seq_length; symmetry; exact Lf|].
      intros k Hk. rewrite map_length, seq_length in Hk.
      rewrite (nth_indep _ 0%Z (zb (bit_of 0 x))) by (rewrite map_length, seq_length; exact Hk).
      rewrite (map_nth (fun k => zb (bit_of k x))). rewrite seq_nth by exact Hk. cbn [Nat.add]. unfold bit_of.
      assert (Hin : In (nth k (f (map zb x)) 0%Z) (f (map zb x))) by (apply nth_In; rewrite Lf; exact Hk).
      rewrite Forall_forall in Bf. destruct (Bf _ Hin) as [-> | ->]; reflexivity. }
  rewrite <- D2, <- D3. destruct prune.
  - exact (proj2 (run_pruned d prog outs (map zb x) Li Lo g o Hff Hc _) FV).
  - destruct (run_unpruned d prog outs (map zb x) Li Lo g o Hc) as [H1 H2]. destruct H2 as (o' & vs & Ec).
    + intros j Hj. eexists. rewrite D2. apply node_values; try assumption; [lia|].
      unfold prog, prog_of, nodes_of in Hj. rewrite !map_length, seq_length in Hj. exact Hj.
    + exists o'. rewrite Ec. f_equal. f_equal. assert (Hc' : circuit g (c_inputs d) prog outs) by apply Hc.
      exact (values_det (c_inputs d) prog outs g Hc' Hff (map zb x) Li outs vs _ (H1 vs (ex_intro _ o' Ec)) FV).
Qed.
End Main.

Lemma complete_score prims p n m w A f : nth_error prims p = Some nand -> 0 < n -> 0 < m -> 0 < w -> 2 <= A ->
  boolean_function n m f ->
  exists L0, forall L, L0 <= L -> exists d genome, make_decoder prims n m L w A None = Ok d /\
  within genome (bounds d) /\ forall prune, exists g, decode d prune genome = Ok g /\
  (forall o i, bit_vector n i -> exists o', call g n m o i = Ok (o', f i)) /\
  forall left_over (out_eqb : list Z -> list Z -> bool) k, (forall l, out_eqb l l = true) ->
    exists q, tt_evaluate out_eqb (fun i => Ok (f i)) (runs_as g n m left_over) k false n = Ok q /\ (q == 1)%Q.
Proof.
  intros Hp Hn Hm Hw HA Hf. destruct (complete_gen prims p n m w A f Hp Hn Hm Hw HA Hf) as (L0 & H). exists L0. intros L HL.
  destruct (H L HL) as (d & genome & Ed & Hwi & G). exists d, genome. split; [exact Ed|]. split; [exact Hwi|]. intros prune.
  destruct (G prune) as (g & Eg & C). exists g. split; [exact Eg|]. split; [exact C|]. intros left_over out_eqb k Heq.
  assert (R : forall i, bit_vector n i -> runs_as g n m left_over i = Ok (f i)).
  { intros i Hi. unfold runs_as. destruct (C (left_over i) i Hi) as (o' & ->). reflexivity. }
  destruct (tt_evaluate_spec out_eqb (fun i => Ok (f i)) (runs_as g n m left_over) k false n Hn) as (table & _ & _ & T & _).
  destruct T as (q & Eq & _ & _ & T).
  - intros i Hi. exists (f i), (f i). split; [reflexivity|]. split; [|cbn; apply R, Hi].
    destruct (Hf i Hi) as [Lf _]. intros E. rewrite E in Lf. cbn in Lf. lia.
  - exists q. split; [exact Eq|]. apply T. intros i Hi. cbn. rewrite (R i Hi). apply Heq.
Qed.

(** ** the primitives *)
Lemma nand_spec args : match args with
  | [] => p_call nand args = Err IndexError
  | [a] => p_call nand args = if (a =? 0)%Z then Ok 1%Z else Err IndexError
  | a :: b :: _ => p_call nand args = Ok (if (a =? 0)%Z || (b =? 0)%Z then 1%Z else 0%Z)
  end.
Proof.
  destruct args as [|a [|b r]]; cbn; [reflexivity| |]; unfold py_not; destruct (a =? 0)%Z; reflexivity.
Qed.
Lemma not_x_is_nand a r : p_call not_x (a :: r) = p_call nand [a; a].
Proof. cbn. unfold py_not. destruct (a =? 0)%Z eqn:E; reflexivity. Qed.
Lemma function_primitive_spec g a :
  (forall q, function_primitive g a = Ok q <-> (0 <= a)%Z /\ q = mk_prim (Some (Z.to_nat a)) g) /\
  (forall e, function_primitive g a = Err e <-> (a < 0)%Z /\ e = AssertionError).
Proof.
  unfold function_primitive. destruct (Z.ltb_spec a 0) as [H | H]; split; intros y; split; intros E.
  - discriminate.
  - lia.
  - injection E as <-. auto.
  - destruct E as [_ ->]. reflexivity.
  - injection E as <-. auto.
  - destruct E as [_ ->]. reflexivity.
  - discriminate.
  - lia.
Qed.

(** ** one mutation reaches any genome within the bounds *)
Lemma cgp_reaches (d : decoder Z) expected probability p g h :
  rate_is expected probability (length g) p -> (0 < p)%Q -> (p <= 1)%Q -> length g = num_genes d ->
  proper d -> within h (bounds d) ->
  exists us ds, length us = length g /\ unit_draws us /\ length ds = length g /\ cgp_mutate d expected probability us ds g = Ok h.
Proof.
  intros Hr P0 P1 Lg Pd Hh.
  assert (Lb : length g = length (bounds d)).
  { rewrite Lg. apply (within_iff d Pd) in Hh as (nodes & outs & Hl & Hf).
    unfold bounds, num_genes, min_bounds, max_bounds. rewrite combine_length, !app_length, !repeat_length.
    assert (E : forall (b : nat -> Z * Z) N, length (flat_map (fun l => flat_map (fun _ : nat => fst (b l) :: repeat (snd (b l)) (c_arity d)) (seq 0 (c_width d))) (seq 0 N)) = N * c_width d * (c_arity d + 1)).
    { intros b N. generalize 0 at 2 as s. induction N as [|N IH]; intros s; cbn [seq flat_map]; [reflexivity|]. rewrite app_length, IH.
      assert (forall W t, length (flat_map (fun _ : nat => fst (b s) :: repeat (snd (b s)) (c_arity d)) (seq t W)) = W * (c_arity d + 1)) as ->; [|nia].
      induction W as [|W IHW]; intros t; cbn [seq flat_map]; [reflexivity|]. rewrite app_length, IHW. cbn [length]. rewrite repeat_length. nia. }
    pose proof (E (fun l => (0, min_source d l)%Z) (c_layers d)) as E1. cbn [fst snd] in E1. rewrite E1.
    pose proof (E (fun l => (Z.of_nat (length (c_prims d)) - 1, max_source d l)%Z) (c_layers d)) as E2. cbn [fst snd] in E2. rewrite E2. lia. }
  destruct (randint_reaches (bounds d) expected probability p g h Hr P0 P1 Lb Hh) as (us & ds & L1 & U & L2 & E).
  exists us, ds. split; [exact L1|]. split; [exact U|]. split; [exact L2|]. unfold cgp_mutate, cgp_genome_mutate.
  destruct (@mask_of_rate ValueError expected probability us (length g) p Hr ltac:(lra) P1) as [-> _]. exact E.
Qed.

(** ** functions of at most one argument never combine two inputs *)
Lemma unary_value {V} (n : nat) (prog : list (pnode V)) outs : 0 < n -> feed_forward n prog outs ->
  (forall j p srcs par, nth_error prog j = Some (p, srcs, par) -> length srcs <= 1) ->
  forall b s, (s < Z.of_nat b)%Z -> exists k, k < n /\ forall i i' v v', nth_error i k = nth_error i' k ->
    value n prog i s v -> value n prog i' s v' -> v = v'.
Proof.
  intros Hn [Hff _] Hu. induction b as [|b IH]; intros s Hs.
  - exists 0. split; [exact Hn|]. intros i i' v v' _ H _. inversion H; lia.
  - destruct (Z_lt_ge_dec s (Z.of_nat n)) as [C | C].
    + exists (Z.to_nat s). destruct (Z_lt_ge_dec s 0) as [N | N].
      { split; [lia|]. intros i i' v v' _ H _. inversion H; lia. }
      split; [lia|]. intros i i' v v' E H H'.
      inversion H as [k w Hk Hw Es Ev|j p srcs par args w Hj Ha Hc Es Ev]; [|lia].
      inversion H' as [k' w' Hk' Hw' Es' Ev'|j' p' srcs' par' args' w' Hj' Ha' Hc' Es' Ev']; [|lia]. subst.
      rewrite Nat2Z.id in E. assert (k' = k) by lia. subst k'. congruence.
    + set (j := Z.to_nat s - n). assert (Es : s = Z.of_nat (n + j)) by (unfold j; lia). clearbody j.
      destruct (nth_error prog j) as [[[p srcs] par]|] eqn:Ej.
      2:{ exists 0. split; [exact Hn|]. intros i i' v v' _ H _. inversion H as [k w Hk Hw Es1 Ev|j' p' srcs' par' args' w' Hj' Ha' Hc' Es' Ev']; [lia|].
          assert (j' = j) by lia. congruence. }
      specialize (Hu j p srcs par Ej). specialize (Hff j p srcs par Ej).
      assert (G : exists k, k < n /\ forall i i' args args', nth_error i k = nth_error i' k ->
        Forall2 (value n prog i) srcs args -> Forall2 (value n prog i') srcs args' -> args = args').
      { destruct srcs as [|t [|]]; [| |cbn in Hu; lia].
        - exists 0. split; [exact Hn|]. intros i i' args args' _ F F'. inversion F. inversion F'. reflexivity.
        - inversion Hff as [|? ? Ht _]. subst. destruct (IH t ltac:(lia)) as (k & Hk & H). exists k. split; [exact Hk|].
          intros i i' args args' E F F'. inversion F as [|? a ? l Ha Fn]. inversion Fn. inversion F' as [|? a' ? l' Ha' Fn']. inversion Fn'.
          f_equal. exact (H i i' a a' E Ha Ha'). }
      destruct G as (k & Hk & G). exists k. split; [exact Hk|]. intros i i' v v' E H H'.
      inversion H as [k1 w Hk1 Hw Es1 Ev|j1 p1 srcs1 par1 args1 w Hj1 Ha1 Hc1 Es1 Ev]; [lia|].
      inversion H' as [k2 w' Hk2 Hw' Es2 Ev'|j2 p2 srcs2 par2 args2 w' Hj2 Ha2 Hc2 Es2 Ev']; [lia|].
      assert (j1 = j) by lia. assert (j2 = j) by lia. subst j1 j2. rewrite Ej in Hj1, Hj2. injection Hj1 as <- <- <-. injection Hj2 as <- <- <-.
      rewrite (G i i' args1 args2 E Ha1 Ha2) in Hc1. congruence.
Qed.

Lemma unary_circuits {V} (d : decoder V) genome prune g : proper d ->
  (forall p, In p (c_prims d) -> exists a, p_arity p = Some a /\ a <= 1) ->
  within genome (bounds d) -> decode d prune genome = Ok g ->
  forall q, q < c_outputs d -> exists k, k < c_inputs d /\ forall i i' o o' r r' vs vs',
    length i = c_inputs d -> length i' = c_inputs d -> nth_error i k = nth_error i' k ->
    call g (c_inputs d) (c_outputs d) o i = Ok (r, vs) -> call g (c_inputs d) (c_outputs d) o' i' = Ok (r', vs') ->
    nth_error vs q = nth_error vs' q.
Proof.
  intros Pd Hu Hw Eg q Hq. apply (within_iff d Pd) in Hw as (nodes & outs & Hl & Hf).
  destruct (program_exists d Pd genome nodes outs (fun _ => []) Hl Hf) as (prog & Hp).
  assert (Hff : feed_forward (c_inputs d) prog outs) by exact (prog_feed_forward d Pd genome nodes outs Hl Hf prog _ Hp).
  assert (Hs : forall j p srcs par, nth_error prog j = Some (p, srcs, par) -> length srcs <= 1).
  { intros j p srcs par Hj. destruct Hp as [Hlen HP].
    destruct (nth_error nodes j) as [nd|] eqn:End; [|apply nth_error_None in End; assert (j < length prog) by (apply nth_error_Some; congruence); lia].
    destruct (HP j nd End) as (p' & E1 & E2). rewrite Hj in E2. injection E2 as -> -> _.
    destruct (Hu p' (nth_error_In _ _ E1)) as (a & Ea & La). unfold used. rewrite Ea, firstn_length. lia. }
  assert (Ho : length outs = c_outputs d) by apply Hl.
  destruct (nth_error outs q) as [s|] eqn:Es; [|apply nth_error_None in Es; lia].
  destruct (unary_value (c_inputs d) prog outs ltac:(apply Pd) Hff Hs (Z.to_nat (s + 1)) s) as (k & Hk & H).
  { destruct Hff as [_ Ho2]. rewrite Forall_forall in Ho2. specialize (Ho2 s (nth_error_In _ _ Es)). lia. }
  exists k. split; [exact Hk|]. intros i i' o o' r r' vs vs' Li Li' E C C'.
  assert (FV : forall i o r vs, length i = c_inputs d -> call g (c_inputs d) (c_outputs d) o i = Ok (r, vs) ->
    Forall2 (value (c_inputs d) prog i) outs vs).
  { clear i i' o o' r r' vs vs' Li Li' E C C'. intros i o r vs Li C.
    destruct (any_pruned d genome nodes outs prog i Pd Hl Hf Hp Li) as (g1 & g2 & E1 & E2 & G). specialize (G o vs) as [G1 G2].
    destruct prune; [rewrite E2 in Eg|rewrite E1 in Eg]; injection Eg as <-; [apply G2|apply G1]; eauto. }
  assert (At : forall (P : Z -> V -> Prop) l vs, Forall2 P l vs -> nth_error l q = Some s -> exists v, nth_error vs q = Some v /\ P s v).
  { clear. intros P l vs F. revert q. induction F as [|x v l vs H F IH]; intros [|q] E; cbn in *; try discriminate.
    - injection E as ->. eauto.
    - apply IH, E. }
  destruct (At _ _ _ (FV _ _ _ _ Li C) Es) as (v & -> & Hv). destruct (At _ _ _ (FV _ _ _ _ Li' C') Es) as (v' & -> & Hv').
  f_equal. exact (H i i' v v' E Hv Hv').
Qed.

(** so NotX alone cannot even compute the conjunction of two inputs *)
Lemma not_alone d genome prune g L w arity back : make_decoder [not_x] 2 1 L w arity back = Ok d ->
  within genome (bounds d) -> decode d prune genome = Ok g ->
  ~ forall i, bit_vector 2 i -> exists o r, call g 2 1 o i = Ok (r, [Z.land (nth 0 i 0) (nth 1 i 0)]%Z).
Proof.
  intros Ed Hw Eg. pose proof (make_proper _ _ _ _ _ _ _ _ Ed) as (Pd & D1 & D2 & D3 & _).
  destruct (unary_circuits d genome prune g Pd) with (q := 0) as (k & Hk & H); try assumption; [|lia|].
  { rewrite D1. intros p [<- | []]. exists 1. split; [reflexivity|lia]. }
  rewrite D2, D3 in *. intros C.
  assert (B : forall a b, (a = 0 \/ a = 1)%Z -> (b = 0 \/ b = 1)%Z -> bit_vector 2 [a; b]) by (intros a b Ha Hb; split; [reflexivity|constructor; [exact Ha|constructor; [exact Hb|constructor]]]).
  destruct (C [1; 1]%Z (B 1%Z 1%Z ltac:(lia) ltac:(lia))) as (o1 & r1 & E1).
  destruct k as [|[|k]]; [| |lia].
  - destruct (C [1; 0]%Z (B 1%Z 0%Z ltac:(lia) ltac:(lia))) as (o2 & r2 & E2).
    specialize (H [1;1]%Z [1;0]%Z _ _ _ _ _ _ eq_refl eq_refl eq_refl E1 E2). discriminate.
  - destruct (C [0; 1]%Z (B 0%Z 1%Z ltac:(lia) ltac:(lia))) as (o2 & r2 & E2).
    specialize (H [1;1]%Z [0;1]%Z _ _ _ _ _ _ eq_refl eq_refl eq_refl E1 E2). discriminate.
Qed.
