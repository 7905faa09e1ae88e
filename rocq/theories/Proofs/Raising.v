(** Proofs about which exceptions runs raise. *)
From Coq Require Import Lia Permutation.
From Verif Require Import Model.Base Model.PyList Model.Scalar Model.Selection Model.Counters Model.Heap Model.Pipeline Model.HeapEa
  Model.HeapIslands Spec.Order Spec.Selection Spec.Heap Spec.HeapEa Spec.Raising
  Proofs.Order Proofs.PyList Proofs.ScalarSel Proofs.Algorithm Proofs.Heap Proofs.Pipeline Proofs.HeapEa Proofs.HeapIslands.
Local Open Scope nat_scope.
Local Open Scope list_scope.

Section Raising.
Variable E : exn -> Prop.

Lemma passes_pep e : passes E e -> passes E (pep479 e).
Proof. destruct e; cbn; auto. Qed.
Lemma passes_in e : passes E e -> E (pep479 e).
Proof. destruct e; cbn; auto. Qed.

(** ** pulls *)
Section Kind.
Context {G P F : Type}.
Variable nan : F.
Variable decoder_of : nat -> option (list G -> result P).
Variable problem_of : nat -> phen_value G P -> result F.
Implicit Types w : world G P F.
Notation D := (fun _ : list G => True).
Variable problem decoder : nat.
Variable robust : bool.
Notation pull := (pull nan decoder_of problem_of).
Notation pool := (pool nan decoder_of problem_of).
Notation kind := (kind D problem decoder robust).

Lemma evaluate_errors (Q : exn -> Prop) w i e w' :
  (robust = true \/ forall g e, score (decoder_of decoder) (problem_of problem) g = Err e -> Q e) ->
  kind w i -> evaluate nan decoder_of problem_of w i = (Err e, w') -> Q e.
Proof.
  intros H (_ & Kp & Kd & Kr) Ev. apply evaluate_spec in Ev. destruct Ev as (_ & _ & _ & _ & _ & _ & _ & _ & _ & _ & _ & Ev).
  rewrite Kp, Kd, Kr in Ev. destruct (score _ _ _) as [f|e'] eqn:Es.
  - destruct Ev as [Ev _]. discriminate.
  - destruct H as [->|H]; [destruct Ev as [Ev _]; discriminate|]. destruct robust; destruct Ev as [Ev _]; [discriminate|].
    injection Ev as ->. eapply H; eauto.
Qed.

Lemma anything (l : list (op G)) : Forall (stays_within D) l.
Proof. apply Forall_forall. intros o _. destruct o; cbn; auto. Qed.

Variable w0 : world G P F.
Notation sources_ok := (sources_ok D problem decoder robust w0).
Hypothesis scored : robust = true \/ forall g, passes_only E (score (decoder_of decoder) (problem_of problem) g).

Definition picks_some (o : op G) : Prop :=
  match o with OpSelect pop pick => E IndexError \/ forall k, pick k < length pop | OpIter _ => False | _ => True end.

Lemma select_errors pop pick (s : ostate) : picks_some (OpSelect pop pick) ->
  nth_error pop (pick (s_done s)) = None -> E IndexError.
Proof. intros [H|H] En; auto. apply nth_error_None in En. specialize (H (s_done s)). lia. Qed.

Lemma pull_length (up : list (op G)) : forall sts w i sts' w', length sts = length up -> pull up sts w = Ok (i, sts', w') ->
  length sts' = length up.
Proof.
  induction up as [|o up IH]; intros sts w i sts' w' HL H; [destruct sts; discriminate|].
  destruct sts as [|s ss]; [discriminate|]. cbn in HL. assert (HLs : length ss = length up) by lia.
  destruct o as [items|pop pick| |f quiet|skip f fresh| ]; cbn [Pipeline.pull] in H.
  - destruct (nth_error items (s_done s)); [|discriminate]. injection H as <- <- <-. cbn. auto.
  - destruct (nth_error pop (pick (s_done s))); [|discriminate]. injection H as <- <- <-. cbn. auto.
  - destruct (pull up ss w) as [[[j ss'] w1]|] eqn:Eu; [|discriminate]. destruct (clone w1 j) as [c w2].
    injection H as <- <- <-. cbn. f_equal. eapply IH; eauto.
  - destruct (pull up ss w) as [[[j ss'] w1]|] eqn:Eu; [|discriminate].
    destruct (mutate_ind (f (s_done s)) w1 j) as [[u|e] w2]; [|discriminate]. injection H as <- <- <-. cbn. f_equal. eapply IH; eauto.
  - destruct (s_second s) as [j|]; [injection H as <- <- <-; cbn; auto|].
    destruct (pull up ss w) as [[[j ss'] w1]|] eqn:Eu; [|discriminate].
    destruct (pull up ss' w1) as [[[j2 ss2] w2]|] eqn:Eu2; [|discriminate].
    destruct (xover_pair (skip (s_done s)) (f (s_done s)) fresh w2 j j2) as [[u|e] w3]; [|discriminate].
    injection H as <- <- <-. cbn. f_equal. eapply IH; [|exact Eu2]. eapply IH; eauto.
  - destruct (pull up ss w) as [[[j ss'] w1]|] eqn:Eu; [|discriminate].
    destruct (evaluate nan decoder_of problem_of w1 j) as [[u|e] w2]; [|discriminate]. injection H as <- <- <-. cbn. f_equal. eapply IH; eauto.
Qed.

Lemma mutate_errors f w i e w' : (forall g, passes_only E (f g)) -> mutate_ind f w i = (Err e, w') -> passes E e.
Proof. unfold mutate_ind. intros Hf H. destruct (f (genes w i)) as [[a b]|e'] eqn:Ef; [destruct b; discriminate|]. injection H as -> <-. eapply Hf; eauto. Qed.
Lemma xover_errors skip f fresh w i j e w' : (forall a b, passes_only E (f a b)) -> xover_pair skip f fresh w i j = (Err e, w') -> passes E e.
Proof.
  unfold xover_pair, recombine_ind. intros Hf H. destruct skip; [discriminate|].
  destruct (f (genes w i) (genes w j)) as [[a b]|e'] eqn:Ef; [destruct fresh; discriminate|]. injection H as -> <-. eapply Hf; eauto.
Qed.

Lemma pull_errors stack : breeding (w_nind w0) stack -> Forall (op_raises E) stack -> Forall picks_some stack -> sources_ok stack ->
  forall sts w out e, length sts = length stack ->
  inv w0 w (out ++ held sts) -> (forall j, In j (held sts) -> kind w j) ->
  pull stack sts w = Err e -> passes E e.
Proof.
  induction stack as [|o up IH]; intros HB HW HPk HSo; [destruct HB|].
  pose proof (Forall_inv HW) as Ho. apply Forall_inv_tail in HW. apply Forall_inv_tail in HPk.
  assert (HSu : sources_ok up) by (intros o' j H1 H2; apply (HSo o' j); auto; right; auto).
  intros sts w out e HL HI HK H. destruct sts as [|s ss]; [discriminate|].
  assert (HLs : length ss = length up) by (cbn in HL; lia).
  assert (Hh : inv w0 w (out ++ held ss)).
  { cbn in HI. destruct (s_second s); auto. cbn in HI.
    eapply inv_drop. eapply inv_perm; [apply perm_to_front|]. exact HI. }
  assert (HKh : forall j, In j (held ss) -> kind w j).
  { intros j Hj. apply HK. cbn. apply in_or_app. right. exact Hj. }
  destruct o as [items|pop pick| |f quiet|skip f fresh| ]; try (destruct HB; fail); cbn [Pipeline.pull] in H.
  - assert (Hup : forall e', pull up ss w = Err e' -> passes E e').
    { clear H e. intros e H. cbn in HB. destruct up as [|o [|o2 r]]; [destruct HB| |].
      - destruct o; try (apply (IH HB HW HPk HSu ss w out e); auto; fail).
        + destruct (Forall_inv HPk).
        + destruct ss as [|s2 [|]]; try discriminate. cbn [Pipeline.pull] in H.
          destruct (nth_error population (pick (s_done s2))) eqn:En; [discriminate|]. injection H as <-. cbn.
          eapply select_errors; [exact (Forall_inv HPk)|exact En].
      - apply (IH ltac:(destruct o; exact HB) HW HPk HSu ss w out e); auto. }
    destruct (pull up ss w) as [[[i ss'] w1]|e'] eqn:Eu; [destruct (clone w1 i); discriminate|].
    injection H as <-. apply passes_pep. auto.
  - destruct (pull up ss w) as [[[i ss'] w1]|e'] eqn:Eu.
    + destruct (mutate_ind (f (s_done s)) w1 i) as [[u|e'] w2] eqn:Em; [discriminate|]. injection H as <-. apply passes_pep.
      eapply mutate_errors; [|exact Em]. intros g. apply Ho.
    + injection H as <-. pose proof (IH HB HW HPk HSu ss w out e' HLs Hh HKh Eu) as Hp. destruct quiet; auto. apply passes_pep. auto.
  - destruct (s_second s) as [j|] eqn:Es; [discriminate|].
    destruct (pull up ss w) as [[[i ss'] w1]|e'] eqn:Eu.
    + destruct (pull_kind nan decoder_of problem_of D problem decoder robust w0 up HB (anything up) HSu ss w i ss' w1 out Hh HKh Eu) as [K1 K2].
      destruct (pull_inv nan decoder_of problem_of w0 up HB ss w i ss' w1 out Hh Eu) as [HI1 HS1].
      pose proof (pull_length up ss w i ss' w1 HLs Eu) as HL1.
      destruct (pull up ss' w1) as [[[j ss2] w2]|e'] eqn:Eu2.
      * destruct (xover_pair (skip (s_done s)) (f (s_done s)) fresh w2 i j) as [[u|e'] w3] eqn:Ex; [discriminate|]. injection H as <-.
        apply passes_pep. eapply xover_errors; [|exact Ex]. intros a b. apply Ho.
      * injection H as <-. apply passes_pep. exact (IH HB HW HPk HSu ss' w1 (i :: out) e' HL1 HI1 K2 Eu2).
    + injection H as <-. apply passes_pep. exact (IH HB HW HPk HSu ss w out e' HLs Hh HKh Eu).
  - destruct (pull up ss w) as [[[i ss'] w1]|e'] eqn:Eu.
    + destruct (pull_kind nan decoder_of problem_of D problem decoder robust w0 up HB (anything up) HSu ss w i ss' w1 out Hh HKh Eu) as [K1 _].
      destruct (evaluate nan decoder_of problem_of w1 i) as [[u|e'] w2] eqn:Ev; [discriminate|]. injection H as <-. apply passes_pep.
      eapply evaluate_errors; [|exact K1|exact Ev]. destruct scored as [Hr|Hs]; [left; exact Hr|right; intros g e0; apply Hs].
    + injection H as <-. apply passes_pep. exact (IH HB HW HPk HSu ss w out e' HLs Hh HKh Eu).
Qed.

(** what a generator raises is never StopIteration *)
Lemma eval_never_stops up sts w : pull (OpEval :: up) sts w <> Err StopIteration.
Proof.
  destruct sts as [|s ss]; [discriminate|]. cbn [Pipeline.pull]. destruct (pull up ss w) as [[[i ss'] w1]|e].
  - destruct (evaluate nan decoder_of problem_of w1 i) as [[u|e] w2]; [discriminate|]. destruct e; discriminate.
  - destruct e; discriminate.
Qed.

Lemma pool_errors n : forall up, let stack := OpEval :: up in breeding (w_nind w0) stack -> Forall (op_raises E) stack ->
  (n = 0 \/ Forall picks_some stack) -> sources_ok stack ->
  forall sts w before e, length sts = length stack ->
  inv w0 w (before ++ held sts) -> (forall j, In j (held sts) -> kind w j) ->
  pool n stack sts w = Err e -> E e.
Proof.
  intros up stack HB HW HPk HS. destruct HPk as [->|HPk]; [intros; discriminate|].
  induction n as [|n IH]; intros sts w before e HL HI HK H; [discriminate|]. cbn [Pipeline.pool] in H.
  destruct (pull stack sts w) as [[[i sts1] w1]|e'] eqn:Eu.
  - destruct (pull_kind nan decoder_of problem_of D problem decoder robust w0 stack HB (anything stack) HS sts w i sts1 w1 before HI HK Eu) as [K1 K2].
    destruct (pull_inv nan decoder_of problem_of w0 stack HB sts w i sts1 w1 before HI Eu) as [HI1 HS1].
    destruct (pool n stack sts1 w1) as [[[r sts2] w2]|e'] eqn:Ep; [discriminate|]. injection H as <-.
    eapply (IH sts1 w1 (i :: before)); eauto. eapply pull_length; eauto.
  - injection H as <-. pose proof (pull_errors stack HB HW HPk HS sts w before e' HL HI HK Eu) as Hp.
    pose proof (eval_never_stops up sts w) as Hn. fold stack in Hn. rewrite Eu in Hn. destruct e'; auto. congruence.
Qed.
End Kind.

(** ** the generational run *)
Section Run.
Context {G P : Type}.
Variable decoder_of : nat -> option (list G -> result P).
Variable problem_of : nat -> phen_value G P -> result num.
Implicit Types w : world G P num.
Notation D := (fun _ : list G => True).
Notation kind p := (kind D p).
Notation good p d r := (good decoder_of problem_of D p d r).

Lemma generation_errors problem decoder robust w parents (ops : list (op G)) pk size e :
  (robust = true \/ forall g, passes_only E (score (decoder_of decoder) (problem_of problem) g)) ->
  clone_vary_evaluate ops -> Forall (op_raises E) ops ->
  (size = 0 \/ E IndexError \/ forall k, pk k < length parents) ->
  good problem decoder robust w parents ->
  let stack := ops ++ [OpSelect parents pk] in
  pool NNan decoder_of problem_of size stack (start stack) w = Err e -> E e.
Proof.
  intros Hsc Hc Ho Hp HG stack. 
  destruct (stack_breeding w ops parents pk Hc) as [HB (up & Eup)]; [intros j Hj; apply HG; auto|].
  fold stack in HB, Eup.
  assert (I0 : inv w w ([] ++ held (start stack))) by (rewrite held_start; apply inv_init).
  assert (HWs : Forall (op_raises E) stack).
  { unfold stack. apply Forall_app. split; auto. constructor; [exact I|constructor]. }
  assert (Hns : Forall (fun o : op G => is_source o = false) ops).
  { destruct Hc as (between & -> & HFb). constructor; auto. apply Forall_app. split; auto. }
  assert (HPs : size = 0 \/ Forall picks_some stack).
  { destruct Hp as [Hp|Hp]; auto. right. unfold stack. apply Forall_app. split; [|constructor; [exact Hp|constructor]].
    eapply Forall_impl; [|exact Hns]. intros o Hq. destruct o; try discriminate; exact I. }
  assert (HSo : sources_ok D problem decoder robust w stack).
  { intros o j Hq Hj. unfold stack in Hq. apply in_app_or in Hq. destruct Hq as [Hq|[<-|[]]].
    - rewrite Forall_forall in Hns. specialize (Hns o Hq). destruct o; try discriminate; destruct Hj.
    - cbn in Hj. destruct HG as (_ & _ & HG). destruct (HG j Hj) as (A & B & C & _). auto. }
  rewrite Eup in *.
  apply (pool_errors NNan decoder_of problem_of problem decoder robust w Hsc size up HB HWs HPs HSo (start (OpEval :: up)) w []); auto.
  - unfold start. apply map_length.
  - rewrite held_start. intros j [].
Qed.

Lemma population_errors problem decoder robust (Hsc : robust = true \/ forall g, raises_only E (score (decoder_of decoder) (problem_of problem) g)) l :
  forall w e w', (forall i, In i l -> kind problem decoder robust w i) ->
  evaluate_population NNan decoder_of problem_of w l = (Err e, w') -> E e.
Proof.
  induction l as [|i l IH]; intros w e w' HK H; [discriminate|]. cbn [evaluate_population] in H.
  destruct (evaluate NNan decoder_of problem_of w i) as [[f|e'] w1] eqn:Ev.
  - apply evaluate_spec in Ev. destruct Ev as (V1 & V2 & V3 & V4 & V5 & V6 & V7 & V8 & _ & _ & V9 & _).
    eapply IH; [|exact H]. intros j Hj. assert (Hk := HK j (or_intror Hj)). unfold HeapEa.kind, genes in *. 
    destruct (Nat.eq_dec j i) as [->|Hne]; [rewrite V7, V8, V9|rewrite V5 by auto]; intuition.
  - injection H as <- <-. eapply evaluate_errors; [|apply HK; left; reflexivity|exact Ev]. destruct Hsc as [Hr|Hs]; [left; exact Hr|right; intros g e0; apply Hs].
Qed.

Variable maximize : bool.
Variable coin : nat -> sind -> sind -> bool.
Variable max_generations : Z.
Variables k_elites size : nat.
Variable operators : nat -> list (op G).
Variable pick : nat -> world G P num -> list nat -> nat -> nat.
Variable stop : nat -> world G P num -> list nat -> bool.
Variables problem decoder : nat.
Variable robust : bool.
Notation ea_loop := (ea_loop decoder_of problem_of maximize coin max_generations k_elites size operators pick stop).
Notation scoring := (score (decoder_of decoder) (problem_of problem)).

Hypothesis Hops : forall i, clone_vary_evaluate (operators i) /\ Forall (op_raises E) (operators i).
Hypothesis Hscore : robust = true \/ forall g, passes_only E (scoring g).

Lemma loop_errors (Hpick : E IndexError \/ forall i w l k, l <> [] -> pick i w l k < length l) :
  forall fuel i gc w earlier parents e gc',
  good problem decoder robust w parents -> (E IndexError \/ size = 0 \/ parents <> []) ->
  ea_loop fuel i gc w earlier parents = Some (Err e, gc') -> E e.
Proof.
  induction fuel as [|fuel IH]; intros i gc w earlier parents e gc' HG Hne H; cbn [HeapEa.ea_loop] in H;
    destruct (gc_generation gc <? max_generations)%Z; try discriminate; destruct (stop i w parents); try discriminate.
  destruct (Hops i) as [Hc Ho].
  destruct (pool NNan decoder_of problem_of size _ _ w) as [[[offspring sts] w1]|e'] eqn:EP.
  - destruct (generation_good decoder_of problem_of D problem decoder robust maximize coin k_elites i w parents _ _ _ _ _ _ HG Hc (anything _) EP)
      as (Hgr & Lo & surv & Es & Ls & Gs & _).
    rewrite Es in H. eapply IH; [exact Gs| |exact H]. destruct Hne as [?|[?|?]]; auto.
    destruct size; auto. right. right. intros C. rewrite C in Ls. discriminate.
  - injection H as <- <-. eapply generation_errors; [exact Hscore|exact Hc|exact Ho| |exact HG|exact EP].
    destruct Hpick as [HE|Hp]; [right; left; exact HE|]. destruct Hne as [HE|[HE|Hne]]; [right; left; exact HE|left; exact HE|].
    right. right. intros k. apply Hp. exact Hne.
Qed.
End Run.
End Raising.

Theorem heap_run_errors (E : exn -> Prop) G P (decoder_of : nat -> option (list G -> result P)) problem_of maximize coin max_generations
    k_elites size operators pick stop initialize problem decoder robust pop_size start w e gc :
  (forall i, clone_vary_evaluate (operators i) /\ Forall (op_raises E) (operators i)) ->
  (robust = true \/ forall g, raises_only E (score (decoder_of decoder) (problem_of problem) g) /\
                              passes_only E (score (decoder_of decoder) (problem_of problem) g)) ->
  (E IndexError \/ (1 <= pop_size /\ forall i w l k, l <> [] -> pick i w l k < length l)) ->
  heap_ea decoder_of problem_of maximize coin max_generations k_elites size operators pick stop
    initialize problem decoder robust pop_size start w = Some (Err e, gc) -> E e.
Proof.
  intros Hops Hscore Hpick H. unfold heap_ea in H.
  destruct (create_all initialize problem decoder robust pop_size 0 w) as [l w1] eqn:EC.
  pose proof (create_all_spec problem decoder robust _ _ _ _ _ _ EC) as (L & HG & N1 & N2 & HA).
  destruct (evaluate_population NNan decoder_of problem_of w1 l) as [[u|e'] w2] eqn:EE.
  - destruct (initial_good decoder_of problem_of (fun _ => True) problem decoder robust _ _ _ _ _ _ _ (fun _ => I) EC EE) as (_ & HGd & _).
    eapply loop_errors; [exact Hops| | |exact HGd| |exact H].
    + destruct Hscore as [Hr|Hs]; [left; exact Hr|right; intros g; apply Hs].
    + destruct Hpick as [?|[_ ?]]; auto.
    + destruct Hpick as [HE|[Hp _]]; [left; exact HE|right; right]. intros ->. cbn in L. lia.
  - injection H as <- <-. eapply (population_errors E decoder_of problem_of problem decoder robust); [| |exact EE].
    + destruct Hscore as [Hr|Hs]; [left; exact Hr|right; intros g; apply Hs].
    + intros i Hi. destruct (HA i Hi) as (_ & _ & _ & K). split; [exact I|exact K].
Qed.

(** ** islands *)
Section IslandErrors.
Context {G P : Type}.
Variable E : exn -> Prop.
Variable decoder_of : nat -> option (list G -> result P).
Variable problem_of : nat -> phen_value G P -> result num.
Variable direction : nat -> bool.
Variable pb : nat -> nat.
Variable decoder : nat.
Variable robust : bool.
Implicit Types w : world G P num.
Notation D := (fun _ : list G => True).
Notation good p := (HeapEa.good decoder_of problem_of D p decoder robust).
Notation kind p := (HeapEa.kind D p decoder robust).
Notation belongs := (belongs decoder_of problem_of D pb decoder robust).
Notation state := (state decoder_of problem_of D pb decoder robust).
Notation recorded := (recorded decoder_of problem_of D pb decoder robust).
Notation scoring i := (score (decoder_of decoder) (problem_of (pb i))).
Variable stamps : bool.
Hypothesis Hproblem : stamps = true \/ forall i j, pb i = pb j.
Variable replace : nat -> nat -> nat -> world G P num -> list nat -> nat.
Variable coin : nat -> nat -> nat -> bool.
Variable sponsor : nat -> nat -> world G P num -> list nat -> nat.
Variable draw : nat -> nat -> nat.
Variable neighbors : nat -> list nat.
Variable gap : Z.
Variable n : nat.
Variable size : nat.
Variable operators : nat -> nat -> list (op G).
Variable pick : nat -> nat -> world G P num -> list nat -> nat -> nat.
Variable max_generations : Z.
Variable stop : nat -> world G P num -> list (list nat) -> bool.
Hypothesis Hops : forall g i, clone_vary_evaluate (operators g i) /\ Forall (op_raises E) (operators g i).
Hypothesis Hscore : robust = true \/ forall i g, raises_only E (scoring i g) /\ passes_only E (scoring i g).
Hypothesis Hindex : E IndexError \/
  (1 <= size /\ (forall g i w l k, l <> [] -> pick g i w l k < length l) /\ (forall g i k w l, l <> [] -> replace g i k w l < length l) /\
   (forall g i w l, l <> [] -> sponsor g i w l < length l) /\
   (forall g i, i < n -> draw g i < length (neighbors i)) /\ (forall i j, i < n -> In j (neighbors i) -> j < n)).
Hypothesis Hgap : E ZeroDivisionError \/ gap <> 0%Z.

Lemma Hops' : forall g i, clone_vary_evaluate (operators g i) /\ Forall (stays_within D) (operators g i).
Proof. intros g i. split; [apply Hops|apply anything]. Qed.

Lemma customs_errors i w imm e w' : belongs w imm -> customs decoder_of problem_of pb stamps i w imm = (Err e, w') -> E e.
Proof.
  intros [s [(K1 & K2 & K3 & K4) _]] H. unfold customs in H. destruct stamps; [|discriminate].
  set (w1 := upd_ind w imm _) in H.
  destruct (evaluate NNan decoder_of problem_of w1 imm) as [[f|e'] w2] eqn:Ev; [discriminate|]. injection H as <- <-.
  eapply (evaluate_errors NNan decoder_of problem_of (pb i) decoder robust E w1 imm e' w2); [| |exact Ev].
  - destruct Hscore as [Hr|Hs]; [left; exact Hr|right; intros g e0; apply (Hs i g)].
  - assert (A : w_ind w1 imm = mk_indiv (i_genome (w_ind w imm)) (pb i) (i_decoder (w_ind w imm)) (i_fitness (w_ind w imm))
      (i_phenome (w_ind w imm)) (i_uuid (w_ind w imm)) (i_parents (w_ind w imm)) (i_robust (w_ind w imm))
      (i_viable (w_ind w imm)) (i_exc (w_ind w imm))) by (unfold w1, upd_ind; cbn; rewrite upd_same; auto).
    unfold HeapEa.kind. rewrite A. cbn [i_problem i_decoder i_robust]. repeat split; auto.
Qed.

Lemma position_errors {A} (l : list A) k : E IndexError \/ k < length l -> nth_error l k = None -> E IndexError.
Proof. intros [H|H] En; auto. apply nth_error_None in En. lia. Qed.

Notation immigration := (immigration decoder_of problem_of direction pb stamps replace coin).
Lemma immigration_errors g i : forall imms k w pop R e,
  good (pb i) w pop -> (E IndexError \/ pop <> []) -> sep w (pop ++ imms ++ R) -> (forall x, In x imms -> belongs w x) ->
  immigration g i k imms w pop = Err e -> E e.
Proof.
  induction imms as [|imm imms IH]; intros k w pop R e HG Hne HS HB H; cbn [HeapIslands.immigration] in H; [discriminate|].
  destruct (customs decoder_of problem_of pb stamps i w imm) as [[u|e'] w1] eqn:EC.
  2:{ injection H as <-. eapply customs_errors; [|exact EC]. apply HB. left. auto. }
  assert (Hlive : forall x, In x (pop ++ (imm :: imms) ++ R) -> x < w_nind w /\ i_genome (w_ind w x) < w_narr w) by apply HS.
  destruct (customs_spec decoder_of problem_of D pb decoder robust stamps Hproblem i w imm u w1 EC) as (N1 & N2 & M1 & F1).
  { apply Hlive. apply in_or_app. right. left. auto. }
  { apply HB. left. auto. }
  destruct (nth_error pop (replace g i k w1 pop)) as [c|] eqn:Ec.
  2:{ injection H as <-. eapply position_errors; [|exact Ec]. destruct Hne as [?|Hne]; auto.
      destruct Hindex as [?|(_ & _ & Hr & _)]; auto. }
  assert (Hnot : forall x, In x pop -> ~ In x [imm]).
  { intros x Hx [->|[]]. apply (sep_disjoint w pop ((x :: imms) ++ R) x); auto. left. auto. }
  assert (HGp := good_moves _ _ _ _ _ _ _ _ _ _ M1 Hnot HG).
  assert (Ea : exists b, admitted direction (coin g i k) w1 imm c = Ok b).
  { unfold admitted. destruct F1 as [_ ->]. destruct HGp as (_ & _ & HGp).
    destruct (HGp c) as (_ & _ & _ & ->); [eapply nth_error_In; eauto|]. eauto. }
  destruct Ea as [success Es]. rewrite Es in H. cbn [bind] in H. set (pop1 := if success then _ else pop) in H.
  assert (Hp1 : part_of pop1 (pop ++ [imm])).
  { unfold pop1. destruct success; [apply part_set|]. exists [imm]. auto. }
  assert (HS1 : sep w1 (pop1 ++ imms ++ R)).
  { eapply sep_moves; [exact M1|]. eapply sep_part; [|exact HS].
    change ((imm :: imms) ++ R) with ([imm] ++ (imms ++ R)). rewrite (app_assoc pop). apply part_app. auto. }
  apply (IH (S k) w1 pop1 R e); auto.
  - apply good_sep. split; [eapply sep_part; [|exact HS1]; exists (imms ++ R); auto|].
    intros x Hx. assert (Hx' := part_in _ _ _ Hp1 Hx). apply in_app_or in Hx'. destruct Hx' as [Hx'|[<-|[]]]; auto.
    apply good_sep in HGp. apply HGp. auto.
  - destruct Hne as [?|Hne]; [left; auto|right]. unfold pop1. destruct success; auto. intros C. apply Hne. apply length_zero_iff_nil.
    rewrite <- (set_nth_length (replace g i k w1 pop) imm pop), C. auto.
  - intros x Hx. destruct (HB x (or_intror Hx)) as [s Hf]. exists s. eapply fits_same; [|exact Hf].
    assert (Hx' : In x (pop ++ (imm :: imms) ++ R)) by (apply in_or_app; right; right; apply in_or_app; auto).
    destruct (Hlive x Hx'). eapply moves_same; eauto.
    assert (Hs' : sep w ([imm] ++ (imms ++ R))).
    { eapply sep_part; [|exact HS]. exists pop. apply Permutation_app_comm. }
    intros [->|[]]. apply (sep_disjoint w [x] (imms ++ R) x Hs'); [left; auto|apply in_or_app; auto].
Qed.

Notation migration := (migration decoder_of problem_of direction pb stamps replace coin sponsor draw neighbors gap).
Lemma migration_errors g i generation w1 off waiting R e :
  i < n -> length waiting = n -> good (pb i) w1 off -> (E IndexError \/ off <> []) ->
  (forall imms, nth_error waiting i = Some imms -> sep w1 (off ++ imms ++ R) /\ forall x, In x imms -> belongs w1 x) ->
  migration g i generation w1 off waiting = Err e -> E e.
Proof.
  intros Hi Hl HG Hne Him H. unfold HeapIslands.migration in H. destruct (nth_error waiting i) as [imms|] eqn:Ei; [|apply nth_error_None in Ei; lia].
  destruct (Him imms eq_refl) as [HS HB].
  destruct (immigration g i 0 imms w1 off) as [[pop' wi]|e'] eqn:EI; cbn [bind] in H.
  2:{ injection H as <-. eapply immigration_errors; eauto. }
  destruct (immigration_spec _ _ _ _ _ _ _ _ Hproblem _ _ g i imms 0 w1 off pop' wi R EI HG HS HB) as (_ & _ & _ & Lp & HGi & _).
  assert (Hne' : E IndexError \/ pop' <> []) by (destruct Hne as [?|Hne]; auto; right; intros ->; destruct off; [auto|discriminate]).
  unfold HeapIslands.emigration in H. destruct (Z.eqb_spec gap 0) as [Eg|Eg].
  { cbn [bind] in H. injection H as <-. destruct Hgap; [auto|contradiction]. }
  destruct (generation mod gap =? 0)%Z; [|cbn [bind] in H; discriminate].
  destruct (nth_error pop' (sponsor g i wi pop')) as [s|] eqn:Es.
  2:{ cbn [bind] in H. injection H as <-. eapply position_errors; [|exact Es]. destruct Hne' as [?|Hne']; auto.
      destruct Hindex as [?|(_ & _ & _ & Hs & _)]; auto. }
  destruct (clone wi s) as [emi wc].
  destruct (nth_error (neighbors i) (draw g i)) as [dest|] eqn:Ed.
  2:{ cbn [bind] in H. injection H as <-. eapply position_errors; [|exact Ed]. destruct Hindex as [?|(_ & _ & _ & _ & Hd & _)]; auto. }
  destruct (nth_error (set_nth i [] waiting) dest) as [l|] eqn:El; [cbn [bind] in H; discriminate|].
  cbn [bind] in H. injection H as <-. eapply position_errors; [|exact El]. rewrite set_nth_length, Hl.
  destruct Hindex as [?|(_ & _ & _ & _ & _ & Hd)]; auto. right. eapply Hd; [exact Hi|]. eapply nth_error_In; eauto.
Qed.

Notation islands_loop := (islands_loop decoder_of problem_of direction pb stamps replace coin sponsor draw neighbors gap
  size operators pick).
Lemma islands_errors g generation : forall rest past done waiting w e,
  state w past done rest waiting -> length done + length rest = n -> length waiting = n ->
  (E IndexError \/ forall p, In p rest -> p <> []) ->
  islands_loop (length rest) (length done) g generation w (done ++ rest) waiting = Err e -> E e.
Proof.
  induction rest as [|parents rest IH]; intros past done waiting w e HS Hn Hw Hne H; [cbn in H; discriminate|].
  cbn [length HeapIslands.islands_loop] in H. rewrite nth_error_mid in H. pose proof HS as (HS1 & HS2 & HS3 & HS4).
  destruct (HS3 0 parents eq_refl) as [HG Hin]. rewrite Nat.add_0_r in HG. cbn [length] in Hn.
  destruct (pool NNan decoder_of problem_of size _ _ w) as [[[off sts] w1]|e'] eqn:EP; cbn [bind] in H.
  2:{ injection H as <-. destruct (Hops g (length done)) as [Hc Ho].
      eapply (generation_errors E decoder_of problem_of (pb (length done)) decoder robust); [|exact Hc|exact Ho| |exact HG|exact EP].
      - destruct Hscore as [Hr|Hs]; [left; exact Hr|right; intros g0; apply Hs].
      - destruct Hindex as [HE|(_ & Hp & _)]; [right; left; exact HE|]. destruct Hne as [HE|Hne]; [right; left; exact HE|].
        right. right. intros k. apply Hp. apply Hne. left. auto. }
  destruct (offspring_spec _ _ _ _ _ _ _ Hproblem _ _ Hops' g (length done) w parents _ off sts w1 HG EP) as (G1 & L1 & HGo & Hfresh).
  destruct (migration g (length done) generation w1 off waiting) as [[[off' w2] waiting1]|e'] eqn:EM; cbn [bind] in H.
  - rewrite set_nth_mid in H.
    destruct (island_step _ _ _ _ _ _ _ _ Hproblem _ _ _ _ _ _ _ _ pick Hops' g generation parents rest past done waiting w _ off sts w1 off' w2 waiting1 HS EP EM)
      as (HS' & _ & L2 & _).
    replace (done ++ off' :: rest) with ((done ++ [off']) ++ rest) in H by (rewrite <- app_assoc; auto).
    replace (S (length done)) with (length (done ++ [off'])) in H by (rewrite app_length; cbn; lia).
    apply (IH past (done ++ [off']) waiting1 w2 e HS'); auto.
    + rewrite app_length. cbn. lia.
    + lia.
    + destruct Hne as [HE|Hne]; [left; exact HE|right]. intros p Hp. apply Hne. right. auto.
  - injection H as <-.
    apply (migration_errors g (length done) generation w1 off waiting [] e'); auto; [lia| |].
    + destruct Hindex as [HE|(Hz & _)]; [left; exact HE|right]. intros ->. cbn in L1. lia.
    + intros imms Ei. rewrite app_nil_r. destruct (concat_set _ imms [] waiting Ei) as [PW _].
      assert (HSi : sep w imms).
      { eapply sep_part; [|exact HS1]. exists (concat (set_nth (length done) [] waiting) ++ past ++ concat done).
        eapply perm_trans; [do 2 apply Permutation_app_head; exact PW|]. rewrite !app_assoc.
        eapply perm_trans; [rewrite <- (app_assoc (past ++ concat done)); apply Permutation_app_comm|].
        rewrite <- !app_assoc. auto. }
      split.
      * apply sep_join.
        -- apply good_sep in HGo. apply HGo.
        -- eapply sep_moves; [apply (moves_grows []); exact G1|auto].
        -- intros x Hx C. destruct (Hfresh x Hx). destruct HSi as (_ & _ & HSi). destruct (HSi x C). lia.
        -- intros x y Hx C. destruct (Hfresh x Hx). destruct HSi as (_ & _ & HSi). destruct (HSi y C).
           destruct G1 as (_ & _ & G1 & _). rewrite (G1 y) by auto. lia.
      * intros x Hx. destruct (HS4 x) as [s Hf]; [eapply Permutation_in; [symmetry; exact PW|]; apply in_or_app; auto|].
        exists s. eapply fits_same; [|exact Hf]. destruct HSi as (_ & _ & HSi). destruct (HSi x Hx). apply grows_same; auto.
Qed.

Notation generations := (generations decoder_of problem_of direction pb stamps replace coin sponsor draw neighbors gap
  max_generations size operators pick stop).
Lemma generations_errors : forall fuel g gc w earlier pops waiting e gc',
  sep w (HeapIslands.everybody earlier ++ concat pops ++ concat waiting) ->
  Forall (recorded w) earlier -> (forall i p, nth_error pops i = Some p -> good (pb i) w p) ->
  (forall x, In x (concat waiting) -> belongs w x) ->
  length pops = n -> length waiting = n -> (E IndexError \/ forall p, In p pops -> p <> []) ->
  generations fuel g gc w earlier pops waiting = Some (Err e, gc') -> E e.
Proof.
  induction fuel as [|fuel IH]; intros g gc w earlier pops waiting e gc' HS HE HG HW Hp Hw Hne H; cbn [HeapIslands.generations] in H;
    destruct (gc_generation gc <? max_generations)%Z; try discriminate; destruct (stop g w pops); try discriminate.
  assert (H0 := first_state _ _ _ _ _ _ w earlier pops waiting HS HG HW).
  destruct (islands_loop (length pops) 0 g (gc_ctx gc) w pops waiting) as [[[pops1 waiting1] w1]|e'] eqn:EL.
  2:{ injection H as <- <-. apply (islands_errors g (gc_ctx gc) pops _ [] waiting w e' H0); auto. }
  destruct (islands_spec _ _ _ _ _ _ _ _ Hproblem _ _ _ _ _ _ _ _ _ Hops' g (gc_ctx gc) pops _ [] waiting w pops1 waiting1 w1 EL H0)
    as (M1 & L1 & W1 & new & En & Ln & S1 & G1 & _ & B1).
  cbn [app] in En. subst new.
  eapply IH; [| | | | | | |exact H].
  - rewrite members_app, members_one. exact S1.
  - rewrite Forall_forall in HE |- *. intros s Hs.
    assert (Hr : recorded w s).
    { apply in_app_or in Hs. destruct Hs as [Hs|[<-|[]]]; auto. split; cbn [fst snd]; auto. intros x _. split; auto. }
    eapply recorded_moves; [exact M1| |exact Hr].
    intros x Hx C. apply (members_in _ _ _ Hs) in Hx. rewrite members_app, members_one in Hx. cbn [snd] in Hx.
    rewrite app_assoc in HS. eapply sep_disjoint; [exact HS|exact Hx|exact C].
  - auto.
  - auto.
  - apply (f_equal (@length _)) in Ln. rewrite map_length, repeat_length in Ln. lia.
  - lia.
  - destruct Hindex as [HI|(Hz & _)]; [left; exact HI|right]. intros p Hp1 ->. apply (in_map (@length nat)) in Hp1. rewrite Ln in Hp1.
    apply repeat_spec in Hp1. cbn in Hp1. lia.
Qed.

Lemma evaluate_islands_errors : forall pops i w e w',
  (forall s p x, nth_error pops s = Some p -> In x p -> kind (pb (i + s)) w x) ->
  evaluate_islands decoder_of problem_of w pops = (Err e, w') -> E e.
Proof.
  clear - Hscore. induction pops as [|p r IH]; intros i w e w' HK H; cbn [evaluate_islands] in H; [discriminate|].
  destruct (evaluate_population NNan decoder_of problem_of w p) as [[u|e'] w1] eqn:Ev.
  - pose proof (evaluate_sizes _ _ _ _ _ _ Ev) as (Z1 & Z2 & Z3).
    apply evaluate_population_spec in Ev. destruct Ev as (E1 & E3 & E2 & E4).
    eapply (IH (S i)); [|exact H]. intros s q x Hq Hx. replace (S i + s) with (i + S s) by lia.
    destruct (HK (S s) q x Hq Hx) as (K1 & K2 & K3 & K4).
    destruct (E2 x) as (G1 & G2 & G3). unfold HeapEa.kind. rewrite Z3, G2, G3. auto.
  - injection H as <- <-. eapply (population_errors E decoder_of problem_of (pb i) decoder robust); [| |exact Ev].
    + destruct Hscore as [Hr|Hs]; [left; exact Hr|right; intros g; apply Hs].
    + intros x Hx. specialize (HK 0 p x eq_refl Hx). rewrite Nat.add_0_r in HK. auto.
Qed.
End IslandErrors.

Theorem island_run_errors (E : exn -> Prop) G P (decoder_of : nat -> option (list G -> result P)) problem_of direction pb decoder robust initialize
    stamps replace coin sponsor draw neighbors gap max_generations size operators pick stop n pop_size w e gc :
  (stamps = true \/ forall i j, pb i = pb j) ->
  (forall g i, clone_vary_evaluate (operators g i) /\ Forall (op_raises E) (operators g i)) ->
  (robust = true \/ forall i g, raises_only E (score (decoder_of decoder) (problem_of (pb i)) g) /\
                                passes_only E (score (decoder_of decoder) (problem_of (pb i)) g)) ->
  (E IndexError \/
   (1 <= pop_size /\ 1 <= size /\ (forall g i w l k, l <> [] -> pick g i w l k < length l) /\ (forall g i k w l, l <> [] -> replace g i k w l < length l) /\
    (forall g i w l, l <> [] -> sponsor g i w l < length l) /\
    (forall g i, i < n -> draw g i < length (neighbors i)) /\ (forall i j, i < n -> In j (neighbors i) -> j < n))) ->
  (E ZeroDivisionError \/ gap <> 0%Z) ->
  heap_islands decoder_of problem_of direction pb decoder robust initialize stamps replace coin sponsor draw neighbors gap
    max_generations size operators pick stop n pop_size w = Some (Err e, gc) -> E e.
Proof.
  intros Hpb Hops Hscore Hindex Hgap H. unfold heap_islands in H.
  destruct (create_works pb decoder robust initialize pop_size n 0 w) as (pops & w1 & EC). rewrite EC in H.
  destruct (create_islands_spec (fun _ => True) pb decoder robust initialize (fun _ _ => I) pop_size n 0 w pops w1 EC) as (L & HG & HS & HF & HK).
  destruct (evaluate_islands decoder_of problem_of w1 pops) as [[u|e'] w2] eqn:EE.
  2:{ injection H as <- <-. eapply (evaluate_islands_errors E decoder_of problem_of pb decoder robust Hscore pops 0); eauto. }
  destruct (initial_islands decoder_of problem_of (fun _ => True) pb decoder robust initialize (fun _ _ => I) stamps Hpb n pop_size w pops w1 u w2 EC EE)
    as (_ & _ & HS2 & HGd).
  eapply (generations_errors E decoder_of problem_of direction pb decoder robust stamps Hpb replace coin sponsor draw neighbors gap n size operators pick
    max_generations stop Hops Hscore); [| | | | | | | | |exact H].
  - destruct Hindex as [HE|(_ & Hi)]; [left; exact HE|right; exact Hi].
  - exact Hgap.
  - rewrite concat_nils, app_nil_r. cbn. auto.
  - constructor.
  - auto.
  - rewrite concat_nils. intros x [].
  - apply (f_equal (@length _)) in L. rewrite map_length, repeat_length in L. auto.
  - apply repeat_length.
  - destruct Hindex as [HE|(Hps & _)]; [left; exact HE|right]. intros p Hp ->. apply (in_map (@length nat)) in Hp. rewrite L in Hp.
    apply repeat_spec in Hp. cbn in Hp. lia.
Qed.
