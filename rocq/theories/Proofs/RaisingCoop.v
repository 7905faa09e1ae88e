(** Proofs about which exceptions runs of cooperative coevolution, and histories of migrations, raise. *)
From Coq Require Import Lia.
From Verif Require Import Model.Base Model.Selection Model.Problems Model.Counters Model.Algorithm Model.CoopRun Spec.Problems Spec.CoopRun Spec.Raising
  Proofs.RaisingSeg.
From Verif Require Model.Pipeline Model.Migration Proofs.ScalarSel.
Local Open Scope nat_scope.
Local Open Scope list_scope.

Lemma set_nth_In {A} (x y : A) : forall l i, In y (set_nth i x l) -> y = x \/ In y l.
Proof.
  induction l as [|a l IH]; intros [|i] H; cbn in H; auto.
  - destruct H as [<-|H]; auto. right; right; auto.
  - destruct H as [<-|H]; [right; left; auto|]. destruct (IH _ H); auto. right; right; auto.
Qed.

Section Loop.
Context {A : Type}.
Variable E : exn -> Prop.
Variable max_generations : Z.
Variable ops : list (@mop A).
Variable stop : nat -> Z -> list (list A) -> bool.
Variable Inv : list (list A) -> Prop.
Variable Hstep : forall g gen i pops parents, Inv pops -> nth_error pops i = Some parents ->
  match run_ops ops g (mk_view gen i pops) parents with Ok out => Inv (set_nth i out pops) | Err e => E e end.

Lemma island_loop_errors g gen : forall todo i pops, Inv pops ->
  match fst (island_loop ops [] todo i g gen pops) with Ok pops' => Inv pops' | Err e => E e end.
Proof.
  induction todo as [|todo IH]; intros i pops H; cbn [island_loop fst]; [auto|].
  destruct (nth_error pops i) as [parents|] eqn:Ep; [|auto]. cbn [operators bind].
  pose proof (Hstep g gen i pops parents H Ep) as Hs. destruct (run_ops ops g (mk_view gen i pops) parents) as [out|e]; [|exact Hs].
  specialize (IH (S i) _ Hs). destruct (island_loop ops [] todo (S i) g gen (set_nth i out pops)) as [r evs]. exact IH.
Qed.

Lemma mp_loop_errors : forall fuel g gc pops e gc' evss, Inv pops ->
  mp_loop max_generations ops [] stop fuel g gc pops = Some (Err e, gc', evss) -> E e.
Proof.
  induction fuel as [|fuel IH]; intros g gc pops e gc' evss H H0; cbn [mp_loop] in H0;
    (destruct (gc_generation gc <? max_generations)%Z; [|discriminate]); (destruct (stop g (gc_ctx gc) pops); [discriminate|]); [discriminate|].
  pose proof (island_loop_errors g (gc_ctx gc) (length pops) 0 pops H) as Hl.
  destruct (island_loop ops [] (length pops) 0 g (gc_ctx gc) pops) as [[pops'|e'] evs]; cbn [fst] in Hl.
  - destruct (mp_loop _ _ _ _ fuel _ _ pops') as [[[r' gc2] evss']|] eqn:Em; [|discriminate]. injection H0 as -> -> <-. eapply IH; eassumption.
  - injection H0 as <- <- <-. exact Hl.
Qed.
End Loop.

Section Coop.
Context {G : Type}.
Variable E : exn -> Prop.
Variable pick : nat -> nat -> nat -> list (member G) -> nat.
Variable mutate : nat -> nat -> nat -> list G -> result (list G).
Variable uuid : nat -> nat -> nat -> nat.
Variable sel : nat -> nat -> nat -> list (list (option num)) -> nat -> nat -> list (cind G) -> nat -> result (cind G).
Variables num_trials size : nat.
Hypothesis Hmutate : forall g i k x, passes_only E (mutate g i k x).

Lemma child_errors g i k parents : E IndexError \/ pick g i k parents < length parents ->
  match child pick mutate uuid g i k parents with
  | Ok x => exists p, In p parents /\ c_score x = c_score (m_ind p)
  | Err e => E e
  end.
Proof.
  intros Hp. unfold child. destruct (nth_error parents (pick g i k parents)) as [p|] eqn:En.
  - destruct (Pipeline.in_generator (mutate g i k (c_genome (m_ind p)))) as [genome|e] eqn:Em; cbn [bind].
    + exists p. split; [eapply nth_error_In; eauto|reflexivity].
    + eapply generator_errors; [apply Hmutate|exact Em].
  - apply nth_error_None in En. destruct Hp; [auto|lia].
Qed.

Lemma choose_errors (F : exn -> Prop) (x : cind G) current pk : (forall i pop e, pk i pop = Err e -> F e) -> forall subpops i,
  match choose x current i subpops pk with
  | Ok cs => forall c, In c cs -> c = x \/ exists i pop, In pop subpops /\ pk i pop = Ok c
  | Err e => F e
  end.
Proof.
  intros Hpk. induction subpops as [|pop r IH]; intros i; cbn [choose]; [intros c []|].
  assert (H1 : match (if i =? current then Ok x else pk i pop) with Ok c => c = x \/ pk i pop = Ok c | Err e => F e end).
  { destruct (i =? current); [auto|]. destruct (pk i pop) eqn:Ek; [auto|]. eapply Hpk; eauto. }
  destruct (if i =? current then Ok x else pk i pop) as [c|e]; cbn [bind]; [|exact H1].
  specialize (IH (S i)). destruct (choose x current (S i) r pk) as [cs|e]; cbn [bind]; [|exact IH].
  intros c' [<-|Hc].
  - destruct H1 as [->|H1]; auto. right. exists i, pop. split; [left; auto|exact H1].
  - destruct (IH _ Hc) as [->|(j & q & Hq & Hk)]; auto. right. exists j, q. split; [right; auto|exact Hk].
Qed.

Lemma trials_errors (F : exn -> Prop) one : (forall t e, one t = Err e -> F e) -> forall n t,
  match trials n t one with Ok fs => length fs = n | Err e => F e end.
Proof.
  intros Ho. induction n as [|n IH]; intros t; cbn [trials]; [auto|].
  destruct (one t) as [f|e] eqn:Eo; cbn [bind]; [|eapply Ho; eauto].
  specialize (IH (S t)). destruct (trials n (S t) one) as [fs|e]; cbn [bind length]; [lia|exact IH].
Qed.

(** the subpopulations during a run *)
Definition sound (P : (list G -> result num) -> Prop) (pops : list (list (member G))) : Prop :=
  (E IndexError \/ (forall p, In p pops -> p <> [])) /\ forall p m, In p pops -> In m p -> P (c_score (m_ind m)).

Lemma sound_set P pops i out parents : sound P pops -> nth_error pops i = Some parents -> (E IndexError \/ out <> []) ->
  (forall m, In m out -> exists p, In p parents /\ c_score (m_ind m) = c_score (m_ind p)) -> sound P (set_nth i out pops).
Proof.
  intros [H1 H2] Hn Ho Hm. split.
  - destruct H1 as [?|H1]; auto. destruct Ho as [?|Ho]; auto. right. intros p Hp. destruct (set_nth_In _ _ _ _ Hp) as [->|Hp']; auto.
  - intros p m Hp Hi. destruct (set_nth_In _ _ _ _ Hp) as [->|Hp']; [|eapply H2; eauto]. destruct (Hm m Hi) as (q & Hq & ->).
    eapply H2; [eapply nth_error_In; exact Hn|exact Hq].
Qed.

Hypothesis Hindex : E IndexError \/ (1 <= size /\ forall g i k l, l <> [] -> pick g i k l < length l).

Lemma pick_ok P pops i parents g i' k : sound P pops -> nth_error pops i = Some parents -> E IndexError \/ pick g i' k parents < length parents.
Proof.
  intros [H1 _] Hn. destruct Hindex as [?|[_ Hp]]; auto. destruct H1 as [?|H1]; auto. right. apply Hp, H1. eapply nth_error_In; eauto.
Qed.

(** ** CooperativeEvaluate *)
Section Operator.
Hypothesis Hchoosers : choosers sel.
Hypothesis Hsel : forall g i k fits t j pop n, passes_only E (sel g i k fits t j pop n).
Hypothesis Htrials : E ValueError \/ 0 < num_trials.
Notation fine := (fun s : list G -> result num => forall gs, passes_only E (s gs)).

Lemma coop_op_errors g i k fits x current pops e : current < length pops ->
  (forall gs, passes_only E (c_score x gs)) -> sound fine pops ->
  coop_op (sel g i k fits) concat_combine_score num_trials x current (map (map m_ind) pops) = Err e -> passes E e.
Proof.
  intros Hcur Hx [_ Hs] H. unfold coop_op in H.
  pose proof (trials_errors (passes E) (coop_op_trial (sel g i k fits) concat_combine_score x current (map (map m_ind) pops))) as HT.
  assert (Hone : forall t e, coop_op_trial (sel g i k fits) concat_combine_score x current (map (map m_ind) pops) t = Err e -> passes E e).
  { intros t e' H'. unfold coop_op_trial in H'.
    pose proof (choose_errors (passes E) x current (fun j pop => sel g i k fits 0 j pop t)) as HC.
    specialize (HC (fun j pop e0 => Hsel g i k fits 0 j pop t e0) (map (map m_ind) pops) 0).
    destruct (choose x current 0 (map (map m_ind) pops) (fun j pop => sel g i k fits 0 j pop t)) as [cs|e''] eqn:Ec; cbn [bind] in H'.
    - destruct cs as [|c cs].
      + exfalso. destruct pops as [|p r]; [cbn in Hcur; lia|]. cbn [map choose] in Ec.
        destruct (if 0 =? current then Ok x else _); cbn [bind] in Ec; [|discriminate].
        destruct (choose _ _ _ _ _); cbn [bind] in Ec; discriminate.
      + cbn [concat_combine_score] in H'. destruct (HC c (or_introl eq_refl)) as [->|(j & pop & Hp & Hk)]; [eapply Hx; eauto|].
        apply Hchoosers in Hk. apply in_map_iff in Hp. destruct Hp as (p & <- & Hp). apply in_map_iff in Hk. destruct Hk as (m & <- & Hm).
        eapply Hs; eauto.
    - injection H' as <-. exact HC. }
  specialize (HT Hone num_trials 0). destruct (trials num_trials 0 _) as [fs|e']; cbn [bind] in H.
  - destruct fs; [|discriminate]. injection H as <-. destruct Htrials as [?|?]; [assumption|cbn in HT; lia].
  - injection H as <-. exact HT.
Qed.

Lemma coop_children_errors g gen i pops parents : sound fine pops -> nth_error pops i = Some parents -> forall todo k,
  match coop_children pick mutate uuid sel num_trials todo k g (mk_view gen i pops) parents with
  | Ok out => length out = todo /\ forall m, In m out -> exists p, In p parents /\ c_score (m_ind m) = c_score (m_ind p)
  | Err e => E e
  end.
Proof.
  intros Hs Hn. induction todo as [|todo IH]; intros k; cbn [coop_children v_current v_pops]; [split; [auto|intros m []]|].
  pose proof (child_errors g i k parents (pick_ok _ _ _ _ g i k Hs Hn)) as Hc.
  destruct (child pick mutate uuid g i k parents) as [x|e]; cbn [bind]; [|exact Hc]. destruct Hc as (p & Hp & Esc).
  destruct (Pipeline.in_generator _) as [f|e] eqn:Eo; cbn [bind].
  2:{ eapply generator_errors; [|exact Eo]. intros e' He'. eapply coop_op_errors; [|  |exact Hs|exact He'].
      - apply nth_error_Some. rewrite Hn. discriminate.
      - rewrite Esc. destruct Hs as [_ Hs]. eapply Hs; [eapply nth_error_In; exact Hn|exact Hp]. }
  specialize (IH (S k)). destruct (coop_children _ _ _ _ _ todo (S k) g _ parents) as [r|e]; cbn [bind]; [|exact IH].
  destruct IH as [L F]. split; [cbn; lia|]. intros m [<-|Hm]; eauto.
Qed.

Lemma coop_run_errors max_generations stop value created e gc evss :
  (E IndexError \/ (forall p, In p created -> p <> [])) ->
  (forall p m, In p created -> In m p -> forall gs, passes_only E (c_score (m_ind m) gs)) ->
  coop_run pick mutate uuid sel num_trials size max_generations stop value created = Some (Err e, gc, evss) -> E e.
Proof.
  intros Hne Hc H. unfold coop_run, multi_population_ea in H. eapply (mp_loop_errors E _ _ _ (sound fine)); [| |exact H].
  - intros g gen i pops parents Hs Hn. cbn [run_ops]. unfold operator_pipeline.
    pose proof (coop_children_errors g gen i pops parents Hs Hn size 0) as HC.
    destruct (coop_children _ _ _ _ _ size 0 g _ parents) as [out|e']; cbn [bind]; [|exact HC]. destruct HC as [L F].
    eapply sound_set; eauto. destruct Hindex as [?|[Hsz _]]; auto. right. intros ->. cbn in L. lia.
  - split.
    + destruct Hne as [?|Hne]; auto. right. intros p Hp. apply in_map_iff in Hp. destruct Hp as (q & <- & Hq). specialize (Hne q Hq).
      destruct q; [congruence|discriminate].
    + intros p m Hp Hm. apply in_map_iff in Hp. destruct Hp as (q & <- & Hq). unfold const_evaluate in Hm. apply in_map_iff in Hm.
      destruct Hm as (m' & <- & Hm'). cbn. eapply Hc; eauto.
Qed.
End Operator.

(** ** CooperativeProblem *)
Section Problem.
Variable combine : list (list G) -> result (list G).
Variable score : list G -> result num.
Variable chunk : option nat.
Hypothesis Hsel : forall g i k fits t j pop n, raises_only E (sel g i k fits t j pop n).
Hypothesis Hcombine : forall gs, raises_only E (combine gs).
Hypothesis Hscore : forall g, raises_only E (score g).
Hypothesis Hchunk : E ValueError \/ chunk <> Some 0.

Lemma coop_evaluate_errors g i k fits x current subpops e :
  coop_evaluate (sel g i k fits) combine score false num_trials x current subpops = Err e -> E e.
Proof.
  intros H. unfold coop_evaluate in H.
  pose proof (trials_errors E (coop_trial (sel g i k fits) combine score false x current subpops)) as HT.
  assert (Hone : forall t e, coop_trial (sel g i k fits) combine score false x current subpops t = Err e -> E e).
  { intros t e' H'. unfold coop_trial in H'.
    pose proof (choose_errors E x current (fun j pop => sel g i k fits t j pop 0) (fun j pop e0 => Hsel g i k fits t j pop 0 e0) subpops 0) as HC.
    destruct (choose x current 0 subpops (fun j pop => sel g i k fits t j pop 0)) as [cs|e'']; cbn [bind] in H'; [|injection H' as <-; exact HC].
    destruct (combine (map c_genome cs)) as [gn|e''] eqn:Ecb; cbn [bind] in H'; [|injection H' as <-; eapply Hcombine; eauto].
    destruct (score gn) as [f|e''] eqn:Es; cbn [bind andb] in H'; [discriminate|]. injection H' as <-. eapply Hscore; eauto. }
  specialize (HT Hone num_trials 0). destruct (trials num_trials 0 _) as [fs|e']; cbn [bind] in H; [discriminate|]. injection H as <-. exact HT.
Qed.

Lemma made_errors g v parents : (forall k, E IndexError \/ pick g (v_current v) k parents < length parents) -> forall todo k,
  match made pick mutate uuid todo k g v parents with
  | Ok out => length out = todo /\ forall m, In m out -> exists p, In p parents /\ c_score (m_ind m) = c_score (m_ind p)
  | Err e => E e
  end.
Proof.
  intros Hp. induction todo as [|todo IH]; intros k; cbn [made]; [split; [auto|intros m []]|].
  pose proof (child_errors g (v_current v) k parents (Hp k)) as Hc.
  destruct (child pick mutate uuid g (v_current v) k parents) as [x|e]; cbn [bind]; [|exact Hc]. destruct Hc as (p & Hp' & Esc).
  specialize (IH (S k)). destruct (made pick mutate uuid todo (S k) g v parents) as [r|e]; cbn [bind]; [|exact IH].
  destruct IH as [L F]. split; [cbn; lia|]. intros m [<-|Hm]; eauto.
Qed.
Lemma evaluate_multiple_errors g v : forall l k e, evaluate_multiple sel num_trials combine score k g v l = Err e -> E e.
Proof.
  induction l as [|m r IH]; intros k e H; cbn [evaluate_multiple] in H; [discriminate|].
  destruct (coop_evaluate _ _ _ _ _ _ _ _) as [f|e'] eqn:Ev; cbn [bind] in H.
  - destruct (evaluate_multiple _ _ _ _ (S k) g v r) as [fs|e'] eqn:Em; cbn [bind] in H; [discriminate|]. injection H as <-. eauto.
  - injection H as <-. eapply coop_evaluate_errors; eauto.
Qed.
Lemma evaluate_chunks_errors g v n : forall fuel l k e, evaluate_chunks sel num_trials combine score fuel n k g v l = Err e -> E e.
Proof.
  induction fuel as [|fuel IH]; intros l k e H; cbn [evaluate_chunks] in H; destruct l as [|m r]; try discriminate.
  destruct (evaluate_multiple _ _ _ _ k g v _) as [fs|e'] eqn:Em; cbn [bind] in H.
  - destruct (evaluate_chunks _ _ _ _ fuel n _ g v _) as [gs|e'] eqn:Ec; cbn [bind] in H; [discriminate|]. injection H as <-. eauto.
  - injection H as <-. eapply evaluate_multiple_errors; eauto.
Qed.
Lemma assign_scores : forall fs (l : list (member G)), length (assign fs l) = length l /\
  forall m, In m (assign fs l) -> exists m', In m' l /\ m_ind m = m_ind m'.
Proof.
  assert (Same : forall l : list (member G), length l = length l /\ forall m, In m l -> exists m', In m' l /\ m_ind m = m_ind m').
  { intros l. split; [auto|]. intros m Hm. exists m. auto. }
  induction fs as [|f fs IH]; intros [|m l]; cbn [assign]; [apply Same|apply Same|apply Same|].
  - destruct (IH l) as [L F]. split; [cbn; lia|]. intros m' [<-|Hm]; [exists m; split; [left; auto|auto]|].
    destruct (F _ Hm) as (q & Hq & Eq). exists q. split; [right; auto|auto].
Qed.
Lemma grouped_errors g v population : E IndexError \/ population <> [] ->
  match grouped_coop sel num_trials combine score chunk g v population with
  | Ok out => length out = length population /\ forall m, In m out -> exists m', In m' population /\ m_ind m = m_ind m'
  | Err e => E e
  end.
Proof.
  intros Hp. unfold grouped_coop. destruct population as [|m r] eqn:Er; [destruct Hp; [auto|congruence]|]. rewrite <- Er.
  destruct (Nat.eqb_spec (match chunk with Some n => n | None => length population end) 0) as [Hz|Hz].
  - destruct Hchunk as [?|Hc]; auto. destruct chunk; [congruence|]. rewrite Er in Hz. discriminate.
  - destruct (evaluate_chunks _ _ _ _ _ _ 0 g v population) as [fs|e] eqn:Ec; cbn [bind]; [apply assign_scores|].
    eapply evaluate_chunks_errors; eauto.
Qed.

Lemma problem_loop_errors max_generations stop init e gc evss :
  (E IndexError \/ (forall p, In p init -> p <> [])) ->
  multi_population_ea max_generations [make_offspring pick mutate uuid size; grouped_coop sel num_trials combine score chunk] [] stop init =
    Some (Err e, gc, evss) -> E e.
Proof.
  intros Hne H. unfold multi_population_ea in H. eapply (mp_loop_errors E _ _ _ (sound (fun _ => True))); [| |exact H].
  - intros g gen i pops parents Hs Hn. cbn [run_ops]. unfold make_offspring.
    pose proof (made_errors g (mk_view gen i pops) parents (fun k => pick_ok _ _ _ _ g _ k Hs Hn) size 0) as HC.
    destruct (made _ _ _ size 0 g _ parents) as [out|e']; cbn [bind]; [|exact HC]. destruct HC as [L F].
    assert (Ho : E IndexError \/ out <> []). { destruct Hindex as [?|[Hsz _]]; auto. right. intros ->. cbn in L. lia. }
    pose proof (grouped_errors g (mk_view gen i pops) out Ho) as HG.
    destruct (grouped_coop _ _ _ _ _ g _ out) as [out'|e']; cbn [bind]; [|exact HG]. destruct HG as [L' F'].
    eapply sound_set; eauto.
    + destruct Ho as [?|Ho]; auto. right. intros ->. destruct out; [congruence|discriminate].
    + intros m Hm. destruct (F' m Hm) as (m' & Hm' & ->). auto.
  - split; [exact Hne|auto].
Qed.

Lemma coop_problem_run_errors max_generations stop value created e gc evss :
  (E IndexError \/ (forall p, In p created -> p <> [])) ->
  coop_problem_run pick mutate uuid sel num_trials size combine score chunk max_generations stop value created = Some (Err e, gc, evss) -> E e.
Proof.
  intros Hne H. unfold coop_problem_run in H. eapply problem_loop_errors; [|exact H].
  destruct Hne as [?|Hne]; auto. right. intros p Hp. apply in_map_iff in Hp. destruct Hp as (q & <- & Hq). specialize (Hne q Hq).
  destruct q; [congruence|discriminate].
Qed.

Lemma initial_pop_errors context i : E KeyError \/ context <> None -> forall pop k,
  match initial_pop sel num_trials combine score context i k pop with Ok out => length out = length pop | Err e => E e end.
Proof.
  intros Hc. induction pop as [|m r IH]; intros k; cbn [initial_pop]; [auto|].
  destruct context as [[subpops current]|]; [|destruct Hc; [auto|congruence]].
  destruct (coop_evaluate _ _ _ _ _ _ _ _) as [f|e'] eqn:Ev; cbn [bind]; [|eapply coop_evaluate_errors; eauto].
  specialize (IH (S k)). destruct (initial_pop _ _ _ _ _ i (S k) r) as [out|e]; cbn [bind length]; [lia|exact IH].
Qed.
Lemma initial_pops_errors context : E KeyError \/ context <> None -> forall pops i,
  match initial_pops sel num_trials combine score context i pops with
  | Ok out => forall p, In p out -> exists q, In q pops /\ length p = length q
  | Err e => E e
  end.
Proof.
  intros Hc. induction pops as [|p r IH]; intros i; cbn [initial_pops]; [intros p []|].
  pose proof (initial_pop_errors context i Hc p 0) as H1. destruct (initial_pop _ _ _ _ _ i 0 p) as [out|e]; cbn [bind]; [|exact H1].
  specialize (IH (S i)). destruct (initial_pops _ _ _ _ _ (S i) r) as [outs|e]; cbn [bind]; [|exact IH].
  intros q [<-|Hq]; [exists p; split; [left; auto|auto]|]. destruct (IH q Hq) as (q' & Hq' & L). exists q'. split; [right; auto|auto].
Qed.
Lemma coop_problem_run_default_errors max_generations stop context created e gc evss :
  (E IndexError \/ (forall p, In p created -> p <> [])) -> E KeyError \/ context <> None ->
  coop_problem_run_default pick mutate uuid sel num_trials size combine score chunk max_generations stop context created = Some (Err e, gc, evss) -> E e.
Proof.
  intros Hne Hc H. unfold coop_problem_run_default in H. pose proof (initial_pops_errors context Hc created 0) as HI.
  destruct (initial_pops _ _ _ _ context 0 created) as [pops|e'].
  - eapply problem_loop_errors; [|exact H]. destruct Hne as [?|Hne]; auto. right. intros p Hp.
    destruct (HI p Hp) as (q & Hq & L). specialize (Hne q Hq). destruct p, q; cbn in L; congruence.
  - injection H as <- <- <-. exact HI.
Qed.
End Problem.
End Coop.

(** ** migration *)
Import Model.Migration.
Section Migrations.
Context {G : Type}.
Variable E : exn -> Prop.
Variable gap : Z.
Variable neighbors : nat -> list nat.
Variable n : nat.
Hypothesis Hgap : E ZeroDivisionError \/ gap <> 0%Z.

Notation indices_fit := (@indices_fit G neighbors n).
Notation call_raises := (@call_raises E G).

Lemma immigrate_errors c : call_raises c -> E IndexError \/ indices_fit c -> forall imms i pop e, immigrate c i imms pop = Err e -> E e.
Proof.
  intros [Hr _] Hix. induction imms as [|imm rest IH]; intros i pop e H; cbn [immigrate] in H; [discriminate|].
  destruct (c_replace c i pop) as [[x ix]|e'] eqn:Er; [|injection H as <-; eapply Hr; eauto].
  assert (HI : E IndexError \/ exists k r, ix = k :: r /\ (k < length pop)%nat).
  { destruct Hix as [?|Hix]; auto. right. eapply Hix; eauto. }
  destruct ix as [|k ix]; [injection H as <-; destruct HI as [?|(? & ? & ? & _)]; [assumption|discriminate]|].
  destruct (mind_ge _ _ _).
  - destruct (Nat.ltb_spec k (length pop)).
    + destruct (immigrate c (S i) rest _) as [[? ?]|e'] eqn:Ei; [discriminate|]. injection H as <-. eauto.
    + injection H as <-. destruct HI as [?|(? & ? & HE & ?)]; [assumption|]. injection HE as <- <-. lia.
  - destruct (immigrate c (S i) rest _) as [[? ?]|e'] eqn:Ei; [discriminate|]. injection H as <-. eauto.
Qed.

Lemma do_migrate_errors st c : length (g_waiting st) = n -> call_raises c -> E IndexError \/ indices_fit c ->
  match do_migrate gap neighbors st c with Ok (_, st') => length (g_waiting st') = n | Err e => E e end.
Proof.
  intros L Hr Hix. unfold do_migrate. destruct (nth_error (g_waiting st) (c_island c)) as [imms|] eqn:En.
  2:{ apply nth_error_None in En. destruct Hix as [?|(Hi & _)]; [assumption|lia]. }
  destruct (immigrate c 0 imms (c_pop c)) as [[pop' atts]|e] eqn:Ei; [|eapply immigrate_errors; eauto].
  unfold emigrate. destruct (Z.eqb_spec gap 0); [destruct Hgap; [assumption|congruence]|].
  cbn [g_waiting g_next]. destruct (c_gen c mod gap =? 0)%Z; [|cbn; rewrite ScalarSel.set_nth_length; exact L].
  destruct (c_sponsor c pop') as [sponsor|e] eqn:Es; [|eapply Hr; eauto].
  destruct (nth_error (neighbors (c_island c)) (c_dest c)) as [dest|] eqn:Ed.
  2:{ apply nth_error_None in Ed. destruct Hix as [?|(_ & Hd & _)]; [assumption|lia]. }
  destruct (nth_error (set_nth (c_island c) [] (g_waiting st)) dest) as [w|] eqn:Ew.
  - cbn. rewrite !ScalarSel.set_nth_length. exact L.
  - apply nth_error_None in Ew. rewrite ScalarSel.set_nth_length, L in Ew.
    destruct Hix as [?|(_ & _ & Hn & _)]; [assumption|]. apply nth_error_In in Ed. specialize (Hn _ Ed). lia.
Qed.

Lemma mig_run_errors : forall calls st e, length (g_waiting st) = n -> Forall call_raises calls ->
  E IndexError \/ Forall indices_fit calls -> mig_run gap neighbors st calls = Err e -> E e.
Proof.
  induction calls as [|c rest IH]; intros st e L HF HI H; cbn [mig_run] in H; [discriminate|].
  pose proof (do_migrate_errors st c L (Forall_inv HF)) as HD.
  destruct (do_migrate gap neighbors st c) as [[o st']|e'].
  - destruct (mig_run gap neighbors st' rest) as [[os st'']|e'] eqn:Em; [discriminate|]. injection H as <-. eapply IH; [| | |exact Em].
    + apply HD. destruct HI as [?|HI]; auto. right. exact (Forall_inv HI).
    + eapply Forall_inv_tail; eauto.
    + destruct HI as [?|HI]; auto. right. eapply Forall_inv_tail; eauto.
  - injection H as <-. apply HD. destruct HI as [?|HI]; auto. right. exact (Forall_inv HI).
Qed.
End Migrations.

Lemma migrations_errors G (E : exn -> Prop) gap neighbors n : (E ZeroDivisionError \/ gap <> 0%Z) ->
  forall (calls : list (mig_call G)) fresh e, Forall (Spec.Raising.call_raises E) calls ->
  (E IndexError \/ Forall (Spec.Raising.indices_fit neighbors n) calls) -> mig_run gap neighbors (mig_init n fresh) calls = Err e -> E e.
Proof.
  intros Hg calls fresh e H1 H2 H. eapply (mig_run_errors E gap neighbors n Hg calls); [|exact H1|exact H2|exact H].
  cbn. apply repeat_length.
Qed.

Lemma coop_problem_runs_errors G (E : exn -> Prop) pick mutate uuid sel num_trials size :
  (forall g i k x, passes_only E (mutate g i k x)) ->
  (E IndexError \/ (1 <= size /\ forall g i k (l : list (member G)), l <> [] -> pick g i k l < length l)) ->
  forall combine score chunk,
  (forall g i k fits t j pop n, raises_only E (sel g i k fits t j pop n)) ->
  (forall gs, raises_only E (combine gs)) -> (forall g, raises_only E (score g)) -> (E ValueError \/ chunk <> Some 0) ->
  forall max_generations stop created e gc evss,
  (E IndexError \/ (forall p, In p created -> p <> [])) ->
  (forall value, coop_problem_run pick mutate uuid sel num_trials size combine score chunk max_generations stop value created =
     Some (Err e, gc, evss) -> E e) /\
  forall context, E KeyError \/ context <> None ->
    coop_problem_run_default pick mutate uuid sel num_trials size combine score chunk max_generations stop context created =
      Some (Err e, gc, evss) -> E e.
Proof.
  intros Hm Hi combine score chunk Hs Hc Hsc Hch mg stop created e gc evss Hne. split.
  - intros value. apply coop_problem_run_errors; auto.
  - intros context Hx. apply coop_problem_run_default_errors; auto.
Qed.
