(** Proofs about the algorithm loops. *)
From Coq Require Import Lia Permutation.
From Verif Require Import Model.Base Model.PyList Model.Scalar Model.Selection Model.Counters Model.Algorithm
  Spec.Order Spec.Selection Spec.Algorithm Proofs.Order Proofs.PyList Proofs.ScalarSel.

Lemma topk_length {A} (lt gt eq : A -> A -> bool) sized k l :
  length (topk lt gt eq sized k l) = Nat.min k (length l).
Proof.
  destruct k as [|[|k]]; cbn [topk]; [reflexivity| |].
  - destruct l; reflexivity.
  - destruct (sized && _); rewrite firstn_length, sort_desc_length; reflexivity.
Qed.

Lemma elitist_length {A} (lt gt eq : A -> A -> bool) offspring parents k :
  length (fst (elitist_survival lt gt eq offspring parents k)) = length offspring.
Proof. unfold elitist_survival. simpl. rewrite topk_length, app_length. lia. Qed.

Section Gen.
Context {A : Type}.
Variable lt gt eq : nat -> A -> A -> bool.
Variable max_generations : Z.
Variable k_elites : nat.
Variable pipeline : nat -> Z -> list A -> result (list A).
Variable stop : nat -> Z -> list A -> bool.

Definition elitist_step (off p p' : list A) : Prop :=
  exists i, p' = fst (elitist_survival (lt i) (gt i) (eq i) off p k_elites).

Definition gen_run_ok (i : nat) (c : Z) (parents : list A) (r : result (list A))
    (gc' : gen_counter) (evs : list (@gen_event A)) : Prop :=
  exists ps final, nth_error (ps ++ [final]) 0 = Some parents /\
    gen_history max_generations pipeline stop elitist_step i c ps final r evs /\
    gc_curr gc' = (c + Z.of_nat (length ps))%Z /\ gc_ctx gc' = gc_curr gc'.

Lemma gen_cons i c parents offspring r gc' evs :
  (c < max_generations)%Z -> stop i c parents = false -> pipeline i c parents = Ok offspring ->
  gen_run_ok (S i) (c + 1) (fst (elitist_survival (lt i) (gt i) (eq i) offspring parents k_elites))
    r gc' evs ->
  gen_run_ok i c parents r gc' ([EvStop c parents; EvPipe c parents] ++ evs).
Proof.
  intros Hlt Hs Hp (ps & final & H0 & (Hst & Hend) & Hc1 & Hc2).
  exists (parents :: ps), final.
  split; [reflexivity|]. split; [|split; [simpl length; lia|exact Hc2]]. split.
  - intros j p p' Hj Hj'. destruct j as [|j].
    + injection Hj as <-. change (nth_error (ps ++ [final]) 0 = Some p') in Hj'. rewrite H0 in Hj'. injection Hj' as <-.
      rewrite Nat.add_0_r, Z.add_0_r. split; [exact Hlt|]. split; [exact Hs|]. exists offspring.
      split; [exact Hp|]. exists i. reflexivity.
    + change (nth_error ps j = Some p) in Hj. change (nth_error (ps ++ [final]) (S j) = Some p') in Hj'.
      specialize (Hst j p p' Hj Hj').
      replace (i + S j) with (S i + j) by lia.
      replace (c + Z.of_nat (S j))%Z with (c + 1 + Z.of_nat j)%Z by lia. exact Hst.
  - cbn zeta in *. cbn [length]. replace (i + S (length ps)) with (S i + length ps) by lia.
    replace (c + Z.of_nat (S (length ps)))%Z with (c + 1 + Z.of_nat (length ps))%Z by lia.
    destruct Hend as [(E1 & E2 & ->)|[(E1 & E2 & E3 & ->)|(e & E1 & E2 & E3 & E4 & ->)]].
    + left. auto.
    + right. left. auto.
    + right. right. exists e. auto.
Qed.

Lemma gen_loop_spec : forall fuel i gc parents,
  gc_curr gc = gc_ctx gc -> (max_generations - gc_curr gc <= Z.of_nat fuel)%Z ->
  exists r gc' evs,
    gen_loop lt gt eq max_generations k_elites pipeline stop fuel i gc parents = Some (r, gc', evs) /\
    gen_run_ok i (gc_curr gc) parents r gc' evs.
Proof.
  assert (Hstop : forall i gc parents, gc_curr gc = gc_ctx gc -> (max_generations <= gc_curr gc)%Z ->
    gen_run_ok i (gc_curr gc) parents (Ok parents) gc []).
  { intros i gc parents Hctx Hge. exists [], parents. split; [reflexivity|].
    split; [|split; [simpl; lia|congruence]]. split.
    - intros [|j] p p' Hj; discriminate.
    - left. split; [reflexivity|]. split; [simpl; lia|reflexivity]. }
  induction fuel as [|fuel IH]; intros i gc parents Hctx Hfuel;
    cbn [gen_loop]; unfold gc_generation;
    destruct (Z.ltb_spec (gc_curr gc) max_generations) as [Hlt|Hge]; try lia.
  - eexists _, _, _. split; [reflexivity|]. apply Hstop; assumption.
  - rewrite <- Hctx. destruct (stop i (gc_curr gc) parents) eqn:Es.
    { eexists _, _, _. split; [reflexivity|]. exists [], parents. split; [reflexivity|].
      split; [|split; [simpl; lia|congruence]]. split; [intros [|j] p p' Hj; discriminate|].
      right. left. cbn [length]. rewrite Nat.add_0_r, Z.add_0_r. auto. }
    destruct (pipeline i (gc_curr gc) parents) as [offspring|e] eqn:Ep.
    2:{ eexists _, _, _. split; [reflexivity|]. exists [], parents. split; [reflexivity|].
      split; [|split; [simpl; lia|congruence]]. split; [intros [|j] p p' Hj; discriminate|].
      right. right. exists e. cbn [length]. rewrite Nat.add_0_r, Z.add_0_r. auto 10. }
    set (surv := fst (elitist_survival (lt i) (gt i) (eq i) offspring parents k_elites)).
    set (gc1 := snd (gc_increment [] gc)).
    destruct (IH (S i) gc1 surv) as (r & gc' & evs & E & Hok).
    + reflexivity.
    + unfold gc1. simpl. lia.
    + rewrite E. eexists _, _, _. split; [reflexivity|].
      apply (gen_cons i (gc_curr gc) parents offspring); assumption.
  - eexists _, _, _. split; [reflexivity|]. apply Hstop; assumption.
Qed.

Lemma generational_ok start init :
  exists r gc' evs,
    generational_ea lt gt eq max_generations k_elites pipeline stop start init = Some (r, gc', evs) /\
    gen_run_ok 0 start init r gc' evs.
Proof. apply (gen_loop_spec _ 0 (inc_generation start) init); [reflexivity|]. simpl. lia. Qed.

Lemma topk_in (l : list A) a b c sized k : incl (topk a b c sized k l) l.
Proof.
  assert (F : forall d k, incl (firstn k (sort_desc d l)) l).
  { intros d k' x Hx. apply (Permutation_in _ (Permutation_sym (sort_desc_perm d l))).
    rewrite <- (firstn_skipn k' (sort_desc d l)). apply in_or_app. auto. }
  destruct k as [|[|k]]; cbn [topk]; [intros x []| |].
  - destruct l as [|y l']; [intros x []|]. simpl. intros x [<-|[]]. apply pymax_from_in.
  - destruct (sized && _); apply F.
Qed.

Lemma elitist_incl i off p :
  incl (fst (elitist_survival (lt i) (gt i) (eq i) off p k_elites)) (off ++ p).
Proof.
  unfold elitist_survival. simpl. intros x Hx. apply topk_in in Hx.
  apply in_app_or in Hx. apply in_or_app. destruct Hx as [Hx|Hx]; [auto|right].
  apply topk_in in Hx. exact Hx.
Qed.

Lemma gen_history_weaken (n1 n2 : list A -> list A -> list A -> Prop) i c ps final r evs :
  (forall o p p', n1 o p p' -> n2 o p p') ->
  gen_history max_generations pipeline stop n1 i c ps final r evs ->
  gen_history max_generations pipeline stop n2 i c ps final r evs.
Proof.
  intros H [Hst Hend]. split; [|exact Hend]. intros j p p' Hj Hj'.
  destruct (Hst j p p' Hj Hj') as (E1 & E2 & o & E3 & E4). split; [exact E1|]. split; [exact E2|].
  exists o. auto.
Qed.

Lemma generational_run start init :
  exists r gc' evs ps final,
    generational_ea lt gt eq max_generations k_elites pipeline stop start init = Some (r, gc', evs) /\
    nth_error (ps ++ [final]) 0 = Some init /\
    gen_history max_generations pipeline stop
      (fun offspring parents survivors =>
         length survivors = length offspring /\ incl survivors (offspring ++ parents))
      0 start ps final r evs /\
    gc_curr gc' = (start + Z.of_nat (length ps))%Z /\ gc_ctx gc' = gc_curr gc'.
Proof.
  destruct (generational_ok start init) as (r & gc' & evs & E & ps & final & H0 & Hh & Hc).
  exists r, gc', evs, ps, final. split; [exact E|]. split; [exact H0|]. split; [|exact Hc].
  revert Hh. apply gen_history_weaken. intros o p p' [i ->].
  split; [apply elitist_length|apply elitist_incl].
Qed.

Lemma history_bound next i c ps final r evs :
  gen_history max_generations pipeline stop next i c ps final r evs ->
  ps = [] \/ (c + Z.of_nat (length ps) <= max_generations)%Z.
Proof.
  intros [Hst _]. destruct (Nat.eq_dec (length ps) 0) as [E|E]; [left; destruct ps; [reflexivity|discriminate]|right].
  destruct (nth_error ps (length ps - 1)) as [p|] eqn:E1; [|apply nth_error_None in E1; lia].
  destruct (nth_error (ps ++ [final]) (S (length ps - 1))) as [p'|] eqn:E2;
    [|apply nth_error_None in E2; rewrite app_length in E2; simpl in E2; lia].
  destruct (Hst _ p p' E1 E2) as [H _]. lia.
Qed.

Lemma bred_from_trace c ps : bred_from (gen_trace (A:=A) c ps) = ps.
Proof. revert c. induction ps as [|p ps IH]; intros c; simpl; [reflexivity|f_equal; apply IH]. Qed.

Lemma bred_from_app (a b : list (@gen_event A)) : bred_from (a ++ b) = bred_from a ++ bred_from b.
Proof. apply flat_map_app. Qed.

(** never stopping and never failing *)
Lemma generational_count start init :
  (forall i c p, stop i c p = false) ->
  (forall i c p, exists o, pipeline i c p = Ok o) ->
  exists f gc' evs,
    generational_ea lt gt eq max_generations k_elites pipeline stop start init = Some (Ok f, gc', evs) /\
    length (bred_from evs) = Z.to_nat (max_generations - start).
Proof.
  intros Hs Hp.
  destruct (generational_ok start init) as (r & gc' & evs & E & ps & final & H0 & Hh & Hc).
  assert (Hb := history_bound _ _ _ _ _ _ _ Hh).
  destruct Hh as (_ & [(-> & Hm & ->)|[(_ & _ & Hm & _)|(e & _ & _ & _ & He & _)]]).
  - exists final, gc', (gen_trace start ps). split; [exact E|]. rewrite bred_from_trace.
    destruct Hb as [->|Hb]; [simpl in *|]; lia.
  - rewrite Hs in Hm. discriminate.
  - edestruct Hp as [o Ho]. rewrite He in Ho. discriminate.
Qed.
End Gen.

(** ** C11 *)
Lemma nth_error_Some_lt {A} (l : list A) j p : nth_error l j = Some p -> j < length l.
Proof. intros H. apply nth_error_Some. congruence. Qed.

Lemma elitism_monotone (mx : bool) (coin : nat -> sind -> sind -> bool) max k pipeline stop
    (P : num -> Prop) start init :
  (forall f g m, P f -> P g -> blurred f g -> ~ better m f g) ->
  1 <= k ->
  (forall i c p o, Forall (fun x => P (si_fit x)) p -> pipeline i c p = Ok o ->
     o <> [] /\ Forall (fun x => P (si_fit x)) o) ->
  Forall (fun x => P (si_fit x)) init ->
  forall final gc' evs,
  generational_ea (fun i => ind_lt mx (coin i)) (fun i => ind_gt mx (coin i)) (fun _ => ind_eq)
    max k pipeline stop start init = Some (Ok final, gc', evs) ->
  let pops := bred_from evs ++ [final] in
  nth_error pops 0 = Some init /\
  forall j1 j2 p1 p2, j1 <= j2 -> nth_error pops j1 = Some p1 -> nth_error pops j2 = Some p2 ->
    forall x, In x p1 -> exists y, In y p2 /\ ~ better mx (si_fit x) (si_fit y).
Proof.
  intros HP Hk Hpipe Hinit final0 gc' evs Hrun.
  destruct (generational_ok (fun i => ind_lt mx (coin i)) (fun i => ind_gt mx (coin i)) (fun _ => ind_eq)
    max k pipeline stop start init)
    as (r0 & gc0 & evs0 & E & ps & final & H0 & (Hst & Hend) & _).
  rewrite Hrun in E. injection E as <- <- <-.
  assert (Hb : bred_from evs = ps /\ final0 = final).
  { destruct Hend as [(E1 & _ & ->)|[(E1 & _ & _ & ->)|(e & E1 & _)]]; [| |discriminate];
      injection E1 as ->; (split; [|reflexivity]).
    - apply bred_from_trace.
    - rewrite bred_from_app, bred_from_trace. apply app_nil_r. }
  clear Hend. destruct Hb as [Hb ->]. cbn zeta. rewrite Hb. set (pops := ps ++ [final]) in *.
  assert (Hst' : forall j p p', nth_error pops j = Some p -> nth_error pops (S j) = Some p' ->
     exists ii c o i, pipeline ii c p = Ok o /\
       p' = fst (elitist_survival (ind_lt mx (coin i)) (ind_gt mx (coin i)) ind_eq o p k)).
  { intros j p p' Hj Hj'. assert (Hlt := nth_error_Some_lt _ _ _ Hj').
    unfold pops in Hlt, Hj. rewrite app_length in Hlt. simpl in Hlt.
    rewrite nth_error_app1 in Hj by lia.
    destruct (Hst j p p' Hj Hj') as (_ & _ & o & Ho & i & Hi). eauto 10. }
  split; [exact H0|].
  assert (Hsharp : forall l, Forall (fun x => P (si_fit x)) l -> sharp (map si_fit l)).
  { intros l Hl f g m Hf Hg. rewrite Forall_forall in Hl.
    apply in_map_iff in Hf, Hg. destruct Hf as (x & <- & Hx), Hg as (y & <- & Hy). apply HP; auto. }
  assert (HPall : forall j p, nth_error pops j = Some p -> Forall (fun x => P (si_fit x)) p).
  { induction j as [|j IH]; intros p Hj; [congruence|].
    assert (Hlt := nth_error_Some_lt _ _ _ Hj).
    destruct (nth_error pops j) as [q|] eqn:Eq; [|apply nth_error_None in Eq; lia].
    specialize (IH q eq_refl).
    destruct (Hst' j q p Eq Hj) as (ii & c & o & i & Ho & ->).
    destruct (Hpipe _ _ _ _ IH Ho) as [Hne Hop].
    assert (Hall : Forall (fun x => P (si_fit x)) (o ++ q)) by (apply Forall_app; auto).
    destruct (elitist_keeps_best mx (coin i) o q k (Hsharp _ Hall) Hk Hne) as (_ & Hincl & _).
    rewrite Forall_forall in *. intros x Hx. apply Hall, Hincl, Hx. }
  assert (Hone : forall j p p', nth_error pops j = Some p -> nth_error pops (S j) = Some p' ->
            forall x, In x p -> exists y, In y p' /\ ~ better mx (si_fit x) (si_fit y)).
  { intros j q p Eq Hj x Hx.
    assert (IH := HPall j q Eq).
    destruct (Hst' j q p Eq Hj) as (ii & c & o & i & Ho & ->).
    destruct (Hpipe _ _ _ _ IH Ho) as [Hne Hop].
    assert (Hall : Forall (fun x => P (si_fit x)) (o ++ q)) by (apply Forall_app; auto).
    destruct (elitist_keeps_best mx (coin i) o q k (Hsharp _ Hall) Hk Hne) as (_ & _ & Hk').
    apply Hk', in_or_app. auto. }
  intros j1 j2 p1 p2 Hle E1 E2. revert p2 E2. induction Hle as [|j2 Hle IH]; intros p2 E2 x Hx.
  - rewrite E1 in E2. injection E2 as <-. exists x. split; [exact Hx|]. apply better_irrefl.
  - assert (Hlt := nth_error_Some_lt _ _ _ E2).
    destruct (nth_error pops j2) as [q|] eqn:Eq; [|apply nth_error_None in Eq; lia].
    destruct (IH q eq_refl x Hx) as (y & Hy & Hxy).
    destruct (Hone j2 q p2 Eq E2 y Hy) as (z & Hz & Hyz).
    exists z. split; [exact Hz|]. eapply nb_trans_num; eassumption.
Qed.

(** ** C30 *)
Section MP.
Context {A : Type}.
Variable max_generations : Z.
Variable shared_pipeline : list (@mop A).
Variable subpop_pipelines : list (list (@mop A)).
Variable stop : nat -> Z -> list (list A) -> bool.

Lemma nth_error_set_nth {B} i (x : B) l j : i < length l ->
  nth_error (set_nth i x l) j = if j =? i then Some x else nth_error l j.
Proof.
  revert i j. induction l as [|y l IH]; intros i j Hi; [simpl in Hi; lia|].
  destruct i as [|i], j as [|j]; simpl; try reflexivity.
  simpl in Hi. rewrite IH by lia. reflexivity.
Qed.

Definition mp_run_island (j g : nat) (v : view A) (parents : list A) : result (list A) :=
  bind (operators shared_pipeline subpop_pipelines j) (fun ops => run_ops ops g v parents).

Lemma island_loop_spec g gen : forall todo i pops r evs,
  i + todo = length pops ->
  island_loop shared_pipeline subpop_pipelines todo i g gen pops = (r, evs) ->
  forall pops', r = Ok pops' ->
    length pops' = length pops /\ length evs = todo /\
    (forall j, j < i -> nth_error pops' j = nth_error pops j) /\
    forall j, i <= j < length pops ->
      exists e parents shown out,
        nth_error evs (j - i) = Some e /\ nth_error pops j = Some parents /\
        e = MpRun j (mk_view gen j shown) parents /\ length shown = length pops /\
        (forall m, nth_error shown m = if m <? j then nth_error pops' m else nth_error pops m) /\
        mp_run_island j g (mk_view gen j shown) parents = Ok out /\ nth_error pops' j = Some out.
Proof.
  induction todo as [|todo IH]; intros i pops r evs Hi Hrun pops' ->; cbn [island_loop] in Hrun.
  - injection Hrun as <- <-. repeat split; try reflexivity. intros j Hj. lia.
  - destruct (nth_error pops i) as [parents|] eqn:Ep; [|apply nth_error_None in Ep; lia].
    destruct (bind (operators shared_pipeline subpop_pipelines i)
                (fun ops => run_ops ops g (mk_view gen i pops) parents)) as [off|e] eqn:Eo;
      [|discriminate].
    destruct (island_loop shared_pipeline subpop_pipelines todo (S i) g gen (set_nth i off pops))
      as [r' evs'] eqn:El.
    injection Hrun as -> <-.
    assert (Hl : length (set_nth i off pops) = length pops) by apply set_nth_length.
    destruct (IH (S i) (set_nth i off pops) _ _ ltac:(lia) El pops' eq_refl) as (L1 & L2 & Hlow & Hhigh).
    rewrite Hl in *.
    assert (Hset : forall m, nth_error (set_nth i off pops) m = if m =? i then Some off else nth_error pops m)
      by (intros m; apply nth_error_set_nth; lia).
    assert (Hlow' : forall j, j < i -> nth_error pops' j = nth_error pops j).
    { intros j Hj. rewrite (Hlow j ltac:(lia)), Hset.
      destruct (Nat.eqb_spec j i); [lia|reflexivity]. }
    split; [exact L1|]. split; [simpl; lia|]. split; [exact Hlow'|].
    intros j Hj. destruct (Nat.eq_dec j i) as [->|Hne].
    + exists (MpRun i (mk_view gen i pops) parents), parents, pops, off.
      rewrite Nat.sub_diag. split; [reflexivity|]. split; [exact Ep|]. split; [reflexivity|].
      split; [reflexivity|]. split; [|split].
      * intros m. destruct (Nat.ltb_spec m i); [symmetry; apply Hlow'; lia|reflexivity].
      * exact Eo.
      * rewrite (Hlow i ltac:(lia)), Hset, Nat.eqb_refl. reflexivity.
    + destruct (Hhigh j ltac:(lia)) as (e & par & shown & out & He & Hpar & Hee & Hls & Hsh & Hrun & Hout).
      exists e, par, shown, out. replace (j - i) with (S (j - S i)) by lia.
      split; [exact He|]. split.
      { rewrite Hset in Hpar. destruct (Nat.eqb_spec j i); [lia|exact Hpar]. }
      split; [exact Hee|]. split; [exact Hls|]. split; [|split; assumption].
      intros m. rewrite Hsh. destruct (Nat.ltb_spec m j); [reflexivity|].
      rewrite Hset. destruct (Nat.eqb_spec m i); [lia|reflexivity].
Qed.

Definition mp_run_ok (g : nat) (c : Z) (init final : list (list A)) (gc' : gen_counter)
    (evss : list (list (@mp_event A))) : Prop :=
  mp_history max_generations mp_run_island stop g c init final (gc_curr gc') (gc_ctx gc') evss.

Lemma mp_single g c pops gc' :
  ((max_generations <= c)%Z \/ stop g c pops = true) -> gc_curr gc' = c -> gc_ctx gc' = c ->
  mp_run_ok g c pops pops gc' [].
Proof.
  intros H1 H2 H3. exists [pops], 0. split; [reflexivity|]. split; [reflexivity|].
  split; [reflexivity|]. split; [reflexivity|].
  split; [intros j p p' _ Hj; destruct j; discriminate|].
  rewrite Nat.add_0_r, Z.add_0_r. split; [exact H1|]. split; congruence.
Qed.

Lemma mp_loop_spec : forall fuel g gc pops,
  gc_curr gc = gc_ctx gc -> (max_generations - gc_curr gc <= Z.of_nat fuel)%Z ->
  exists r gc' evss,
    mp_loop max_generations shared_pipeline subpop_pipelines stop fuel g gc pops = Some (r, gc', evss) /\
    forall final, r = Ok final -> mp_run_ok g (gc_curr gc) pops final gc' evss.
Proof.
  induction fuel as [|fuel IH]; intros g gc pops Hctx Hfuel; cbn [mp_loop]; unfold gc_generation;
    destruct (Z.ltb_spec (gc_curr gc) max_generations) as [Hlt|Hge]; try lia.
  - eexists _, _, _. split; [reflexivity|]. intros f Hf. injection Hf as <-.
    apply mp_single; [left; lia|reflexivity|congruence].
  - rewrite <- Hctx. destruct (stop g (gc_curr gc) pops) eqn:Es.
    { eexists _, _, _. split; [reflexivity|]. intros f Hf. injection Hf as <-.
      apply mp_single; [auto|reflexivity|congruence]. }
    destruct (island_loop shared_pipeline subpop_pipelines (length pops) 0 g (gc_curr gc) pops)
      as [r evs] eqn:El.
    destruct r as [pops'|e].
    2:{ eexists _, _, _. split; [reflexivity|]. discriminate. }
    destruct (IH (S g) (snd (gc_increment [] gc)) pops') as (r & gc' & evss & E & Hok).
    + reflexivity.
    + simpl. lia.
    + rewrite E. eexists _, _, _. split; [reflexivity|]. intros final Hf.
      destruct (Hok final Hf) as (states & n & L1 & L2 & H0 & Hn & Hst & Hend & Hc1 & Hc2).
      simpl gc_curr in *.
      exists (pops :: states), (S n). split; [simpl; lia|]. split; [simpl; lia|].
      split; [reflexivity|]. split; [exact Hn|]. split; [|split; [|split]].
      * intros j p p' Hj Hj'. destruct j as [|j].
        -- injection Hj as <-. change (nth_error states 0 = Some p') in Hj'. rewrite H0 in Hj'.
           injection Hj' as <-. rewrite Nat.add_0_r, Z.add_0_r.
           split; [exact Hlt|]. split; [exact Es|]. exists evs. split; [reflexivity|].
           destruct (island_loop_spec g (gc_curr gc) _ _ _ _ _ (Nat.add_0_l _) El pops' eq_refl)
             as (G1 & G2 & _ & G3).
           split; [exact G1|]. split; [exact G2|]. intros j Hj.
           destruct (G3 j ltac:(lia)) as (e & par & shown & out & He & Hpar & -> & Hls & Hsh & Hr & Ho).
           rewrite Nat.sub_0_r in He. exists par, shown, out. auto 10.
        -- specialize (Hst j p p' Hj Hj'). replace (g + S j) with (S g + j) by lia.
           replace (gc_curr gc + Z.of_nat (S j))%Z with (gc_curr gc + 1 + Z.of_nat j)%Z by lia.
           exact Hst.
      * replace (g + S n) with (S g + n) by lia.
        replace (gc_curr gc + Z.of_nat (S n))%Z with (gc_curr gc + 1 + Z.of_nat n)%Z by lia. exact Hend.
      * lia.
      * exact Hc2.
  - eexists _, _, _. split; [reflexivity|]. intros f Hf. injection Hf as <-.
    apply mp_single; [left; lia|reflexivity|congruence].
Qed.

Lemma multi_population_ok init :
  exists r gc' evss,
    multi_population_ea max_generations shared_pipeline subpop_pipelines stop init = Some (r, gc', evss) /\
    forall final, r = Ok final -> mp_run_ok 0 0 init final gc' evss.
Proof. apply (mp_loop_spec _ 0 (inc_generation 0) init); [reflexivity|]. simpl. lia. Qed.

Lemma multi_population_count init r gc' evss final :
  (forall g c p, stop g c p = false) ->
  multi_population_ea max_generations shared_pipeline subpop_pipelines stop init = Some (r, gc', evss) ->
  r = Ok final -> length evss = Z.to_nat max_generations.
Proof.
  intros Hs Hrun Hr. destruct (multi_population_ok init) as (r0 & gc0 & ev0 & E & Hok).
  rewrite Hrun in E. injection E as <- <- <-.
  destruct (Hok final Hr) as (states & n & L1 & L2 & _ & _ & Hst & Hend & _).
  assert (Hb : n = 0 \/ (0 + Z.of_nat n <= max_generations)%Z).
  { clear Hend L2. destruct n as [|n]; [auto|right].
    destruct (nth_error states n) as [p|] eqn:E; [|apply nth_error_None in E; lia].
    destruct (nth_error states (S n)) as [p'|] eqn:E'; [|apply nth_error_None in E'; lia].
    destruct (Hst n p p' E E') as [H _]. lia. }
  destruct Hb; destruct Hend as [Hend|Hend]; try lia;
    rewrite Hs in Hend; discriminate.
Qed.
End MP.

(** ** C53 *)
Section RS.
Context {A : Type}.
Variable evaluations : Z.
Variable pipeline : nat -> rs_ctx -> list A -> result (list A).

(** each trajectory member after the first is what the pipeline made of its predecessor *)
Lemma rs_loop_spec : forall fuel i curr c ind traj caller,
  (evaluations - curr <= Z.of_nat fuel)%Z -> curr = (1 + Z.of_nat i)%Z ->
  c = mk_rs caller (Some curr) ->
  (forall i c x, exists y, pipeline i c [x] = Ok [y]) ->
  exists new last,
    rs_loop evaluations pipeline fuel i curr c ind traj = Some (Ok (traj ++ new), last) /\
    length new = Z.to_nat (evaluations - curr) /\
    last = mk_rs caller (Some (Z.max curr evaluations)) /\
    forall j x y, nth_error (ind :: new) j = Some x -> nth_error new j = Some y ->
      pipeline (i + j) (mk_rs caller (Some (curr + Z.of_nat j)%Z)) [x] = Ok [y].
Proof.
  induction fuel as [|fuel IH]; intros i curr c ind traj caller Hf Hc Hctx Hp; cbn [rs_loop];
    destruct (Z.ltb_spec curr evaluations) as [Hlt|Hge]; try lia.
  - exists [], c. rewrite app_nil_r. split; [reflexivity|]. split; [simpl; lia|].
    split; [rewrite Hctx; f_equal; f_equal; lia|]. intros j x y _ Hj. destruct j; discriminate.
  - destruct (Hp i c ind) as [y Hy]. rewrite Hy.
    destruct (IH (S i) (curr + 1)%Z (mk_rs (rs_caller c) (Some (curr + 1)%Z)) y (traj ++ [y]) caller)
      as (new & last & E & L & El & Hs).
    + lia.
    + lia.
    + rewrite Hctx. reflexivity.
    + exact Hp.
    + exists (y :: new), last. rewrite E, <- app_assoc. split; [reflexivity|].
      split; [simpl; lia|]. split; [rewrite El; f_equal; f_equal; lia|].
      intros j x z Hx Hz. destruct j as [|j].
      * injection Hx as <-. injection Hz as <-. rewrite Nat.add_0_r, Z.add_0_r, <- Hctx. exact Hy.
      * specialize (Hs j x z Hx Hz). replace (i + S j) with (S i + j) by lia.
        replace (curr + Z.of_nat (S j))%Z with (curr + 1 + Z.of_nat j)%Z by lia. exact Hs.
  - exists [], c. rewrite app_nil_r. split; [reflexivity|]. split; [simpl; lia|].
    split; [rewrite Hctx; f_equal; f_equal; lia|]. intros j x y _ Hj. destruct j; discriminate.
Qed.

Lemma random_search_ok caller global first :
  (1 <= evaluations)%Z ->
  (forall i c x, exists y, pipeline i c [x] = Ok [y]) ->
  exists traj,
    random_search evaluations pipeline caller global first =
      Some (Ok traj, mk_rs caller (Some evaluations)) /\
    Z.of_nat (length traj) = evaluations /\ nth_error traj 0 = Some first /\
    forall j x y, nth_error traj j = Some x -> nth_error traj (S j) = Some y ->
      pipeline j (mk_rs caller (Some (1 + Z.of_nat j)%Z)) [x] = Ok [y].
Proof.
  intros He Hp. unfold random_search.
  destruct (rs_loop_spec (Z.to_nat (evaluations - 1)) 0 1%Z (mk_rs caller (Some 1%Z)) first [first] caller)
    as (new & last & E & L & El & Hs); try assumption; try reflexivity; [lia|].
  exists ([first] ++ new). rewrite E, El. split; [repeat f_equal; lia|].
  split; [simpl length; lia|]. split; [reflexivity|].
  intros j x y Hx Hy. exact (Hs j x y Hx Hy).
Qed.

Lemma rs_walk caller : forall fuel i ind traj,
  (evaluations - (1 + Z.of_nat i) <= Z.of_nat fuel)%Z ->
  exists outs last r,
    rs_loop evaluations pipeline fuel i (1 + Z.of_nat i)%Z (mk_rs caller (Some (1 + Z.of_nat i)%Z)) ind traj =
      Some (r, mk_rs caller (Some (1 + Z.of_nat i + Z.of_nat (length outs))%Z)) /\
    walk pipeline caller i ind outs last /\
    ((length outs = Z.to_nat (evaluations - (1 + Z.of_nat i)) /\ r = Ok (traj ++ concat outs)) \/
     (length outs < Z.to_nat (evaluations - (1 + Z.of_nat i)) /\
      exists e, r = Err e /\
        let run := pipeline (i + length outs) (mk_rs caller (Some (1 + Z.of_nat i + Z.of_nat (length outs))%Z)) [last] in
        (run = Err e \/ (run = Ok [] /\ e = IndexError)))).
Proof.
  induction fuel as [|fuel IH]; intros i ind traj Hf; cbn [rs_loop];
    destruct (Z.ltb_spec (1 + Z.of_nat i) evaluations) as [Hlt|Hge]; try lia.
  1, 3: exists [], ind, (Ok traj); cbn [length concat]; rewrite Z.add_0_r, app_nil_r; split; [reflexivity|]; split; [constructor|left; split; [lia|reflexivity]].
  destruct (pipeline i (mk_rs caller (Some (1 + Z.of_nat i)%Z)) [ind]) as [[|y more]|e] eqn:E.
  - exists [], ind, (Err IndexError). cbn [length]. rewrite Z.add_0_r, Nat.add_0_r. split; [reflexivity|]. split; [constructor|]. right. split; [lia|].
    exists IndexError. split; [reflexivity|]. right. auto.
  - replace (1 + Z.of_nat i + 1)%Z with (1 + Z.of_nat (S i))%Z by lia. cbn [rs_caller].
    destruct (IH (S i) y (traj ++ y :: more) ltac:(lia)) as (outs & last & r & E1 & W & D).
    exists ((y :: more) :: outs), last, r. rewrite E1. split; [do 4 f_equal; cbn [length]; lia|]. split; [econstructor; eassumption|].
    replace (1 + Z.of_nat i + Z.of_nat (length ((y :: more) :: outs)))%Z with (1 + Z.of_nat (S i) + Z.of_nat (length outs))%Z by (cbn [length]; lia).
    replace (i + length ((y :: more) :: outs)) with (S i + length outs) by (cbn [length]; lia).
    destruct D as [(L & R) | (L & R)]; [left|right].
    + split; [cbn [length]; lia|]. rewrite R, <- app_assoc. reflexivity.
    + split; [cbn [length]; lia|exact R].
  - exists [], ind, (Err e). cbn [length]. rewrite Z.add_0_r, Nat.add_0_r. split; [reflexivity|]. split; [constructor|]. right. split; [lia|]. exists e. auto.
Qed.

Lemma random_search_walk caller global first :
  exists outs last r,
    random_search evaluations pipeline caller global first =
      Some (r, mk_rs caller (Some (1 + Z.of_nat (length outs))%Z)) /\
    walk pipeline caller 0 first outs last /\
    ((length outs = Z.to_nat (evaluations - 1) /\ r = Ok (first :: concat outs)) \/
     (length outs < Z.to_nat (evaluations - 1) /\
      exists e, r = Err e /\
        let run := pipeline (length outs) (mk_rs caller (Some (1 + Z.of_nat (length outs))%Z)) [last] in
        (run = Err e \/ (run = Ok [] /\ e = IndexError)))).
Proof. exact (rs_walk caller (Z.to_nat (evaluations - 1)) 0 first [first] ltac:(lia)). Qed.
End RS.

Lemma stop_at_generation_count {A} (lt gt eq : nat -> A -> A -> bool) max_generations k_elites pipeline start init m :
  (forall i c p, exists o, pipeline i c p = Ok o) ->
  exists f gc' evs,
    generational_ea lt gt eq max_generations k_elites pipeline (stop_at_generation m) start init
      = Some (Ok f, gc', evs) /\
    length (bred_from evs) = Z.to_nat (Z.min max_generations m - start).
Proof.
  intros Hp.
  destruct (generational_ok lt gt eq max_generations k_elites pipeline (stop_at_generation m) start init)
    as (r & gc' & evs & E & ps & final & H0 & Hh & Hc).
  assert (Hb : ps = [] \/ (start + Z.of_nat (length ps) <= Z.min max_generations m)%Z).
  { destruct Hh as [Hst _]. destruct (Nat.eq_dec (length ps) 0) as [E0|E0]; [left; destruct ps; [reflexivity|discriminate]|right].
    destruct (nth_error ps (length ps - 1)) as [p|] eqn:E1; [|apply nth_error_None in E1; lia].
    destruct (nth_error (ps ++ [final]) (S (length ps - 1))) as [p'|] eqn:E2;
      [|apply nth_error_None in E2; rewrite app_length in E2; simpl in E2; lia].
    destruct (Hst _ p p' E1 E2) as (H & Hs & _). unfold stop_at_generation in Hs.
    destruct (Z.ltb_spec (start + Z.of_nat (length ps - 1)) m); [lia|discriminate]. }
  destruct Hh as (_ & [(-> & Hm & ->)|[(-> & Hl & Hm & ->)|(e & _ & _ & _ & He & _)]]).
  - exists final, gc', (gen_trace start ps). split; [exact E|]. rewrite bred_from_trace.
    destruct Hb as [->|Hb]; [simpl in *|]; lia.
  - eexists final, gc', _. split; [exact E|]. rewrite bred_from_app, bred_from_trace.
    unfold stop_at_generation in Hm.
    destruct (Z.ltb_spec (start + Z.of_nat (length ps)) m); [discriminate|].
    rewrite app_length. simpl. destruct Hb as [->|Hb]; [simpl in *|]; lia.
  - edestruct Hp as [o Ho]. rewrite He in Ho. discriminate.
Qed.

(** ** What is run on an island *)
Lemma run_ops_passes {A} g v (ops : list (@mop A)) : forall x y, run_ops ops g v x = Ok y <-> passes g v ops x y.
Proof.
  induction ops as [|o ops IH]; intros x y; cbn [run_ops].
  - split; intros H; [injection H as <-; constructor|inversion H; reflexivity].
  - split; intros H.
    + destruct (o g v x) as [m|e] eqn:E; [|discriminate]. cbn [bind] in H. apply passes_cons with m; [exact E|]. apply IH, H.
    + inversion H as [|? ? ? m ? E P]; subst. rewrite E. cbn [bind]. apply IH. exact P.
Qed.
Lemma passes_app {A} g v (a b : list (@mop A)) : forall x z, passes g v (a ++ b) x z <-> exists y, passes g v a x y /\ passes g v b y z.
Proof.
  induction a as [|o a IH]; intros x z; cbn [app].
  - split; [intros H; exists x; split; [constructor|exact H]|]. intros (y & H1 & H2). inversion H1; subst. exact H2.
  - split.
    + intros H. inversion H as [|? ? ? m ? E P]; subst. apply IH in P. destruct P as (y' & H6 & H7). exists y'. split; [econstructor; eassumption|exact H7].
    + intros (y & H1 & H2). inversion H1; subst. econstructor; [eassumption|]. apply IH. exists y. split; assumption.
Qed.
Lemma island_operators {A} (shared : list (@mop A)) subs j g v parents offspring :
  let run := bind (operators shared subs j) (fun ops => run_ops ops g v parents) in
  (subs = [] -> (run = Ok offspring <-> passes g v shared parents offspring)) /\
  (forall own, nth_error subs j = Some own ->
     (run = Ok offspring <-> exists between, passes g v shared parents between /\ passes g v own between offspring)) /\
  (subs <> [] -> length subs <= j -> run = Err IndexError).
Proof.
  cbv zeta. unfold operators. split; [|split].
  - intros ->. cbn [bind]. apply run_ops_passes.
  - intros own E. destruct subs as [|s subs]; [destruct j; discriminate|]. rewrite E. cbn [bind]. rewrite run_ops_passes. apply passes_app.
  - intros Hne Hj. destruct subs as [|s subs]; [congruence|]. apply nth_error_None in Hj. rewrite Hj. reflexivity.
Qed.
