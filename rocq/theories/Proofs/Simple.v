From Verif Require Import Model.Base Model.PyList Model.Scalar Model.Selection Model.Probe Model.Variation Model.Transfer Model.Simple
  Spec.Order Spec.Variation Spec.Simple Proofs.Variation Proofs.ScalarSel Proofs.Algorithm Proofs.Transfer.
From Coq Require Import Lia Lqa Permutation Sorted.
Lemma finite_ok l q : map Fin q = l -> finite_genome l = Ok q.
Proof. intros <-. induction q as [|x q IH]; cbn; [reflexivity|]. rewrite IH. reflexivity. Qed.

Lemma all_fin l : (forall i x, nth_error l i = Some x -> exists q, x = Fin q) -> exists q, map Fin q = l.
Proof.
  induction l as [|x l IH]; intro H; [exists []; reflexivity|].
  destruct (H 0 x eq_refl) as [q ->]. destruct IH as [r <-]; [intros i y Hy; exact (H (S i) y Hy)|].
  exists (q :: r). reflexivity.
Qed.
Lemma all_selected us (g : list Q) : length us = length g -> Forall (fun u => 0 <= u /\ u < 1)%Q us ->
  select_mask (map (fun u => Qltb u 1) us) g = g.
Proof.
  revert g. induction us as [|u us IH]; intros [|x g] L F; cbn in *; try discriminate; [reflexivity|].
  inversion F as [|? ? [_ U] F']; subst. unfold Qltb.
  destruct (Qle_bool 1 u) eqn:E; cbn.
  - apply Qle_bool_iff in E. lra.
  - f_equal. apply IH; [lia|assumption].
Qed.
Lemma all_before us i : i <= length us -> Forall (fun u => 0 <= u /\ u < 1)%Q us -> selected_before us 1 i = i.
Proof.
  unfold selected_before. revert i. induction us as [|u us IH]; intros [|i] L F; cbn in *; try reflexivity; try lia.
  inversion F as [|? ? [_ U] F']; subst. destruct (Qlt_le_dec u 1) as [_|H]; [|lra]. cbn. f_equal. apply IH; [lia|assumption].
Qed.
Lemma Fin_inj a b : Fin a = Fin b -> a = b. Proof. intro H. inversion H. reflexivity. Qed.
Lemma clamped_fin low v high x : clamped (Fin low) (Fin v) (Fin high) x -> exists c, x = Fin c /\ moved true (low, high) v c.
Proof.
  intros (A & B & C). cbn [ext_le] in A, B, C.
  destruct (Qlt_le_dec v low) as [H|H].
  - assert (E1 : x = Fin low) by (apply A; intro N; lra). exists low. split; [exact E1|]. cbn [moved fst snd].
    split; [intros; reflexivity|]. split; [|intros; lra].
    intro K. assert (E2 : x = Fin high) by (apply B; intro N; lra). rewrite E1 in E2. apply Fin_inj in E2. rewrite E2. reflexivity.
  - destruct (Qlt_le_dec high v) as [K|K].
    + exists high. split; [apply B; intro N; lra|]. cbn [moved fst snd]. split; [intros; lra|]. split; [reflexivity|intros; lra].
    + exists v. split; [apply C; assumption|]. cbn [moved fst snd]. split; [intros; lra|]. split; intros; [lra|reflexivity].
Qed.

Section Evaluated.
Variable function : list Q -> result num.
Notation ok_ind genomes := (fun x => exists g, genome_of genomes x g /\ scored function g (si_fit x)).
Lemma robust_scored g : scored function g (robust_fitness function g).
Proof. unfold scored, robust_fitness. destruct (function g); [left; reflexivity|right; split; [eauto|reflexivity]]. Qed.

Lemma evaluated_len gs : forall id, length (evaluated function id gs) = length gs.
Proof. induction gs as [|g gs IH]; intro id; cbn; [reflexivity|]. rewrite IH. reflexivity. Qed.
Lemma evaluated_app gs hs : forall id, evaluated function id (gs ++ hs) = evaluated function id gs ++ evaluated function (id + length gs) hs.
Proof.
  induction gs as [|g gs IH]; intro id; cbn; [rewrite Nat.add_0_r; reflexivity|]. rewrite IH. do 3 f_equal. lia.
Qed.
Lemma evaluated_nth gs : forall id j g, nth_error gs j = Some g ->
  nth_error (evaluated function id gs) j = Some (mk_sind (id + j) (robust_fitness function g)).
Proof.
  induction gs as [|h gs IH]; intros id [|j] g; cbn; try discriminate; intro H.
  - inversion H; subst. rewrite Nat.add_0_r. reflexivity.
  - rewrite (IH (S id) j g H). do 2 f_equal. lia.
Qed.
Lemma evaluated_numbered gs id : numbered function id gs (evaluated function id gs).
Proof.
  split; [apply evaluated_len|]. intros j g x Hg Hx. rewrite (evaluated_nth gs id j g Hg) in Hx. inversion Hx; subst. cbn.
  split; [reflexivity|apply robust_scored].
Qed.
Lemma evaluated_in gs id x : In x (evaluated function id gs) -> exists j g, nth_error gs j = Some g /\ x = mk_sind (id + j) (robust_fitness function g).
Proof.
  intro H. apply In_nth_error in H. destruct H as [j H]. assert (j < length gs) by (rewrite <- (evaluated_len gs id); apply nth_error_Some; congruence).
  destruct (nth_error gs j) as [g|] eqn:E; [|apply nth_error_None in E; lia]. exists j, g. split; [exact E|].
  rewrite (evaluated_nth gs id j g E) in H. congruence.
Qed.
Lemma evaluated_ok before gs after : Forall (ok_ind (before ++ gs ++ after)) (evaluated function (length before) gs).
Proof.
  apply Forall_forall. intros x Hx. apply evaluated_in in Hx. destruct Hx as (j & g & Hg & ->). exists g. split; [|apply robust_scored].
  unfold genome_of. cbn [si_id]. rewrite nth_error_app2 by lia. replace (length before + j - length before) with j by lia.
  rewrite nth_error_app1; [exact Hg|]. apply nth_error_Some. congruence.
Qed.
Lemma evaluated_ok0 gs : Forall (ok_ind gs) (evaluated function 0 gs).
Proof.
  apply Forall_forall. intros x Hx. apply evaluated_in in Hx. destruct Hx as (j & g & Hg & ->). exists g. split; [exact Hg|apply robust_scored].
Qed.
Lemma ok_more genomes more x : ok_ind genomes x -> ok_ind (genomes ++ more) x.
Proof.
  intros (g & H & S). exists g. split; [|exact S]. unfold genome_of in *. rewrite nth_error_app1; [exact H|]. apply nth_error_Some. congruence.
Qed.

End Evaluated.

Section Solve.
Variable function : list Q -> result num.
Variable mx : bool.
Variable bnds : list (Q * Q).
Variable hard : bool.
Variable std : Q + list Q.
Variable size : nat.
Let n := length bnds.
Hypothesis Hb : Forall (fun b => fst b <= snd b)%Q bnds.
Hypothesis Hs : match std with inl s => (0 <= s)%Q | inr l => length l = n end.

Notation ok_ind genomes := (fun x => exists g, genome_of genomes x g /\ scored function g (si_fit x)).

Lemma bred_ok d genomes parents j : good_draws n size d -> length parents = size -> Forall (fun g => length g = n) genomes ->
  Forall (ok_ind genomes) parents ->
  exists p pg g, bred mx bnds hard std d genomes parents j = Ok g /\ wins mx parents (gd_choices d j) p /\ genome_of genomes p pg /\
    length pg = n /\ length g = n /\
    forall i x c, nth_error pg i = Some x -> nth_error g i = Some c -> exists b z s, nth_error bnds i = Some b /\
      nth_error (gd_noise d j) i = Some z /\ std_at std i = Some s /\ moved hard b (x + z * s)%Q c.
Proof.
  intros G L LG OK. destruct (G j) as (C1 & C2 & U1 & U2 & N1 & _).
  destruct (tournament_spec mx (gd_tcoin d j) parents false (gd_choices d j) None C1) as (i & p & E & I & Np & W); [rewrite L; exact C2|].
  assert (Ip : In p parents) by (eapply nth_error_In, Np).
  rewrite Forall_forall in OK. destruct (OK p Ip) as (pg & Gp & _).
  assert (Lp : length pg = n) by (rewrite Forall_forall in LG; apply LG; eapply nth_error_In, Gp).
  set (b := mutation_bounds bnds hard).
  destruct (gaussian_in_bounds std None b 1 0 (gd_us d j) (gd_noise d j) pg 1) as (ip & g' & Eg & IB & LE & CW).
  { lia. } { unfold b, mutation_bounds. destruct hard; cbn; [rewrite map_length; fold n; lia|exact Logic.I]. }
  { rewrite all_selected by (lia || assumption). lia. }
  { destruct std; [exact Hs|rewrite Hs; lia]. }
  { reflexivity. } { lra. } { lra. }
  { intros k low high. unfold b, mutation_bounds. destruct hard; cbn.
    - rewrite nth_error_map. destruct (nth_error bnds k) as [[lo hi]|] eqn:E1; cbn; [|discriminate]. intro H. inversion H; subst.
      cbn. rewrite Forall_forall in Hb. specialize (Hb _ (nth_error_In _ _ E1)). cbn in Hb. lra.
    - intro H. inversion H; subst. cbn. auto. }
  assert (FIN : forall k x', nth_error g' k = Some x' -> exists x b0 z s c, nth_error pg k = Some x /\ x' = Fin c /\ nth_error bnds k = Some b0 /\
     nth_error (gd_noise d j) k = Some z /\ std_at std k = Some s /\ moved hard b0 (x + z * s)%Q c).
  { intros k x' Hk. assert (Lk : k < length pg) by (rewrite <- LE; apply nth_error_Some; congruence).
    destruct (nth_error pg k) as [x|] eqn:Ex; [|apply nth_error_None in Ex; lia].
    destruct (CW k x Ex) as (y & Hy & D & _). rewrite Hk in Hy. inversion Hy; subst y.
    destruct D as (low & high & z & s & B1 & Z1 & S1 & CL).
    { destruct (nth_error (gd_us d j) k) as [u|] eqn:Eu; [|apply nth_error_None in Eu; lia].
      exists u. split; [exact Eu|]. rewrite Forall_forall in U2. apply U2. eapply nth_error_In, Eu. }
    rewrite all_before in Z1 by (lia || assumption).
    destruct (nth_error bnds k) as [b0|] eqn:Eb; [|apply nth_error_None in Eb; unfold n in *; lia].
    exists x, b0, z, s. unfold b, mutation_bounds in B1. destruct hard; cbn in B1.
    - rewrite nth_error_map, Eb in B1. cbn in B1. inversion B1; subst low high.
      apply clamped_fin in CL. destruct CL as (c & -> & M). exists c. split; [reflexivity|]. split; [reflexivity|]. split; [reflexivity|]. split; [exact Z1|]. split; [exact S1|].
      destruct M as (M1 & M2 & M3). assert (EV : (1 * (x + z * s) + 0 == x + z * s)%Q) by ring. rewrite EV in M1, M2, M3. cbn in *. auto.
    - inversion B1; subst low high. destruct CL as (_ & _ & CL). rewrite CL by (cbn; auto).
      eexists. split; [reflexivity|]. split; [reflexivity|]. split; [reflexivity|]. split; [exact Z1|]. split; [exact S1|]. cbn. ring. }
  destruct (all_fin g') as [q Eq]. { intros k x' Hk. destruct (FIN k x' Hk) as (_ & _ & _ & _ & c & _ & -> & _). eauto. }
  exists p, pg, q. split.
  { unfold bred. rewrite E. cbn [bind]. unfold genome_of in Gp. rewrite Gp. cbn [bind mutate_gaussian]. fold b. rewrite Eg. cbn [bind]. apply finite_ok, Eq. }
  split. { split; [exists i; auto|]. intros c y Hc Hy. apply (W c y Hc Hy). }
  split; [exact Gp|]. split; [exact Lp|]. split. { rewrite <- Lp, <- LE, <- Eq, map_length. reflexivity. }
  intros k x c Hx Hc. destruct (FIN k (Fin c)) as (x0 & b0 & z & s & c0 & A1 & A2 & A3 & A4 & A5 & A6).
  { rewrite <- Eq, nth_error_map, Hc. reflexivity. }
  apply Fin_inj in A2. subst c0. rewrite Hx in A1. inversion A1; subst x0. eauto 10.
Qed.

Definition child_ok d genomes parents j (g : list Q) : Prop :=
  length g = n /\ forall i c, nth_error g i = Some c -> inherits mx hard bnds (std_at std) d genomes parents j i c.

Lemma pair_index k : Nat.div2 (2 * k) = k /\ Nat.odd (2 * k) = false /\ Nat.div2 (S (2 * k)) = k /\ Nat.odd (S (2 * k)) = true.
Proof.
  split; [apply Nat.div2_double|]. split. { unfold Nat.odd. rewrite Nat.even_mul. reflexivity. }
  split; [apply Nat.div2_succ_double|]. rewrite Nat.odd_succ, Nat.even_mul. reflexivity.
Qed.

Lemma pair_ok d genomes parents k : good_draws n size d -> length parents = size -> Forall (fun g => length g = n) genomes ->
  Forall (ok_ind genomes) parents ->
  exists a b a' b', bred mx bnds hard std d genomes parents (2 * k) = Ok a /\ bred mx bnds hard std d genomes parents (S (2 * k)) = Ok b /\
    uniform_recombine (gd_mask d k) a b = Ok (a', b') /\ child_ok d genomes parents (2 * k) a' /\ child_ok d genomes parents (S (2 * k)) b'.
Proof.
  intros G L LG OK.
  destruct (bred_ok d genomes parents (2 * k) G L LG OK) as (p & pg & a & Ea & Wp & Gp & Lp & La & Fa).
  destruct (bred_ok d genomes parents (S (2 * k)) G L LG OK) as (q & qg & b & Eb & Wq & Gq & Lq & Lb & Fb).
  destruct (G k) as (_ & _ & _ & _ & _ & Lm).
  destruct (uniform_full (gd_mask d k) a b) as (a' & b' & Eu & (L1 & L2 & X) & _); [congruence|congruence|].
  exists a, b, a', b'. split; [exact Ea|]. split; [exact Eb|]. split; [exact Eu|].
  destruct (pair_index k) as (I1 & I2 & I3 & I4).
  assert (GA : forall i c, nth_error a i = Some c -> exists x b0 z s, nth_error pg i = Some x /\ nth_error bnds i = Some b0 /\
     nth_error (gd_noise d (2 * k)) i = Some z /\ std_at std i = Some s /\ moved hard b0 (x + z * s)%Q c).
  { intros i c Hc. assert (i < length pg) by (rewrite Lp, <- La; apply nth_error_Some; congruence).
    destruct (nth_error pg i) as [x|] eqn:Ex; [|apply nth_error_None in Ex; lia].
    destruct (Fa i x c Ex Hc) as (b0 & z & s & ?). exists x, b0, z, s. tauto. }
  assert (GB : forall i c, nth_error b i = Some c -> exists x b0 z s, nth_error qg i = Some x /\ nth_error bnds i = Some b0 /\
     nth_error (gd_noise d (S (2 * k))) i = Some z /\ std_at std i = Some s /\ moved hard b0 (x + z * s)%Q c).
  { intros i c Hc. assert (i < length qg) by (rewrite Lq, <- Lb; apply nth_error_Some; congruence).
    destruct (nth_error qg i) as [x|] eqn:Ex; [|apply nth_error_None in Ex; lia].
    destruct (Fb i x c Ex Hc) as (b0 & z & s & ?). exists x, b0, z, s. tauto. }
  assert (XY : forall i, i < n -> exists x y, nth_error a i = Some x /\ nth_error b i = Some y).
  { intros i Hi. destruct (nth_error a i) as [x|] eqn:E1; [|apply nth_error_None in E1; lia].
    destruct (nth_error b i) as [y|] eqn:E2; [|apply nth_error_None in E2; lia]. eauto. }
  split; (split; [congruence|]); intros i c Hc.
  - assert (Hi : i < n) by (rewrite <- La, <- L1; apply nth_error_Some; congruence).
    destruct (XY i Hi) as (x & y & Hx & Hy). destruct (X i x y Hx Hy) as [R _]. rewrite Hc in R. inversion R; subst c.
    unfold inherits. rewrite I1, I2. cbv zeta. destruct (nth i (gd_mask d k) false); cbn [Bool.eqb].
    + destruct (GB i y Hy) as (x0 & b0 & z & s & ?). exists q, qg, b0, x0, z, s. tauto.
    + destruct (GA i x Hx) as (x0 & b0 & z & s & ?). exists p, pg, b0, x0, z, s. tauto.
  - assert (Hi : i < n) by (rewrite <- Lb, <- L2; apply nth_error_Some; congruence).
    destruct (XY i Hi) as (x & y & Hx & Hy). destruct (X i x y Hx Hy) as [_ R]. rewrite Hc in R. inversion R; subst c.
    unfold inherits. rewrite I3, I4. cbv zeta. destruct (nth i (gd_mask d k) false); cbn [Bool.eqb].
    + destruct (GA i x Hx) as (x0 & b0 & z & s & ?). exists p, pg, b0, x0, z, s. tauto.
    + destruct (GB i y Hy) as (x0 & b0 & z & s & ?). exists q, qg, b0, x0, z, s. tauto.
Qed.

Lemma offspring_ok d genomes parents : good_draws n size d -> length parents = size -> Forall (fun g => length g = n) genomes ->
  Forall (ok_ind genomes) parents -> forall m k,
  (exists gs, offspring mx bnds hard std d genomes parents k m = Ok gs /\ length gs = m /\
    forall j g, nth_error gs j = Some g -> child_ok d genomes parents (2 * k + j) g) /\
  (exists gs, offspring mx bnds hard std d genomes parents k (S m) = Ok gs /\ length gs = S m /\
    forall j g, nth_error gs j = Some g -> child_ok d genomes parents (2 * k + j) g).
Proof.
  intros G L LG OK.
  assert (ONE : forall k m, (exists gs, offspring mx bnds hard std d genomes parents (S k) m = Ok gs /\ length gs = m /\
      forall j g, nth_error gs j = Some g -> child_ok d genomes parents (2 * S k + j) g) ->
    exists gs, offspring mx bnds hard std d genomes parents k (S (S m)) = Ok gs /\ length gs = S (S m) /\
      forall j g, nth_error gs j = Some g -> child_ok d genomes parents (2 * k + j) g).
  { intros k m (gs & E & Lg & H). destruct (pair_ok d genomes parents k G L LG OK) as (a & b & a' & b' & Ea & Eb & Eu & Ca & Cb).
    exists (a' :: b' :: gs). cbn [offspring]. rewrite Ea. cbn [bind]. rewrite Eb. cbn [bind]. rewrite Eu. cbn [bind]. rewrite E. cbn [bind].
    split; [reflexivity|]. split; [cbn; lia|]. intros [|[|j]] g; cbn [nth_error]; intro Hg.
    - inversion Hg; subst. rewrite Nat.add_0_r. exact Ca.
    - inversion Hg; subst. rewrite Nat.add_1_r. exact Cb.
    - replace (2 * k + S (S j)) with (2 * S k + j) by lia. apply H, Hg. }
  induction m as [|m IH]; intro k.
  - split.
    + exists []. split; [reflexivity|]. split; [reflexivity|]. intros [|j] g; discriminate.
    + destruct (pair_ok d genomes parents k G L LG OK) as (a & b & a' & b' & Ea & Eb & Eu & Ca & Cb).
      exists [a']. cbn [offspring]. rewrite Ea. cbn [bind]. rewrite Eb. cbn [bind]. rewrite Eu. cbn [bind].
      split; [reflexivity|]. split; [reflexivity|]. intros [|[|j]] g; cbn [nth_error]; intro Hg; try discriminate.
      inversion Hg; subst. rewrite Nat.add_0_r. exact Ca.
  - split; [exact (proj2 (IH k))|]. apply ONE, (proj1 (IH (S k))).
Qed.

Definition gen_numbers (gen : Z) (k : nat) : list Z := map (fun i => (gen + Z.of_nat i)%Z) (seq 0 k).
Lemma gen_numbers_S gen k : gen_numbers gen (S k) = gen :: gen_numbers (gen + 1) k.
Proof.
  unfold gen_numbers. cbn [seq map]. f_equal; [lia|]. rewrite <- seq_shift, map_map. apply map_ext. intro i. lia.
Qed.

Lemma generations_ok ds : 0 < size -> Forall (good_draws n size) ds -> forall gen genomes parents probe,
  length parents = size -> Forall (fun g => length g = n) genomes -> Forall (ok_ind genomes) parents ->
  exists css pops probe' h, generations function mx bnds hard std size gen ds genomes parents probe = Ok (genomes ++ concat css, probe', pops) /\
    length css = length ds /\ length pops = S (length ds) /\ nth_error pops 0 = Some parents /\
    bsf_run mx h probe = Ok (map bi_pop h, probe') /\ map bi_gen h = gen_numbers gen (length ds) /\
    concat (map bi_pop h) = evaluated function (length genomes) (concat css) /\ Forall (fun i => bi_pop i <> []) h /\
    Forall (fun cs => length cs = size) css /\
    forall k d cs P P', nth_error ds k = Some d -> nth_error css k = Some cs -> nth_error pops k = Some P -> nth_error pops (S k) = Some P' ->
      generation_ok function mx hard bnds (std_at std) size d (genomes ++ concat (firstn k css)) P cs P'.
Proof.
  intros Hp. induction ds as [|d ds IH]; intros F gen genomes parents probe L LG OK.
  { exists [], [parents], probe, []. cbn. rewrite app_nil_r. repeat (split; [reflexivity|]). split; [constructor|]. split; [constructor|].
    intros [|k]; discriminate. }
  apply Forall_cons_iff in F. destruct F as [Gd F'].
  destruct (offspring_ok d genomes parents Gd L LG OK size 0) as [(gs & Eo & Lg & HC) _].
  set (children := evaluated function (length genomes) gs).
  assert (Lc : length children = size) by (unfold children; rewrite evaluated_len; exact Lg).
  destruct (bsf_call mx (gd_pcoin d) gen children probe) as [[ch' probe1]|e] eqn:Ec.
  2:{ unfold bsf_call in Ec. destruct (pymax (ind_gt mx (gd_pcoin d)) children) eqn:Em; [discriminate|].
      destruct children; [cbn in Lc; lia|discriminate]. }
  assert (Ech : ch' = children).
  { unfold bsf_call in Ec. destruct (pymax (ind_gt mx (gd_pcoin d)) children); [inversion Ec; reflexivity|discriminate]. }
  subst ch'.
  set (surv := fst (elitist_survival (ind_lt mx (gd_ecoin d)) (ind_gt mx (gd_ecoin d)) ind_eq children parents 1)).
  assert (Ls : length surv = size) by (unfold surv; rewrite elitist_length; exact Lc).
  assert (Is : incl surv (children ++ parents)).
  { unfold surv. intros x Hx. cbn in Hx. apply topk_in in Hx. apply in_app_or in Hx. apply in_or_app. destruct Hx as [Hx|Hx]; [auto|right].
    apply (topk_in parents (ind_lt mx (gd_ecoin d)) (ind_gt mx (gd_ecoin d)) ind_eq true 1). exact Hx. }
  assert (OKs : Forall (ok_ind (genomes ++ gs)) surv).
  { rewrite Forall_forall. intros x Hx. apply Is, in_app_or in Hx. destruct Hx as [Hx|Hx].
    - pose proof (evaluated_ok function genomes gs []) as E. rewrite app_nil_r, Forall_forall in E. apply E, Hx.
    - apply ok_more. rewrite Forall_forall in OK. apply OK, Hx. }
  assert (LG' : Forall (fun g => length g = n) (genomes ++ gs)).
  { apply Forall_app. split; [exact LG|]. apply Forall_forall. intros g Hg. apply In_nth_error in Hg. destruct Hg as [j Hg].
    exact (proj1 (HC j g Hg)). }
  destruct (IH F' (gen + 1)%Z (genomes ++ gs) surv probe1 Ls LG' OKs) as (css & pops & probe' & h & E & L1 & L2 & N0 & R & GN & CC & NE & LS & ST).
  exists (gs :: css), (parents :: pops), probe', (mk_bin gen (gd_pcoin d) children :: h).
  split. { cbn [generations]. rewrite Eo. cbn [bind]. fold children. rewrite Ec. cbn [bind]. fold surv. rewrite E. cbn [bind concat]. rewrite app_assoc. reflexivity. }
  split; [cbn; lia|]. split; [cbn; lia|]. split; [reflexivity|].
  split. { cbn [bsf_run bi_coin bi_gen bi_pop]. rewrite Ec. cbn [bind]. rewrite R. reflexivity. }
  split. { cbn [map bi_gen length]. rewrite gen_numbers_S, GN. reflexivity. }
  split. { cbn [map bi_pop concat]. rewrite CC, evaluated_app, app_length. reflexivity. }
  split. { constructor; [|exact NE]. cbn. destruct children; [cbn in Lc; lia|discriminate]. }
  split. { constructor; [exact Lg|exact LS]. }
  intros [|k] d0 cs P P' Hd Hc HP HP'.
  - cbn in Hd, Hc, HP. inversion Hd; inversion Hc; inversion HP; subst d0 cs P. change (nth_error pops 0 = Some P') in HP'. rewrite N0 in HP'. inversion HP'; subst P'.
    cbn [firstn concat]. rewrite app_nil_r.
    split; [exact L|]. split; [exact Lg|]. split; [exact Ls|]. split; [exact OK|].
    split. { intros j g Hg. exact (HC j g Hg). }
    exists children. split; [apply evaluated_numbered|]. split; [exact Is|]. intros SH y Hy.
    destruct (elitist_keeps_best mx (gd_ecoin d) children parents 1 SH) as (_ & _ & K); [lia|destruct children; [cbn in Lc; lia|discriminate]|].
    exact (K y Hy).
  - cbn [firstn concat]. rewrite app_assoc. apply (ST k d0 cs P P'); assumption.
Qed.
End Solve.

Lemma moved_in b v c : (fst b <= snd b)%Q -> moved true b v c -> (fst b <= c /\ c <= snd b)%Q.
Proof.
  intros B (M1 & M2 & M3). destruct (Qlt_le_dec v (fst b)) as [H|H]; [rewrite (M1 H); lra|].
  destruct (Qlt_le_dec (snd b) v) as [K|K]; [rewrite (M2 K); lra|]. rewrite (M3 H K). lra.
Qed.

Lemma Forall2_nth {A B} (R : A -> B -> Prop) l : forall m, length l = length m ->
  (forall i a b, nth_error l i = Some a -> nth_error m i = Some b -> R a b) -> Forall2 R l m.
Proof.
  induction l as [|a l IH]; intros [|b m] L H; cbn in L; try discriminate; constructor.
  - apply (H 0); reflexivity.
  - apply IH; [lia|]. intros i x y Hx Hy. exact (H (S i) x y Hx Hy).
Qed.
Lemma initial_ok bounds us : Forall (fun b => fst b <= snd b)%Q bounds ->
  Forall (fun u => length u = length bounds /\ Forall (fun x => 0 <= x /\ x < 1)%Q u) us ->
  Forall (in_box bounds) (map (create_real_vector bounds) us).
Proof.
  intros HB HU. apply Forall_forall. intros g Hg. apply in_map_iff in Hg. destruct Hg as (u & <- & Iu).
  rewrite Forall_forall in HU. destruct (HU u Iu) as [L F]. pose proof (real_vector_spec bounds u L F) as V.
  unfold in_box. clear - HB V. induction V as [|b x bs xs [V1 V2] _ IH]; [constructor|]. inversion HB; subst. constructor; [|auto].
  destruct (Qlt_le_dec (fst b) (snd b)) as [H|H]; [destruct (V1 H); lra|]. assert (E : (fst b == snd b)%Q) by lra. rewrite (V2 E). lra.
Qed.
Lemma box_len bounds g : in_box bounds g -> length g = length bounds.
Proof. unfold in_box. intro H. symmetry. exact (F2_len _ _ _ H). Qed.
Lemma concat_len {A} (css : list (list A)) k : Forall (fun cs => length cs = k) css -> length (concat css) = length css * k.
Proof. induction 1 as [|c css L _ IH]; cbn; [reflexivity|]. rewrite app_length, L, IH. reflexivity. Qed.
Lemma scored_fun f g v w : scored f g v -> scored f g w -> v = w.
Proof. intros [A|[[e A] ->]] [B|[[e' B] ->]]; congruence. Qed.

Lemma ea_solve_ok f mx bounds hard std pop us ds : good_call bounds std pop us ds -> 0 < pop -> ds <> [] ->
  exists r css, ea_solve f mx bounds hard std pop us ds = Ok r /\
    sv_genomes r = map (create_real_vector bounds) us ++ concat css /\ length css = length ds /\ length (sv_pops r) = S (length ds) /\
    nth_error (sv_pops r) 0 = Some (evaluated f 0 (map (create_real_vector bounds) us)) /\
    Forall (fun cs => length cs = pop) css /\
    (forall k d cs P P', nth_error ds k = Some d -> nth_error css k = Some cs -> nth_error (sv_pops r) k = Some P -> nth_error (sv_pops r) (S k) = Some P' ->
      generation_ok f mx hard bounds (std_at std) pop d (map (create_real_vector bounds) us ++ concat (firstn k css)) P cs P') /\
    In (sv_best r) (concat css) /\
    (forall g v w, In g (concat css) -> scored f g v -> scored f (sv_best r) w -> better mx v w -> within_rel (2 * tol) v w) /\
    map fst (sv_rows r) = map Z.of_nat (seq 0 (length ds)) /\
    StronglySorted (fun r1 r2 : Z * num => ~ better mx (snd r1) (snd r2)) (sv_rows r) /\
    scored f (sv_best r) (last (map snd (sv_rows r)) NNan).
Proof.
  intros [HB HS HU1 HU HD] Hp Hne. set (initial := map (create_real_vector bounds) us).
  pose proof (initial_ok bounds us HB HU) as IB. fold initial in IB.
  assert (Li : length initial = pop) by (unfold initial; rewrite map_length; exact HU1).
  destruct (generations_ok f mx bounds hard std pop HB HS ds Hp HD 0%Z initial (evaluated f 0 initial) bsf_init) as
    (css & pops & probe & h & E & L1 & L2 & N0 & R & GN & CC & NE & LS & ST).
  { rewrite evaluated_len. exact Li. }
  { revert IB. apply Forall_impl. intro g. apply box_len. }
  { apply evaluated_ok0. }
  destruct (bsf_probe_ok mx h NE) as (st & R' & RG & SO & BB). rewrite R in R'. inversion R'; subst st.
  assert (Hh : h <> []). { intros ->. cbn in GN. destruct ds; [congruence|]. cbn in GN. discriminate. }
  destruct (BB Hh) as (b & Eb & Lb & Ib & Bb). clear BB. rewrite CC in Ib, Bb.
  destruct (evaluated_in f _ _ _ Ib) as (j & g & Hg & Hbe).
  assert (NG : nth_error (initial ++ concat css) (si_id b) = Some g).
  { rewrite Hbe. cbn [si_id]. rewrite nth_error_app2 by lia. replace (length initial + j - length initial) with j by lia. exact Hg. }
  assert (SC : scored f g (si_fit b)) by (rewrite Hbe; apply robust_scored).
  exists (mk_solved g (initial ++ concat css) (bsf_rows probe) pops), css. cbn [sv_best sv_genomes sv_rows sv_pops].
  split. { unfold ea_solve. fold initial. rewrite E. cbn [bind]. rewrite Eb, NG. reflexivity. }
  split; [reflexivity|]. split; [exact L1|]. split; [exact L2|]. split; [exact N0|]. split; [exact LS|]. split; [exact ST|].
  split; [eapply nth_error_In, Hg|].
  split. { intros g' v w Ig Sv Sw Hbet. apply In_nth_error in Ig. destruct Ig as [j' Ig].
    rewrite (scored_fun _ _ _ _ Sw SC) in *. apply (evaluated_nth f (concat css) (length initial)) in Ig.
    pose proof (Bb _ (nth_error_In _ _ Ig)) as K. cbn [si_fit] in K. rewrite (scored_fun _ _ _ _ Sv (robust_scored f g')) in *. exact (K Hbet). }
  split. { rewrite RG, GN. unfold gen_numbers. apply map_ext. intro i. lia. }
  split; [exact SO|]. rewrite Lb. exact SC.
Qed.

Lemma skipn_app_len {A} (a b : list A) n : length a = n -> skipn n (a ++ b) = b.
Proof. intros <-. rewrite skipn_app, skipn_all, Nat.sub_diag. reflexivity. Qed.
Lemma firstn_app_len {A} (a b : list A) n : length a = n -> firstn n (a ++ b) = a.
Proof. intros <-. rewrite firstn_app, firstn_all, Nat.sub_diag. cbn. apply app_nil_r. Qed.

Lemma solve_result f mx bounds hard std pop us ds : good_call bounds std pop us ds -> 0 < pop -> ds <> [] ->
  exists r, ea_solve f mx bounds hard std pop us ds = Ok r /\
    length (sv_genomes r) = pop * S (length ds) /\ In (sv_best r) (skipn pop (sv_genomes r)) /\
    (forall g v w, In g (skipn pop (sv_genomes r)) -> scored f g v -> scored f (sv_best r) w -> better mx v w -> within_rel (2 * tol) v w) /\
    map fst (sv_rows r) = map Z.of_nat (seq 0 (length ds)) /\
    StronglySorted (fun r1 r2 : Z * num => ~ better mx (snd r1) (snd r2)) (sv_rows r) /\
    scored f (sv_best r) (last (map snd (sv_rows r)) NNan).
Proof.
  intros G Hp Hne. destruct (ea_solve_ok f mx bounds hard std pop us ds G Hp Hne) as (r & css & E & EG & L1 & _ & _ & LS & _ & IB & BB & R1 & R2 & R3).
  assert (Li : length (map (create_real_vector bounds) us) = pop) by (rewrite map_length; apply G).
  exists r. split; [exact E|]. rewrite EG. rewrite (skipn_app_len _ _ _ Li).
  split. { rewrite app_length, Li, (concat_len _ _ LS), L1. lia. }
  tauto.
Qed.

Lemma solve_box f mx bounds hard std pop us ds r : good_call bounds std pop us ds -> 0 < pop -> ds <> [] ->
  ea_solve f mx bounds hard std pop us ds = Ok r ->
  Forall (in_box bounds) (firstn pop (sv_genomes r)) /\ (hard = true -> Forall (in_box bounds) (sv_genomes r)) /\
  Forall (fun g => length g = length bounds) (sv_genomes r).
Proof.
  intros G Hp Hne E0. destruct (ea_solve_ok f mx bounds hard std pop us ds G Hp Hne) as (r' & css & E & EG & L1 & L2 & _ & LS & ST & _).
  rewrite E0 in E. inversion E; subst r'. clear E.
  assert (Li : length (map (create_real_vector bounds) us) = pop) by (rewrite map_length; apply G).
  assert (IB : Forall (in_box bounds) (map (create_real_vector bounds) us)) by (apply initial_ok; apply G).
  rewrite EG, (firstn_app_len _ _ _ Li). split; [exact IB|].
  assert (CH : forall g, In g (concat css) -> length g = length bounds /\ (hard = true -> in_box bounds g)).
  { intros g Hg. apply in_concat in Hg. destruct Hg as (cs & Hc & Hg). apply In_nth_error in Hc. destruct Hc as [k Hc].
    assert (Hk : k < length css) by (apply nth_error_Some; congruence).
    destruct (nth_error ds k) as [d|] eqn:Ed; [|apply nth_error_None in Ed; lia].
    destruct (nth_error (sv_pops r) k) as [P|] eqn:EP; [|apply nth_error_None in EP; lia].
    destruct (nth_error (sv_pops r) (S k)) as [P'|] eqn:EP'; [|apply nth_error_None in EP'; lia].
    destruct (ST k d cs P P' Ed Hc EP EP') as (_ & _ & _ & _ & H & _).
    apply In_nth_error in Hg. destruct Hg as [j Hg]. destruct (H j g Hg) as [Lg HI]. split; [exact Lg|]. intros ->.
    unfold in_box. apply Forall2_nth; [congruence|]. intros i b c Hb Hc'. destruct (HI i c Hc') as (p & pg & b' & x & z & s & _ & _ & Eb & _ & _ & _ & M).
    rewrite Hb in Eb. inversion Eb; subst b'. apply (moved_in b (x + z * s)%Q); [|exact M].
    pose proof (gc_bounds _ _ _ _ _ G) as HB. rewrite Forall_forall in HB. apply HB. eapply nth_error_In, Hb. }
  split.
  - intro Hh. apply Forall_app. split; [exact IB|]. apply Forall_forall. intros g Hg. apply (CH g Hg), Hh.
  - apply Forall_app. split; [revert IB; apply Forall_impl; intro; apply box_len|]. apply Forall_forall. intros g Hg. apply (CH g Hg).
Qed.

Lemma solve_generations f mx bounds hard std pop us ds r : good_call bounds std pop us ds -> 0 < pop -> ds <> [] ->
  ea_solve f mx bounds hard std pop us ds = Ok r ->
  exists initial css pop0, sv_genomes r = initial ++ concat css /\ length initial = pop /\ length css = length ds /\
    length (sv_pops r) = S (length ds) /\ nth_error (sv_pops r) 0 = Some pop0 /\ numbered f 0 initial pop0 /\
    forall k d cs P P', nth_error ds k = Some d -> nth_error css k = Some cs -> nth_error (sv_pops r) k = Some P -> nth_error (sv_pops r) (S k) = Some P' ->
      generation_ok f mx hard bounds (std_at std) pop d (initial ++ concat (firstn k css)) P cs P'.
Proof.
  intros G Hp Hne E0. destruct (ea_solve_ok f mx bounds hard std pop us ds G Hp Hne) as (r' & css & E & EG & L1 & L2 & N0 & LS & ST & _).
  rewrite E0 in E. inversion E; subst r'. clear E.
  exists (map (create_real_vector bounds) us), css. eexists.
  split; [exact EG|]. split; [rewrite map_length; apply G|]. split; [exact L1|]. split; [exact L2|]. split; [exact N0|].
  split; [apply evaluated_numbered|exact ST].
Qed.

Lemma solve_zero f mx bounds hard std pop us : ea_solve f mx bounds hard std pop us [] = Err AttributeError.
Proof. reflexivity. Qed.
Lemma solve_empty f mx bounds hard std us d ds : ea_solve f mx bounds hard std 0 us (d :: ds) = Err ValueError.
Proof. reflexivity. Qed.
