From Verif Require Import Model.Base Model.Algorithm Model.Variation Spec.Variation Spec.HeapRuns Spec.Odds Spec.Chances Spec.Search Spec.HeapEa Spec.WalkOdds
  Proofs.Odds Proofs.Chances Proofs.Search.
From Coq Require Import Permutation Lia.
Local Open Scope nat_scope.
Local Open Scope list_scope.

Lemma perm_filter {A} (b : A -> bool) l l' : Permutation l l' -> length (filter b l) = length (filter b l').
Proof. intros P. induction P; cbn [filter]; repeat match goal with |- context [if b ?x then _ else _] => destruct (b x) end; cbn [length]; congruence. Qed.
Lemma lists_perm {X} (alphabet : list X) T l : NoDup alphabet -> all_lists alphabet T l -> Permutation l (tuples alphabet T).
Proof. intros N [H1 H2]. apply NoDup_Permutation; [exact H1|apply tuples_nodup, N|]. intros t. rewrite H2, tuples_in. reflexivity. Qed.
Lemma flat_count {A B} (q : A -> list B) (b : B -> bool) u : length (filter b (flat_map q u)) = fold_right (fun x s => length (filter b (q x)) + s) 0 u.
Proof. induction u as [|x u IH]; cbn [flat_map fold_right]; [reflexivity|]. rewrite filter_app, app_length, IH. reflexivity. Qed.
Lemma cons_count {A} (b : list A -> bool) x l : length (filter b (map (cons x) l)) = length (filter (fun t => b (x :: t)) l).
Proof. induction l as [|t l IH]; cbn [map filter]; [reflexivity|]. destruct (b (x :: t)); cbn [length]; congruence. Qed.
Lemma sum_bounds {A} (f : A -> nat) (q : A -> bool) lo hi u : (forall x, In x u -> if q x then f x = 0 else lo <= f x <= hi) ->
  length (filter (fun x => negb (q x)) u) * lo <= fold_right (fun x s => f x + s) 0 u <= length (filter (fun x => negb (q x)) u) * hi.
Proof.
  induction u as [|x u IH]; intros H; cbn [filter fold_right length]; [lia|]. assert (IH' := IH (fun y Hy => H y (or_intror Hy))).
  assert (Hx := H x (or_introl eq_refl)). destruct (q x); cbn [negb length]; lia.
Qed.
Lemma count_complement {A} (q : A -> bool) u : length (filter (fun x => negb (q x)) u) = length u - length (filter q u).
Proof. assert (H := filter_split q u). lia. Qed.
Lemma counts_bool {A} (P : A -> Prop) (q : A -> bool) l c : counts P l c -> (forall a, In a l -> q a = true <-> P a) -> length (filter q l) = c.
Proof.
  intros (b & Hb & <-) Hq. f_equal. apply filter_ext_in. intros a Ia. specialize (Hb a Ia). specialize (Hq a Ia).
  destruct (q a), (b a); try reflexivity; intuition congruence.
Qed.

Section Walk.
Context {G X : Type}.
Variable D : list G -> Prop.
Variable mutator : X -> list G -> result (list G * option (list G)).
Variable x0 : X.
Variable solution : list G -> bool.
Variable alphabet : list X.
Variables s1 s2 : nat.
Hypothesis Hn : NoDup alphabet.
Hypothesis H0 : In x0 alphabet.
Hypothesis Hc : forall x g, In x alphabet -> D g -> exists r, mutator x g = Ok r /\ D (outcome_of r).
Hypothesis Hs : forall g, D g -> solution g = false ->
  exists c, counts (fun x => exists r, mutator x g = Ok r /\ solution (outcome_of r) = true) alphabet c /\ s1 <= c <= s2.

Definition next (x : X) (g : list G) : list G := match mutator x g with Ok r => outcome_of r | Err _ => g end.
Fixpoint path (t : list X) (g : list G) : list (list G) := match t with [] => [] | x :: t => next x g :: path t (next x g) end.
Fixpoint missing (t : list X) (g : list G) : bool := match t with [] => true | x :: t => negb (solution (next x g)) && missing t (next x g) end.

Lemma missing_path t : forall g, missing t g = true <-> forall y, In y (path t g) -> solution y = false.
Proof.
  induction t as [|x t IH]; intros g; cbn [missing path]; [split; [intros _ y []|reflexivity]|].
  rewrite Bool.andb_true_iff, Bool.negb_true_iff, IH. split.
  - intros [A B] y [<-|Hy]; [exact A|apply B, Hy].
  - intros H. split; [apply H; left; reflexivity|intros y Hy; apply H; right; exact Hy].
Qed.
Lemma next_D x g : In x alphabet -> D g -> D (next x g) /\ mutator x g <> Err IndexError /\ exists r, mutator x g = Ok r /\ outcome_of r = next x g.
Proof. intros Ix Dg. destruct (Hc x g Ix Dg) as (r & E & Dr). unfold next. rewrite E. split; [exact Dr|]. split; [discriminate|eauto]. Qed.

Lemma loop_path : forall suffix prefix g traj caller, Forall (fun x => In x alphabet) suffix -> D g ->
  exists c, rs_loop (1 + Z.of_nat (length prefix + length suffix))%Z (walk_pipeline mutator x0 (prefix ++ suffix)) (length suffix) (length prefix)
     (1 + Z.of_nat (length prefix))%Z (mk_rs caller (Some (1 + Z.of_nat (length prefix))%Z)) g traj = Some (Ok (traj ++ path suffix g), c).
Proof.
  induction suffix as [|x suffix IH]; intros prefix g traj caller F Dg; cbn [rs_loop length path].
  - rewrite Nat.add_0_r, Z.ltb_irrefl, app_nil_r. eexists. reflexivity.
  - destruct (Z.ltb_spec (1 + Z.of_nat (length prefix)) (1 + Z.of_nat (length prefix + S (length suffix)))) as [_|K]; [|lia].
    unfold walk_pipeline at 1. rewrite app_nth2, Nat.sub_diag by lia. cbn [nth].
    destruct (next_D x g (Forall_inv F) Dg) as (Dn & _ & r & E & Er). rewrite E. cbn [bind]. rewrite Er. cbn [rs_caller].
    destruct (IH (prefix ++ [x]) (next x g) (traj ++ [next x g]) caller (Forall_inv_tail F) Dn) as (c & Ec).
    rewrite app_length, <- !app_assoc in Ec. cbn [app length] in Ec. exists c.
    replace (length prefix + S (length suffix)) with (length prefix + 1 + length suffix) by lia.
    replace (S (length prefix)) with (length prefix + 1) by lia.
    replace (1 + Z.of_nat (length prefix) + 1)%Z with (1 + Z.of_nat (length prefix + 1))%Z by lia. exact Ec.
Qed.
Lemma run_path t g caller global : Forall (fun x => In x alphabet) t -> D g ->
  exists c, random_search (1 + Z.of_nat (length t)) (walk_pipeline mutator x0 t) caller global g = Some (Ok (g :: path t g), c).
Proof.
  intros F Dg. destruct (loop_path t [] g [g] caller F Dg) as (c & E). exists c. unfold random_search.
  replace (Z.to_nat (1 + Z.of_nat (length t) - 1)) with (length t) by lia. exact E.
Qed.
Lemma missing_count T : forall g, D g -> solution g = false ->
  (length alphabet - s2) ^ T <= length (filter (fun t => missing t g) (tuples alphabet T)) <= (length alphabet - s1) ^ T.
Proof.
  induction T as [|T IH]; intros g Dg Sg; [cbn; lia|]. cbn [tuples].
  destruct (Hs g Dg Sg) as (c & Cc & C1 & C2).
  assert (Ec : length (filter (fun x => solution (next x g)) alphabet) = c).
  { apply (counts_bool _ _ _ _ Cc). intros x Ix. destruct (next_D x g Ix Dg) as (_ & _ & r & E & Er). rewrite E. split.
    - intros H. exists r. rewrite Er. auto.
    - intros (r' & E' & H). injection E' as <-. rewrite <- Er. exact H. }
  assert (SB := sum_bounds (fun x => length (filter (fun t => missing (x :: t) g) (tuples alphabet T))) (fun x => solution (next x g))
     ((length alphabet - s2) ^ T) ((length alphabet - s1) ^ T) alphabet).
  assert (Eq : length (filter (fun t => missing t g) (flat_map (fun x => map (cons x) (tuples alphabet T)) alphabet)) =
               fold_right (fun x s => length (filter (fun t => missing (x :: t) g) (tuples alphabet T)) + s) 0 alphabet).
  { rewrite flat_count. generalize (tuples alphabet T). intros tt. clear. induction alphabet as [|x u IHu]; cbn [fold_right]; [reflexivity|]. rewrite cons_count, IHu. reflexivity. }
  match goal with |- _ <= length (filter _ ?l) <= _ => change l with (flat_map (fun x => map (cons x) (tuples alphabet T)) alphabet) end.
  rewrite Eq. rewrite count_complement, Ec in SB. cbn [Nat.pow].
  destruct SB as [B1 B2].
  - intros x Ix. cbn [missing]. destruct (solution (next x g)) eqn:Sx; cbn [negb andb].
    + clear. induction (tuples alphabet T); cbn; auto.
    + apply IH; [apply (next_D x g Ix Dg)|exact Sx].
  - split; [eapply Nat.le_trans; [|exact B1]|eapply Nat.le_trans; [exact B2|]]; apply Nat.mul_le_mono_r; lia.
Qed.
Lemma walk_bounds T l g caller global : D g -> solution g = false -> all_lists alphabet T l ->
  exists c, counts (fun t => ~ visits solution (random_search (1 + Z.of_nat T) (walk_pipeline mutator x0 t) caller global g)) l c /\
    (length alphabet - s2) ^ T <= c <= (length alphabet - s1) ^ T /\ length l = length alphabet ^ T.
Proof.
  intros Dg Sg Hl. assert (P := lists_perm alphabet T l Hn Hl). exists (length (filter (fun t => missing t g) l)). split; [|split].
  - exists (fun t => missing t g). split; [|reflexivity]. intros t It. apply Hl in It. destruct It as [Lt Ft]. subst T.
    destruct (run_path t g caller global Ft Dg) as (c & E). rewrite E, missing_path. split.
    + intros H (traj & c' & E' & y & Iy & Sy). injection E' as <- <-. destruct Iy as [<-|Iy]; [congruence|]. rewrite (H y Iy) in Sy. discriminate.
    + intros H y Iy. destruct (solution y) eqn:Sy; [|reflexivity]. exfalso. apply H. exists (g :: path t g), c. split; [reflexivity|]. exists y. split; [right; exact Iy|exact Sy].
  - rewrite (perm_filter _ _ _ P). apply missing_count; assumption.
  - rewrite (Permutation_length P). apply tuples_length.
Qed.
Lemma walk_eventually B : 1 <= s1 -> exists T0, forall T l g caller global, T0 <= T -> D g -> solution g = false -> all_lists alphabet T l ->
  exists c, counts (fun t => ~ visits solution (random_search (1 + Z.of_nat T) (walk_pipeline mutator x0 t) caller global g)) l c /\ B * c <= length l.
Proof.
  intros S1. exists (1 + B * length alphabet). intros T l g caller global HT Dg Sg Hl.
  destruct (walk_bounds T l g caller global Dg Sg Hl) as (c & Cc & [_ C2] & L). exists c. split; [exact Cc|]. rewrite L.
  destruct (Hs g Dg Sg) as (k & (b & _ & <-) & K1 & _). assert (F := filter_split b alphabet).
  eapply Nat.le_trans; [apply Nat.mul_le_mono_l, C2|]. apply few_left; lia.
Qed.
End Walk.

(** ** bit strings *)
Lemma counts_none {A} (l : list A) : counts (fun _ => False) l 0.
Proof. exists (fun _ => false). split; [intros; split; [discriminate|tauto]|]. induction l; cbn; auto. Qed.
Lemma counts_or {A} (P Q : A -> Prop) l c d : counts P l c -> counts Q l d -> (forall a, In a l -> P a -> Q a -> False) -> counts (fun a => P a \/ Q a) l (c + d).
Proof.
  intros (b & Hb & <-) (b' & Hb' & <-) X. exists (fun a => b a || b' a)%bool. split.
  - intros a Ia. rewrite Bool.orb_true_iff, (Hb a Ia), (Hb' a Ia). reflexivity.
  - induction l as [|a l IH]; cbn [filter]; [reflexivity|].
    assert (Pa := Hb a (or_introl eq_refl)). assert (Qa := Hb' a (or_introl eq_refl)). assert (Xa := X a (or_introl eq_refl)).
    assert (IH' := IH (fun y Hy => Hb y (or_intror Hy)) (fun y Hy => Hb' y (or_intror Hy)) (fun y Hy => X y (or_intror Hy))).
    destruct (b a), (b' a); cbn [orb length]; try lia. exfalso. apply Xa; [apply Pa|apply Qa]; reflexivity.
Qed.
Lemma one_of_spec hs g : one_of hs g = true <-> In g hs.
Proof. unfold one_of. destruct (in_dec _ g hs); split; auto; discriminate. Qed.
Lemma dle g h : differences g h <= length g.
Proof.
  unfold differences. revert h. induction g as [|x g IH]; intros [|y h]; cbn [combine filter length]; try lia.
  specialize (IH h). destruct (negb _); cbn [length]; lia.
Qed.
Section Bits.
Variables n c : nat.
Variables expected probability : option Q.
Variable p : Q.
Hypothesis Hr : rate_is expected probability n p.
Hypothesis P0 : (0 <= p)%Q.
Hypothesis P1 : (p <= 1)%Q.
Hypothesis Hb : counts (fun k => inject_Z (Z.of_nat k) / inject_Z (Z.of_nat (2 * c)) < p)%Q (seq 0 (2 * c)) c.
Variable alphabet : list (list nat).
Hypothesis Ha : all_draws (2 * c) n alphabet.

Lemma half_hits g hs : bit_string n g -> NoDup hs -> Forall (bit_string n) hs ->
  counts (fun d => exists r, grid_flip expected probability (2 * c) d g = Ok r /\ one_of hs (outcome_of r) = true) alphabet (length hs * c ^ n).
Proof.
  intros [Lg Hg] N F. induction hs as [|h hs IH].
  - eapply counts_equiv; [|apply counts_none]. intros d _. split; [tauto|]. intros (r & _ & H). apply one_of_spec in H. destruct H.
  - inversion N as [|h' hs' Nh Nhs]; subst. destruct (Forall_inv F) as [Lh Hh].
    assert (C1 : counts (fun d => exists r, grid_flip expected probability (2 * c) d g = Ok r /\ outcome_of r = h) alphabet (c ^ length g)).
    { assert (M := mutant_odds expected probability p (2 * c) c g h alphabet Hr P0 P1 Hg Hh ltac:(congruence) Ha Hb).
      assert (Ed : c ^ differences g h * (2 * c - c) ^ (length g - differences g h) = c ^ length g).
      { replace (2 * c - c) with c by lia. rewrite <- Nat.pow_add_r. f_equal. pose proof (dle g h). lia. }
      rewrite Ed in M. eapply counts_equiv; [|exact M].
      intros d _. unfold grid_flip. destruct (genome_mutate_bitflip expected probability (grid (2 * c) d) g) as [g'|e]; cbn [bind].
      + split; [intros E; injection E as ->; eexists; split; reflexivity|]. intros (r & E & <-). injection E as <-. reflexivity.
      + split; [discriminate|]. intros (r & E & _). discriminate. }
    assert (C2 := IH Nhs (Forall_inv_tail F)). cbn [length Nat.mul].
    eapply counts_equiv; [|apply (counts_or _ _ _ _ _ C1 C2)].
    + intros d _. split.
      * intros [(r & E & H)|(r & E & H)]; exists r; (split; [exact E|]); apply one_of_spec; [left; auto|right; apply one_of_spec, H].
      * intros (r & E & H). apply one_of_spec in H. destruct H as [H|H]; [left|right]; exists r; (split; [exact E|]); [auto|apply one_of_spec, H].
    + intros d _ (r & E & H) (r' & E' & H'). rewrite E in E'. injection E' as <-. rewrite H in H'. apply one_of_spec in H'. contradiction.
Qed.
Lemma bit_walk hs T l x0 g caller global : In x0 alphabet -> NoDup hs -> Forall (bit_string n) hs -> bit_string n g -> ~ In g hs -> all_lists alphabet T l ->
  counts (fun t => ~ visits (one_of hs) (random_search (1 + Z.of_nat T) (walk_pipeline (grid_flip expected probability (2 * c)) x0 t) caller global g))
    l (((2 * c) ^ n - length hs * c ^ n) ^ T) /\ length l = ((2 * c) ^ n) ^ T.
Proof.
  intros I0 N F Bg Ng Hl.
  assert (Sg : one_of hs g = false) by (destruct (one_of hs g) eqn:E; [apply one_of_spec in E; contradiction|reflexivity]).
  destruct (walk_bounds (bit_string n) (grid_flip expected probability (2 * c)) x0 (one_of hs) alphabet (length hs * c ^ n) (length hs * c ^ n)
     (draws_nodup _ _ _ Ha) (fun d g' => flip_closed n (2 * c) expected probability p Hr P0 P1 alphabet Ha d g')
     (fun g' Bg' _ => ex_intro _ _ (conj (half_hits g' hs Bg' N F) (conj (le_n _) (le_n _)))) T l g caller global Bg Sg Hl) as (k & Ck & [B1 B2] & L).
  rewrite (draws_total _ _ _ Ha) in *. split; [|exact L]. replace (((2 * c) ^ n - length hs * c ^ n) ^ T) with k by lia. exact Ck.
Qed.
End Bits.
Lemma walk_hypotheses : counts (fun k => inject_Z (Z.of_nat k) / inject_Z (Z.of_nat (2 * 1)) < 1 # 2)%Q (seq 0 (2 * 1)) 1 /\
  rate_is None (Some (1 # 2)%Q) 2 (1 # 2)%Q /\ all_draws (2 * 1) 2 ex_coins /\ bit_string 2 [0; 0]%Z /\ ~ In [0; 0]%Z [[1; 1]%Z].
Proof.
  split.
  - exists (fun k => k =? 0). split; [|reflexivity]. intros k H. cbn in H. destruct H as [<-|[<-|[]]]; cbn; split; try discriminate; reflexivity || auto.
  - split; [left; split; reflexivity|]. split.
    + split.
      * repeat constructor; cbn; intuition discriminate.
      * intros d. split.
        -- cbn. intros H. repeat destruct H as [<-|H]; try (split; [reflexivity|repeat constructor]). destruct H.
        -- intros [L F]. destruct d as [|a [|b [|]]]; try discriminate L. assert (A := Forall_inv F). assert (B := Forall_inv (Forall_inv_tail F)).
           cbn beta in A, B. destruct a as [|[|a]]; [| |exfalso; clear -A; lia]; (destruct b as [|[|b]]; [| |exfalso; clear -B; lia]); cbn; tauto.
    + split; [split; [reflexivity|repeat constructor; left; reflexivity]|]. cbn. intros [H|[]]. discriminate.
Qed.
