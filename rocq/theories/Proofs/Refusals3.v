(** Proofs about refused arguments, continued. *)
From Coq Require Import Lia.
From Verif Require Import Model.Base Model.PyList Model.Selection Model.RealProblems Model.Pipeline Model.CoopRun Model.SegRun Model.Rules
  Spec.Rules Spec.Refusals Spec.Refusals3 Proofs.Order Proofs.PyList.
Local Open Scope nat_scope.
Local Open Scope list_scope.

(** ** selection *)
Lemma tournament_fails : forall A (lt gt : A -> A -> bool) population worst choices indices e,
  Forall (fun i => i < length population) choices \/ population = [] ->
  tournament_turn lt gt population worst choices indices = Err e <->
  population = [] /\ e = IndexError \/ population <> [] /\ choices = [] /\ e = ValueError.
Proof.
  intros A lt gt [|d pop] worst choices ix e H; cbn [tournament_turn].
  - split; [intros [= <-]; left; split; reflexivity|]. intros [[_ ->]|[N _]]; [reflexivity|]. destruct (N eq_refl).
  - destruct H as [H|H]; [|discriminate]. destruct choices as [|c cs].
    + split; [intros [= <-]; right; split; [discriminate|split; reflexivity]|]. intros [[N _]|[_ [_ ->]]]; [discriminate|reflexivity].
    + set (b := if worst then _ else _).
      assert (Hb : In b (c :: cs)) by (unfold b; destruct worst; [apply pymin_from_in|apply pymax_from_in]).
      assert (L : b < length (d :: pop)) by (exact (proj1 (Forall_forall _ _) H b Hb)).
      apply nth_error_Some in L. destruct (nth_error (d :: pop) b); [|destruct (L eq_refl)].
      split; [discriminate|]. intros [[N _]|[_ [N _]]]; discriminate.
Qed.

Lemma random_fails : forall A (population : list A) i indices e,
  i < length population \/ population = [] ->
  random_turn population i indices = Err e <-> population = [] /\ e = IndexError.
Proof.
  intros A pop i ix e H. unfold random_turn. destruct (nth_error pop i) eqn:E.
  - split; [discriminate|]. intros [-> _]. destruct i; discriminate.
  - apply nth_error_None in E. destruct H as [H| ->]; [lia|]. split; [intros [= <-]; auto|]. intros [_ ->]. reflexivity.
Qed.

Lemma insertion_fails : forall A (gt : A -> A -> bool) offspring parents draws e,
  insertion_selection gt offspring parents draws = Err e <-> (offspring = [] \/ parents = []) /\ e = ValueError.
Proof.
  intros A gt [|c o] [|p ps] draws e; cbn; (split; [try discriminate; intros [= <-]; auto|]); try (intros [_ ->]; reflexivity).
  intros [[?|?] _]; discriminate.
Qed.

(** ** sources without individuals *)
Section Sources.
Context {G P F : Type}.
Variable nan : F.
Variable decoder_of : nat -> option (list G -> result P).
Variable problem_of : nat -> Heap.phen_value G P -> result F.
Variable w : Heap.world G P F.

Lemma nobody_pull : forall (ops : list (op G)) pick, Forall downstream ops ->
  pull nan decoder_of problem_of (ops ++ [OpSelect [] pick]) (start (ops ++ [OpSelect [] pick])) w = Err IndexError.
Proof.
  intros ops pick. induction ops as [|o ops IH]; intros D.
  - cbn. destruct (pick 0); reflexivity.
  - pose proof (Forall_inv D) as Do. specialize (IH (Forall_inv_tail D)).
    destruct o as [| | |f [|]| |]; try destruct Do; cbn [app start map pull s_second]; fold (start (ops ++ [OpSelect [] pick])); rewrite IH; reflexivity.
Qed.

Lemma ended_pull : forall (ops : list (op G)), Forall downstream ops ->
  pull nan decoder_of problem_of (ops ++ [OpIter []]) (start (ops ++ [OpIter []])) w =
  Err (if forallb lets_through ops then StopIteration else RuntimeError).
Proof.
  intros ops. induction ops as [|o ops IH]; intros D.
  - reflexivity.
  - pose proof (Forall_inv D) as Do. specialize (IH (Forall_inv_tail D)).
    destruct o as [| | |f [|]| |]; try destruct Do; cbn [app start map pull s_second]; fold (start (ops ++ [@OpIter G []])); rewrite IH;
      cbn [forallb lets_through andb]; destruct (forallb lets_through ops); reflexivity.
Qed.

Lemma nobody_pool : forall n (ops : list (op G)) pick, Forall downstream ops ->
  pool nan decoder_of problem_of (S n) (ops ++ [OpSelect [] pick]) (start (ops ++ [OpSelect [] pick])) w = Err IndexError /\
  pool nan decoder_of problem_of (S n) (ops ++ [OpIter []]) (start (ops ++ [OpIter []])) w =
    Err (if forallb lets_through ops then StopIteration else RuntimeError).
Proof.
  intros n ops pick D. cbn [pool]. rewrite (nobody_pull ops pick D), (ended_pull ops D). split; reflexivity.
Qed.
End Sources.

(** ** rule systems *)
Lemma score_fails : forall cs xs s, (length xs <= length cs -> exists v, match_score cs xs s = Ok v) /\
  (length cs < length xs -> match_score cs xs s = Err IndexError).
Proof.
  intros cs xs. revert cs. induction xs as [|x xs IH]; intros cs s; cbn [match_score length].
  - split; [intros _; exists s; destruct cs; reflexivity|lia].
  - destruct cs as [|c cs]; cbn [match_score length]; [split; [lia|reflexivity]|]. destruct (IH cs (lift2 Qplus s (lift2 Qmult (cond_diff c x) (cond_diff c x)))) as [A B].
    split; intros H; [apply A|apply B]; lia.
Qed.

Lemma loop_range : forall rules xs r ml best ml' best', match_loop rules xs r ml best = Ok (ml', best') ->
  (forall i, In i ml -> i < r) -> (forall i, In i ml' -> i < r + length rules) /\ (ml <> [] \/ rules <> [] -> ml' <> []).
Proof.
  induction rules as [|rl rules IH]; intros xs r ml best ml' best' E H; cbn [match_loop] in E.
  - injection E as <- <-. split; [intros i Hi; specialize (H i Hi); lia|]. intros [N|N]; [exact N|destruct (N eq_refl)].
  - destruct (match_score (conditions rl) xs (Some 0%Q)) as [s|] eqn:Es; [|discriminate E]. cbn [bind] in E.
    assert (T : exists ml1 b1, match_loop rules xs (S r) ml1 b1 = Ok (ml', best') /\ (forall i, In i ml1 -> i < S r) /\ ml1 <> []).
    { destruct ml as [|m0 ml0].
      - cbn [orb] in E. exists [r], s. split; [exact E|]. split; [intros i [<-|[]]; lia|discriminate].
      - cbn [orb] in E. destruct (gene_ltb s best).
        + exists [r], s. split; [exact E|]. split; [intros i [<-|[]]; lia|discriminate].
        + destruct (gene_eqb s best).
          * exists ((m0 :: ml0) ++ [r]), best. split; [exact E|]. split; [|discriminate].
            intros i Hi. apply in_app_or in Hi as [Hi|[<-|[]]]; [specialize (H i Hi)|]; lia.
          * exists (m0 :: ml0), best. split; [exact E|]. split; [|discriminate]. intros i Hi. specialize (H i Hi). lia. }
    destruct T as (ml1 & b1 & E1 & H1 & N1). destruct (IH xs (S r) ml1 b1 ml' best' E1 H1) as [A B].
    split; [intros i Hi; specialize (A i Hi); cbn [length]; lia|]. intros _. apply B. left. exact N1.
Qed.

Lemma loop_fails : forall rules xs r ml best,
  (Forall (fun rl => length xs <= length (conditions rl)) rules -> exists v, match_loop rules xs r ml best = Ok v) /\
  (Exists (fun rl => length (conditions rl) < length xs) rules -> match_loop rules xs r ml best = Err IndexError).
Proof.
  induction rules as [|rl rules IH]; intros xs r ml best; cbn [match_loop].
  - split; [intros _; eexists; reflexivity|intros H; inversion H].
  - destruct (score_fails (conditions rl) xs (Some 0%Q)) as [A B]. split.
    + intros H. destruct (A (Forall_inv H)) as [v ->]. cbn [bind]. pose proof (Forall_inv_tail H) as Ht.
      destruct (_ || _); [apply IH; exact Ht|]. destruct (gene_eqb v best); apply IH; exact Ht.
    + intros H. destruct (Nat.lt_ge_cases (length (conditions rl)) (length xs)) as [L|L]; [rewrite (B L); reflexivity|].
      apply Exists_cons in H as [H|H]; [lia|]. destruct (A L) as [v ->]. cbn [bind].
      destruct (_ || _); [apply IH; exact H|]. destruct (gene_eqb v best); apply IH; exact H.
Qed.

Lemma min_by_in : forall ps l best, In (min_by ps best l) (best :: l).
Proof.
  intros ps l. induction l as [|x l IH]; intros best; cbn [min_by]; [left; reflexivity|].
  destruct (IH (if nth x ps 0 <? nth best ps 0 then x else best)) as [E|Hi].
  - rewrite <- E. destruct (nth x ps 0 <? nth best ps 0); [right; left|left]; reflexivity.
  - right. right. exact Hi.
Qed.

Lemma made_executable : forall n rules m mem ex, make_executable n rules m mem = Ok ex ->
  rules <> [] /\ ex_outputs ex = n /\ ex_rules ex = rules /\ ex_memory ex = mem.
Proof.
  intros n [|r rules] m mem ex E; [discriminate|]. unfold make_executable in E.
  destruct (priorities_from 0 (length (r :: rules)) m); [|discriminate]. injection E as <-. repeat split. discriminate.
Qed.

Lemma rule_call : forall n rules m mem ex xs d, make_executable n rules m mem = Ok ex ->
  (~ Forall (reads_all (length xs) (length mem)) rules -> call ex xs d = Err IndexError) /\
  (Forall (reads_all (length xs) (length mem)) rules -> mem <> [] -> call ex xs d = Err ValueError) /\
  (Forall (reads_all (length xs) (length mem)) rules -> mem = [] ->
   exists rl, In rl rules /\
     (length (actions rl) <> n -> call ex xs d = Err AssertionError) /\
     (length (actions rl) = n -> n = 0 -> call ex xs d = Err IndexError) /\
     (length (actions rl) = n -> 0 < n -> exists out, call ex xs d = Ok out)).
Proof.
  intros n rules m mem ex xs d E. destruct (made_executable _ _ _ _ _ E) as (NE & Eo & Er & Em).
  unfold call, match_set. rewrite Er, Em.
  destruct (loop_fails rules (xs ++ mem) 0 [] (Some (-1)%Q)) as [A B].
  rewrite app_length in A, B.
  split.
  - intros H. rewrite B; [reflexivity|]. apply neg_Forall_Exists_neg in H.
    + eapply Exists_impl; [|exact H]. cbn. unfold reads_all. intros rl. lia.
    + intros rl. unfold reads_all. destruct (le_dec (length xs + length mem) (length (conditions rl))); [left|right]; assumption.
  - assert (W : Forall (reads_all (length xs) (length mem)) rules ->
              exists w rl, nth_error rules w = Some rl /\
               call ex xs d = bind (fire ex w) (fun a => to_output (ex_outputs ex) (map to_int a))).
    { intros H. destruct (A H) as [[ml best] Ev].
      destruct (loop_range _ _ _ _ _ _ _ Ev ltac:(intros i [])) as [R N]. specialize (N (or_intror NE)).
      unfold call, match_set. rewrite Er, Em, Ev. cbn [bind].
      set (ml2 := if gene_eqb best (Some 0%Q) then _ else ml).
      assert (R2 : (forall i, In i ml2 -> In i ml) /\ ml2 <> []).
      { unfold ml2. destruct (gene_eqb best (Some 0%Q)); [|split; [auto|exact N]]. destruct ml as [|x r]; [destruct (N eq_refl)|].
        split; [intros i Hi; apply filter_In in Hi; tauto|]. intros C.
        assert (I : In (min_by (ex_priorities ex) x r) (filter (fun i => nth i (ex_priorities ex) 0 <=?
                     nth (min_by (ex_priorities ex) x r) (ex_priorities ex) 0) (x :: r))).
        { apply filter_In. split; [apply min_by_in|]. apply Nat.leb_refl. }
        rewrite C in I. destruct I. }
      clearbody ml2. destruct R2 as [R2 N2].
      assert (L : d mod length ml2 < length ml2) by (apply Nat.mod_upper_bound; destruct ml2; [destruct (N2 eq_refl)|discriminate]).
      apply nth_error_Some in L. destruct (nth_error ml2 (d mod length ml2)) as [wn|] eqn:Ew; [|destruct (L eq_refl)].
      specialize (R wn (R2 _ (nth_error_In _ _ Ew))). cbn in R. apply nth_error_Some in R.
      destruct (nth_error rules wn) as [rl|] eqn:Erl; [|destruct (R eq_refl)]. exists wn, rl. split; [exact Erl|]. reflexivity. }
    split.
    + intros H Nm. destruct (W H) as (w & rl & Hw & Hc). unfold call, match_set in Hc. rewrite Er, Em in Hc.
      rewrite Hc. unfold fire. rewrite Er, Em, Hw. destruct mem; [destruct (Nm eq_refl)|reflexivity].
    + intros H Nm. destruct (W H) as (w & rl & Hw & Hc). unfold call, match_set in Hc. rewrite Er, Em in Hc.
      exists rl. split; [exact (nth_error_In _ _ Hw)|]. rewrite Hc. unfold fire. rewrite Er, Em, Hw, Nm, Eo. split; [|split].
      * intros D. apply Nat.eqb_neq in D. rewrite D. reflexivity.
      * intros D Z. rewrite <- D in Z. rewrite D, Nat.eqb_refl. cbn [bind]. unfold to_output. rewrite <- D, Z. cbn. destruct (actions rl); [reflexivity|discriminate Z].
      * intros D Z. rewrite D, Nat.eqb_refl. cbn [bind]. unfold to_output. destruct (1 <? n); [eauto|].
        destruct (actions rl); [cbn in D; lia|]. cbn. eauto.
Qed.

Lemma bounds_fail : forall dc k e, bounds dc k = Err e <->
  0 < dec_memory dc /\ e = ValueError \/ dec_memory dc = 0 /\ (exists b, dec_out dc = OBox b) /\ e = AttributeError.
Proof.
  intros dc k e. unfold bounds, action_bounds. destruct (dec_memory dc) as [|m]; cbn.
  - destruct (dec_out dc) as [n|b]; cbn.
    + split; [discriminate|]. intros [[H _]|[_ [[b H] _]]]; [lia|discriminate].
    + split; [intros [= <-]; right; eauto|]. intros [[H _]|[_ [_ ->]]]; [lia|reflexivity].
  - split; [intros [= <-]; left; split; [lia|reflexivity]|]. intros [[_ ->]|[H _]]; [reflexivity|discriminate].
Qed.

Lemma sample_length : forall low high : list (list gene), Forall2 (fun l h => length l = length h) low high ->
  length (concat (map (fun '(l, h) => l ++ h) (combine low high))) = 2 * length (concat low).
Proof.
  intros low high F. induction F as [|l h low high E F IH]; [reflexivity|]. cbn [combine map concat]. rewrite !app_length, IH, E. lia.
Qed.

Lemma rule_set_fails : forall dc samples e, Forall (fits_space (num_inputs dc)) samples ->
  create_rule_set dc samples = Err e <->
  samples <> [] /\ (0 < dec_memory dc \/ exists b, dec_out dc = OBox b) /\ e = ValueError.
Proof.
  intros dc samples e. destruct samples as [|[[low high] act] samples].
  - intros _. cbn. split; [discriminate|]. intros [N _]. destruct (N eq_refl).
  - intros F. destruct (dec_memory dc) as [|m] eqn:Em.
    + destruct (dec_out dc) as [n|b] eqn:Eo.
      * split; [|intros [_ [[H|[b H]] _]]; [lia|discriminate]]. intros E. exfalso.
        assert (OK : forall l, Forall (fits_space (num_inputs dc)) l -> exists v, create_rule_set dc l = Ok v).
        { clear E F. intros l F. induction l as [|[[lo hi] a] l IH]; [cbn; eauto|]. cbn [create_rule_set]. unfold create_rule. rewrite Em, Eo. cbn [Nat.ltb Nat.leb].
          pose proof (Forall_inv F) as [F1 F2]. destruct (IH (Forall_inv_tail F)) as [v Hv].
          assert (L : (length (concat (map (fun '(l0, h) => l0 ++ h) (combine lo hi)) ++ [a]) =? num_genes_per_rule dc) = true).
          { apply Nat.eqb_eq. rewrite app_length, (sample_length _ _ F1), F2. unfold num_genes_per_rule, num_outputs. rewrite Em, Eo. cbn [length]. lia. }
          rewrite L. cbn [bind]. rewrite Hv. cbn. eauto. }
        destruct (OK _ F) as [v Hv]. congruence.
      * cbn [create_rule_set]. unfold create_rule. rewrite Em, Eo. cbn. split; [intros [= <-]; split; [discriminate|split; [right; eauto|reflexivity]]|]. intros [_ [_ ->]]. reflexivity.
    + cbn [create_rule_set]. unfold create_rule. rewrite Em. cbn. split; [intros [= <-]; split; [discriminate|split; [left; lia|reflexivity]]|]. intros [_ [_ ->]]. reflexivity.
Qed.

(** ** quadratic families *)
Lemma map_result_fails : forall A B (f : A -> result B) (fine : A -> Prop) bad, (forall x, fine x -> exists y, f x = Ok y) ->
  (forall x e, f x = Err e <-> bad x e) -> (forall x y, f x = Ok y -> fine x) ->
  forall l e, map_result f l = Err e <-> first_trouble fine bad l e.
Proof.
  intros A B f fine bad H1 H2 H3 l. induction l as [|x l IH]; intros e; cbn [map_result].
  - split; [discriminate|]. intros (l1 & y & l2 & E & _). destruct l1; discriminate.
  - destruct (f x) as [y|e'] eqn:Ef; cbn [bind].
    + split.
      * intros E. destruct (map_result f l) as [ys|e2] eqn:Em; [discriminate|]. injection E as <-.
        destruct (proj1 (IH e2) eq_refl) as (l1 & z & l2 & -> & Fl & Hb). exists (x :: l1), z, l2. split; [reflexivity|]. split; [|exact Hb].
        constructor; [exact (H3 _ _ Ef)|exact Fl].
      * intros (l1 & z & l2 & E & Fl & Hb). destruct l1 as [|a l1]; injection E as -> ->.
        { apply H2 in Hb. congruence. }
        rewrite (proj2 (IH e)); [reflexivity|]. exists l1, z, l2. split; [reflexivity|]. split; [exact (Forall_inv_tail Fl)|exact Hb].
    + split.
      * intros [= <-]. exists [], x, l. split; [reflexivity|]. split; [constructor|]. apply H2. exact Ef.
      * intros (l1 & z & l2 & E & Fl & Hb). destruct l1 as [|a l1]; injection E as -> ->.
        { apply H2 in Hb. congruence. }
        destruct (H1 _ (Forall_inv Fl)) as [y Hy]. congruence.
Qed.

Lemma square_iff : forall m, square m = true <-> is_square m.
Proof.
  intros m. unfold square, is_square. rewrite forallb_forall. split; intros H r Hr; specialize (H r Hr); apply Nat.eqb_eq; assumption.
Qed.

Lemma diagonal_iff : forall m, close_to_diagonal m = true <-> nearly_diagonal m.
Proof.
  intros m. unfold close_to_diagonal, nearly_diagonal. rewrite forallb_forall. split.
  - intros H i j Hi Hj N. specialize (H i ltac:(apply in_seq; lia)). rewrite forallb_forall in H. specialize (H j ltac:(apply in_seq; lia)).
    apply Bool.orb_true_iff in H as [H|H]; [apply Nat.eqb_eq in H; contradiction|]. apply Qle_bool_iff. exact H.
  - intros H i Hi. apply in_seq in Hi. rewrite forallb_forall. intros j Hj. apply in_seq in Hj. destruct (Nat.eq_dec i j) as [->|N]; [rewrite Nat.eqb_refl; reflexivity|].
    apply Bool.orb_true_iff. right. apply Qle_bool_iff. apply H; lia.
Qed.

Lemma parabaloid_fails : forall d r e, parabaloid_matrix d r = Err e <-> basin_bad (d, r) e.
Proof.
  intros d r e. unfold parabaloid_matrix, basin_bad. cbn [fst snd]. rewrite <- !square_iff, <- diagonal_iff, <- Nat.eqb_eq.
  destruct (square d), (square r), (length d =? length r), (close_to_diagonal d); cbn;
    (split; [intros E; try discriminate; injection E as <-; intuition congruence|intros [[? ->]|(? & ? & ->)]; intuition congruence]).
Qed.

Lemma parabaloid_works : forall d r, (exists m, parabaloid_matrix d r = Ok m) <-> basin_fine (d, r).
Proof.
  intros d r. unfold parabaloid_matrix, basin_fine. cbn [fst snd]. rewrite <- !square_iff, <- diagonal_iff, <- Nat.eqb_eq.
  destruct (square d), (square r), (length d =? length r), (close_to_diagonal d); cbn; (split; [intros [m E]; try discriminate; auto|intuition; try discriminate; eauto]).
Qed.

Lemma quadratic_fails : forall ds rs offsets values e,
  quadratic_family ds rs offsets values = Err e <->
  ~ (length ds = length rs /\ length offsets = length rs /\ length values = length rs) /\ e = AssertionError \/
  length ds = length rs /\ length offsets = length rs /\ length values = length rs /\ first_trouble basin_fine basin_bad (combine ds rs) e.
Proof.
  intros ds rs offsets values e. unfold quadratic_family.
  destruct ((length ds =? length rs) && (length offsets =? length rs) && (length values =? length rs)) eqn:E.
  - apply andb_prop in E as [E E3]. apply andb_prop in E as [E1 E2]. apply Nat.eqb_eq in E1, E2, E3.
    assert (M : forall e, map_result (fun dr => parabaloid_matrix (fst dr) (snd dr)) (combine ds rs) = Err e <-> first_trouble basin_fine basin_bad (combine ds rs) e).
    { apply map_result_fails.
      - intros [d r] H. apply parabaloid_works. exact H.
      - intros [d r] x. apply parabaloid_fails.
      - intros [d r] y H. apply parabaloid_works. exists y. exact H. }
    destruct (map_result _ (combine ds rs)) as [v|e'].
    + cbn. split; [discriminate|]. intros [[N _]|(_ & _ & _ & T)]; [destruct (N (conj E1 (conj E2 E3)))|]. apply M in T. discriminate.
    + cbn. split; [intros [= <-]; right; repeat split; auto; apply M; reflexivity|]. intros [[N _]|(_ & _ & _ & T)]; [destruct (N (conj E1 (conj E2 E3)))|].
      apply M in T. congruence.
  - assert (N : ~ (length ds = length rs /\ length offsets = length rs /\ length values = length rs)).
    { intros (E1 & E2 & E3). rewrite E1, E2, E3, Nat.eqb_refl in E. discriminate. }
    split; [intros [= <-]; left; split; [exact N|reflexivity]|]. intros [[_ ->]|(E1 & E2 & E3 & _)]; [reflexivity|]. destruct (N (conj E1 (conj E2 E3))).
Qed.

Lemma map2_len : forall f a b, length a = length b -> length (map2 f a b) = length a.
Proof. intros f a. induction a as [|x a IH]; intros [|y b] H; try discriminate; [reflexivity|]. cbn in *. f_equal. apply IH. lia. Qed.

Lemma quadratic_evaluate_fails : forall p is_array x e,
  quadratic_evaluate p is_array x = Err e <->
  p = [] /\ e = ValueError \/ first_trouble (point_fine is_array (length x)) (point_bad is_array (length x)) p e.
Proof.
  intros p is_array x e. unfold quadratic_evaluate.
  assert (W : forall b, (exists v, basin_evaluate is_array x b = Ok v) <-> point_fine is_array (length x) b).
  { intros b. unfold basin_evaluate, translated_evaluate, parabaloid_evaluate, point_fine.
    destruct (Nat.eqb_spec (length x) (length (ba_offset b))) as [E|E]; [|split; [intros [v H]; discriminate|tauto]].
    destruct is_array; [|split; [intros [v H]; discriminate|intros (_ & H & _); discriminate]].
    rewrite (map2_len Qminus x (ba_offset b) E). destruct (Nat.eqb_spec (length x) (length (ba_matrix b))) as [E2|E2]; cbn; split; eauto; [intros [v H]; discriminate|tauto]. }
  assert (B : forall b e, basin_evaluate is_array x b = Err e <-> point_bad is_array (length x) b e).
  { intros b e0. unfold basin_evaluate, translated_evaluate, parabaloid_evaluate, point_bad.
    destruct (Nat.eqb_spec (length x) (length (ba_offset b))) as [E|E].
    - destruct is_array.
      + rewrite (map2_len Qminus x (ba_offset b) E). destruct (Nat.eqb_spec (length x) (length (ba_matrix b))) as [E2|E2]; cbn; (split; [intros H; try discriminate; injection H as <-; auto 10|]);
        intros [[? ?]|[(? & ? & ?)|(? & ? & ? & ?)]]; subst; try discriminate; try contradiction; reflexivity.
      + cbn. split; [intros [= <-]; auto 10|]. intros [[? ?]|[(? & ? & ?)|(? & ? & ? & ?)]]; subst; try discriminate; try contradiction; reflexivity.
    - cbn. split; [intros [= <-]; auto 10|]. intros [[? ?]|[(? & ? & ?)|(? & ? & ? & ?)]]; subst; try discriminate; try contradiction; reflexivity. }
  assert (M : forall e, map_result (basin_evaluate is_array x) p = Err e <-> first_trouble (point_fine is_array (length x)) (point_bad is_array (length x)) p e).
  { apply map_result_fails; [intros b; apply W|exact B|intros b v H; apply W; eauto]. }
  destruct p as [|b p].
  - cbn. split; [intros [= <-]; auto|]. intros [[_ ->]|(l1 & y & l2 & E & _)]; [reflexivity|destruct l1; discriminate].
  - rewrite <- M. destruct (map_result (basin_evaluate is_array x) (b :: p)) as [vs|e'] eqn:E; cbn [bind].
    + split; [|intros [[N _]|N]; discriminate]. destruct vs as [|v vs]; [|discriminate]. exfalso. cbn [map_result] in E.
      destruct (basin_evaluate is_array x b); [|discriminate]. cbn [bind] in E. destruct (map_result _ p); discriminate.
    + split; [intros [= <-]; auto|]. intros [[N _]|H]; [discriminate|congruence].
Qed.

(** ** breeding from nobody *)
Lemma breed_nobody : forall G score p plans pairs num_points (q : pair_plan G) (st : Segmented.store G),
  breed (G := G) score (p :: plans) [] st = Err IndexError /\
  breed_pairs (G := G) score num_points (q :: pairs) [] st = Err IndexError.
Proof.
  intros. cbn. unfold picked. split; [destruct (pl_pick p)|destruct (pp_first q)]; reflexivity.
Qed.
