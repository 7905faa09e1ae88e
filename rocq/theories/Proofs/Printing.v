From Coq Require Import Ascii String Lia.
From Verif Require Import Model.Base Model.CsvProbe Model.Printing Spec.Printing.
Local Open Scope list_scope.

Lemma lines_line t : forall cur r, one_line t -> lines_from cur (t ++ newline :: r) = (cur ++ t) :: lines r.
Proof.
  induction t as [|c t IH]; intros cur r H; cbn [app lines_from].
  - rewrite Ascii.eqb_refl, app_nil_r. reflexivity.
  - destruct (Ascii.eqb_spec c newline) as [E | N]; [exfalso; apply H; left; exact E|]. rewrite IH; [rewrite <- app_assoc; reflexivity|intros K; apply H; right; exact K].
Qed.
Lemma lines_concat ls : Forall one_line ls -> lines (concat (map (fun t => t ++ [newline]) ls)) = ls.
Proof.
  induction 1 as [|t ls H F IH]; [reflexivity|]. cbn [map concat]. rewrite <- app_assoc. cbn [app]. unfold lines. rewrite lines_line by exact H. cbn [app]. rewrite IH. reflexivity.
Qed.
Lemma one_line_app a b : one_line a -> one_line b -> one_line (a ++ b).
Proof. unfold one_line. intros A B H. apply in_app_or in H. tauto. Qed.

Section S.
Context {I V U : Type}.
Variables (show : I -> text) (show_value : V -> text).

Lemma print_pulls_yields (next : U -> result (I * U)) prefix : forall u l u', yields next u l u' -> forall stream,
  print_pulls show next prefix (length l) u stream = (l, None, stream ++ concat (map (fun i => (prefix ++ show i) ++ [newline]) l)).
Proof.
  induction 1 as [u|u i u1 l u' E Y IH]; intros stream; cbn [length print_pulls map concat]; [rewrite app_nil_r; reflexivity|].
  unfold print_pull. rewrite E, IH. unfold print. rewrite <- !app_assoc. reflexivity.
Qed.
Lemma print_pulls_ok (next : U -> result (I * U)) prefix u l u' stream : yields next u l u' ->
  exists added, print_pulls show next prefix (length l) u stream = (l, None, stream ++ added) /\
    (Forall (fun i => one_line (prefix ++ show i)) l -> lines added = map (fun i => prefix ++ show i) l).
Proof.
  intros Y. eexists. split; [apply print_pulls_yields with (u' := u'); exact Y|]. intros F. rewrite <- (map_map (fun i => prefix ++ show i) (fun t => t ++ [newline])).
  apply lines_concat. apply Forall_map. exact F.
Qed.
Lemma print_pulls_fails (next : U -> result (I * U)) prefix : forall u l u', yields next u l u' -> forall e stream m, next u' = Err e ->
  print_pulls show next prefix (length l + S m) u stream =
    (l, Some (match e with StopIteration => RuntimeError | _ => e end), snd (print_pulls show next prefix (length l) u stream)).
Proof.
  induction 1 as [u|u i u1 l u' E Y IH]; intros e stream m Ee; cbn [length plus print_pulls].
  - unfold print_pull. rewrite Ee. destruct e; reflexivity.
  - unfold print_pull. rewrite E, (IH e _ m Ee). destruct (print_pulls show next prefix (length l) u1 _) as [[l' e'] s']. reflexivity.
Qed.

Lemma print_probes_ok (probe : list I -> result V) prefix : forall pops vs stream, Forall2 (fun p v => probe p = Ok v) pops vs ->
  print_probes show_value probe prefix pops stream = (map Ok pops, stream ++ concat (map (fun v => prefix ++ show_value v) vs)).
Proof.
  induction pops as [|p pops IH]; intros vs stream F; inversion F as [|? v ? vs' E F']; subst; cbn [print_probes map concat]; [rewrite app_nil_r; reflexivity|].
  unfold print_probe. rewrite E, (IH vs' _ F'). rewrite <- !app_assoc. reflexivity.
Qed.
Lemma print_probe_failed (probe : list I -> result V) prefix p e stream : probe p = Err e -> print_probe show_value probe prefix p stream = (Err e, stream).
Proof. intros E. unfold print_probe. rewrite E. reflexivity. Qed.
Lemma separated prefix : forall vs, one_line prefix -> Forall (fun v : V => one_line (show_value v)) vs ->
  lines (concat (map (fun v => (newline :: prefix) ++ show_value v) vs) ++ [newline]) = [] :: map (fun v => prefix ++ show_value v) vs.
Proof.
  assert (G : forall vs cur, one_line prefix -> Forall (fun v : V => one_line (show_value v)) vs ->
    lines_from cur (concat (map (fun v => (newline :: prefix) ++ show_value v) vs) ++ [newline]) = cur :: map (fun v => prefix ++ show_value v) vs).
  { induction vs as [|v vs IH]; intros cur Hp F; [reflexivity|]. inversion F as [|? ? F1 F2]; subst. cbn [map concat]. cbn [app lines_from]. rewrite Ascii.eqb_refl. f_equal.
    rewrite <- app_assoc. assert (K : forall t cur r, one_line t -> lines_from cur (t ++ r) = lines_from (cur ++ t) r).
    { clear. induction t as [|c t IH]; intros cur r H; [rewrite app_nil_r; reflexivity|]. cbn [app lines_from]. destruct (Ascii.eqb_spec c newline) as [E | N]; [exfalso; apply H; left; exact E|].
      rewrite IH; [rewrite <- app_assoc; reflexivity|intros Q; apply H; right; exact Q]. }
    change ((newline :: prefix) ++ show_value v) with (newline :: prefix ++ show_value v) in *.
    rewrite K by (apply one_line_app; assumption). rewrite IH by assumption. reflexivity. }
  intros vs Hp F. apply G; assumption.
Qed.

Lemma print_population_ok (g f : I -> text) generation : forall pop stream,
  print_population g f pop generation stream =
  stream ++ concat (map (fun i => (generation ++ lit " " ++ g i ++ lit " " ++ f i) ++ [newline]) pop).
Proof.
  induction pop as [|i pop IH]; intros stream; cbn [map concat]; [rewrite app_nil_r; reflexivity|]. unfold print_population in *. cbn [fold_left]. rewrite IH.
  unfold print. rewrite <- !app_assoc. reflexivity.
Qed.
Lemma print_population_lines (g f : I -> text) generation pop stream : one_line generation -> Forall (fun i => one_line (g i) /\ one_line (f i)) pop ->
  exists added, print_population g f pop generation stream = stream ++ added /\
    lines added = map (fun i => generation ++ lit " " ++ g i ++ lit " " ++ f i) pop.
Proof.
  intros Hg F. rewrite print_population_ok. eexists. split; [reflexivity|]. rewrite <- (map_map (fun i => generation ++ lit " " ++ g i ++ lit " " ++ f i) (fun t => t ++ [newline])).
  apply lines_concat, Forall_map. eapply Forall_impl; [|exact F]. intros i (A & B). cbv beta.
  assert (S1 : one_line (lit " ")) by (intros H; vm_compute in H; destruct H as [H | H]; [discriminate|contradiction]).
  repeat (apply one_line_app; [assumption|]); assumption.
Qed.
Lemma join_one_line sep : one_line sep -> forall l, Forall one_line l -> one_line (join sep l).
Proof.
  intros Hs. induction l as [|x l IH]; intros F; [intros []|]. inversion F as [|? ? F1 F2]; subst. destruct l as [|y l]; [exact F1|].
  change (one_line (x ++ sep ++ join sep (y :: l))). apply one_line_app; [exact F1|]. apply one_line_app; [exact Hs|apply IH, F2].
Qed.
Lemma print_list_line l stream : Forall (fun i : I => one_line (show i)) l ->
  exists added, print_list show l stream = stream ++ added /\ lines added = [lit "[" ++ join (lit ", ") (map show l) ++ lit "]"].
Proof.
  intros F. unfold print_list, print. eexists. split; [reflexivity|].
  assert (S1 : forall t, forallb (fun c => negb (Ascii.eqb c newline)) t = true -> one_line t).
  { intros t H K. rewrite forallb_forall in H. specialize (H _ K). rewrite Ascii.eqb_refl in H. discriminate. }
  replace (_ ++ [newline]) with (concat (map (fun t => t ++ [newline]) [lit "[" ++ join (lit ", ") (map show l) ++ lit "]"])) by (cbn [map concat]; rewrite app_nil_r; reflexivity).
  apply lines_concat. constructor; [|constructor]. repeat apply one_line_app; try (apply S1; reflexivity). apply join_one_line; [apply S1; reflexivity|apply Forall_map, F].
Qed.
End S.

Lemma split_at (c : ascii) : forall a a' b b', ~ In c a -> ~ In c a' -> a ++ c :: b = a' ++ c :: b' -> a = a' /\ b = b'.
Proof.
  induction a as [|x a IH]; intros [|y a'] b b' Ha Ha' E; cbn in E.
  - injection E as ->. auto.
  - injection E as E1 _. exfalso. apply Ha'. left. symmetry. exact E1.
  - injection E as E1 _. exfalso. apply Ha. left. exact E1.
  - injection E as -> E. destruct (IH a' b b') as (-> & ->); auto; [intros H; apply Ha; right; exact H|intros H; apply Ha'; right; exact H].
Qed.
Lemma str_injective c u f c' u' f' : ~ In "<"%char c -> ~ In "<"%char c' -> ~ In ">"%char u -> ~ In ">"%char u' ->
  individual_str c u f = individual_str c' u' f' -> c = c' /\ u = u' /\ f = f'.
Proof.
  unfold individual_str. intros Hc Hc' Hu Hu' E. change (c ++ "<"%char :: u ++ ">"%char :: lit " with fitness " ++ f = c' ++ "<"%char :: u' ++ ">"%char :: lit " with fitness " ++ f') in E.
  apply split_at in E; [|assumption ..]. destruct E as (-> & E). apply split_at in E; [|assumption ..]. destruct E as (-> & E). apply app_inv_head in E. auto.
Qed.
