From Verif Require Import Model.Base Model.Crossover Spec.Crossover.
From Coq Require Import Lia.

Lemma handed_app a b : handed_out (a ++ b) = handed_out a ++ handed_out b.
Proof. unfold handed_out. apply flat_map_app. Qed.

Lemma replace_length {A} : forall k (x : A) l, length (replace_at k x l) = length l.
Proof. induction k; intros x [|y l]; cbn; auto. Qed.
Lemma replace_nth {A} : forall k (x : A) l, k < length l -> nth_error (replace_at k x l) k = Some x.
Proof. induction k; intros x [|y l] H; cbn in *; try lia; auto. apply IHk; lia. Qed.

Section Proofs.
Variable breed : nat -> nat -> result (nat * nat).
Notation step := (x_step true breed).

Definition good (s : xstate) : Prop :=
  handed_out (x_out s) ++ map Some (waiting (x_second s)) = map Some (x_made s) /\
  (forall g, nth_error (x_gens s) (length (x_gens s) - 1) = Some g ->
     match g_pc g with
     | Fresh => True
     | Mid => x_second s <> None
     | _ => x_second s = None
     end) /\
  (x_gens s = [] -> x_second s = None).

Lemma step_next s k : good s -> S k = length (x_gens s) -> good (step s (Next k)).
Proof.
  intros (H1 & H2 & H3) Hk. unfold x_step.
  destruct (nth_error (x_gens s) k) as [g|] eqn:E.
  2:{ apply nth_error_None in E. lia. }
  specialize (H2 g). replace (length (x_gens s) - 1) with k in H2 by lia. specialize (H2 E).
  destruct (gen_next true breed (x_second s) g) as [[[o sec] g'] made] eqn:EG.
  assert (K :
    (handed_out (x_out s) ++ handed_out [o] ++ map Some (waiting sec) = map Some (x_made s) ++ map Some made /\
     match g_pc g' with Fresh => True | Mid => sec <> None | _ => sec = None end) ->
    good (mk_x sec (replace_at k g' (x_gens s)) (x_out s ++ [o]) (x_made s ++ made))).
  { unfold good. cbn [x_out x_second x_made x_gens]. rewrite replace_length, handed_app, map_app, <- app_assoc.
    replace (length (x_gens s) - 1) with k by lia. rewrite replace_nth by lia.
    intros [A B]. split; auto. split.
    - intros g3 Eg. injection Eg as <-. auto.
    - intros C. assert (L : length (replace_at k g' (x_gens s)) = 0) by (rewrite C; auto).
      rewrite replace_length in L. lia. }
  apply K. clear K.
  assert (HL : x_second s = None -> loop_body breed (x_second s) (g_up g) = (o, sec, g', made) ->
    handed_out (x_out s) ++ handed_out [o] ++ map Some (waiting sec) = map Some (x_made s) ++ map Some made /\
    match g_pc g' with Fresh => True | Mid => sec <> None | _ => sec = None end).
  { intros Hn HB. rewrite Hn in *. cbn in H1. rewrite app_nil_r in H1. unfold loop_body in HB.
    destruct (g_up g) as [|a [|b up]].
    - injection HB as <- <- <- <-. cbn. rewrite H1. auto.
    - injection HB as <- <- <- <-. cbn. rewrite H1. auto.
    - destruct (breed a b) as [[c1 c2]|e].
      + injection HB as <- <- <- <-. cbn. rewrite H1. split; auto. discriminate.
      + injection HB as <- <- <- <-. cbn. rewrite H1. auto. }
  unfold gen_next in EG. destruct (g_pc g) eqn:Epc.
  - destruct (x_second s) as [c|] eqn:Es.
    + injection EG as <- <- <- <-. cbn in *. rewrite app_nil_r. auto.
    + apply HL; auto.
  - apply HL; auto.
  - injection EG as <- <- <- <-. cbn. rewrite !app_nil_r. split; auto.
    destruct (x_second s) as [c|]; [|congruence]. cbn in H1. auto.
  - injection EG as <- <- <- <-. cbn. rewrite H2 in *. cbn in *. rewrite !app_nil_r in *. rewrite Epc. auto.
Qed.

Lemma step_new s up : good s -> good (step s (New up)).
Proof.
  intros (H1 & H2 & H3). unfold good. cbn. split; auto. split.
  - rewrite app_length. cbn. replace (length (x_gens s) + 1 - 1) with (length (x_gens s)) by lia.
    rewrite nth_error_app2, Nat.sub_diag by lia. cbn. intros g E. injection E as <-. cbn. auto.
  - intros C. destruct (x_gens s); discriminate.
Qed.

Lemma step_len s e : length (x_gens (step s e)) =
  match e with New _ => S (length (x_gens s)) | Next _ => length (x_gens s) end.
Proof.
  destruct e; cbn; [rewrite app_length; cbn; lia|].
  destruct (nth_error (x_gens s) k); auto. destruct (gen_next true breed (x_second s) g) as [[[? ?] ?] ?].
  cbn. apply replace_length.
Qed.

Lemma run_good es : forall s, good s -> latest_only (length (x_gens s)) es -> good (fold_left step es s).
Proof.
  induction es as [|e es IH]; intros s HG HL; cbn [fold_left]; auto.
  destruct e as [up|k]; cbn [latest_only] in HL.
  - apply IH; [apply step_new; auto|]. rewrite step_len. auto.
  - destruct HL as [Hk HL]. apply IH; [apply step_next; auto|]. rewrite step_len. auto.
Qed.

Lemma run_handed es : latest_only 0 es ->
  let s := x_run true breed es in
  handed_out (x_out s) ++ map Some (waiting (x_second s)) = map Some (x_made s).
Proof.
  intros H. cbv zeta. unfold x_run. apply run_good; auto.
  split; [reflexivity|]. split; auto. intros g Hg. discriminate.
Qed.

Lemma run_no_none es : latest_only 0 es -> ~ In None (handed_out (x_out (x_run true breed es))).
Proof.
  intros H C. pose proof (run_handed es H) as E. cbv zeta in E.
  assert (In None (map Some (x_made (x_run true breed es)))) as C2.
  { rewrite <- E. apply in_or_app; auto. }
  apply in_map_iff in C2. destruct C2 as (x & Ex & _). discriminate.
Qed.
End Proofs.

Section Single.
Variable persist : bool.
Variable breed : nat -> nat -> nat * nat.
Notation step := (x_step persist (fun a b => Ok (breed a b))).

Lemma dead_out n : forall s second up, x_gens s = [mk_gen Dead up] -> x_second s = second ->
  handed_out (x_out (fold_left step (repeat (Next 0) n) s)) = handed_out (x_out s).
Proof.
  induction n as [|n IH]; intros s second up HG HS; cbn [repeat fold_left]; auto.
  rewrite (IH _ second up); unfold x_step; rewrite HG; cbn; auto. rewrite handed_app. cbn. apply app_nil_r.
Qed.

Lemma loop_out : forall n s up, (x_gens s = [mk_gen Loop up] \/ x_gens s = [mk_gen Fresh up]) -> x_second s = None ->
  handed_out (x_out (fold_left step (repeat (Next 0) n) s)) =
  handed_out (x_out s) ++ map Some (firstn n (children_of breed up)).
Proof.
  induction n as [n IH] using (well_founded_induction Wf_nat.lt_wf); intros s up HG HS.
  destruct n as [|n]; [cbn; rewrite app_nil_r; auto|].
  assert (E : step s (Next 0) =
    let '(o, second, g', made) := loop_body (fun a b => Ok (breed a b)) None up in
    mk_x second [g'] (x_out s ++ [o]) (x_made s ++ made)).
  { unfold x_step. destruct HG as [-> | ->]; cbn [nth_error]; rewrite HS; unfold gen_next; cbn [g_pc g_up];
      [|destruct persist]; destruct (loop_body _ None up) as [[[? ?] ?] ?]; auto. }
  cbn [repeat fold_left]. rewrite E. destruct up as [|a [|b up]]; cbn [loop_body].
  - rewrite (dead_out n _ None []); auto. cbn. rewrite handed_app. cbn. auto.
  - rewrite (dead_out n _ None []); auto. cbn. rewrite handed_app. cbn. auto.
  - destruct (breed a b) as [c1 c2] eqn:EB. destruct n as [|n].
    + cbn. rewrite EB. cbn. apply handed_app.
    + cbn [repeat fold_left].
      rewrite (IH n (ltac:(lia)) _ up); [|left; reflexivity|reflexivity].
      cbn [x_out x_step nth_error x_gens]. unfold gen_next. cbn [g_pc x_second].
      cbn [x_out]. rewrite !handed_app, <- !app_assoc. cbn. rewrite EB. reflexivity.
Qed.

Lemma single_run n up :
  handed_out (x_out (x_run persist (fun a b => Ok (breed a b)) (New up :: repeat (Next 0) n))) =
  map Some (firstn n (children_of breed up)).
Proof. unfold x_run. cbn [fold_left]. rewrite (loop_out n _ up); cbn; auto. Qed.
End Single.
