(** C06, C07, C08: cloning and evaluation of individuals. *)
From Verif Require Import Model.Base Model.Heap Model.Pipeline Spec.Heap Proofs.Heap Proofs.Grouped Proofs.Individual.

(** C06. *)
Theorem C06_clone_is_unevaluated_child :
  forall G P F (w : world G P F) i c w',
  sane w -> i < w_nind w -> clone w i = (c, w') ->
  w_nind w <= c /\ genes w' c = genes w i /\
  i_problem (w_ind w' c) = i_problem (w_ind w i) /\ i_decoder (w_ind w' c) = i_decoder (w_ind w i) /\
  i_fitness (w_ind w' c) = None /\ i_parents (w_ind w' c) = [i_uuid (w_ind w i)] /\
  (forall j, j < w_nind w -> i_uuid (w_ind w' c) <> i_uuid (w_ind w' j)) /\
  untouched w w' /\ sane w'.
Proof. exact clone_child. Qed.
Print Assumptions C06_clone_is_unevaluated_child.

Theorem C06_clone_is_isolated :
  forall G P F (w : world G P F) i c w' l,
  sane w -> i < w_nind w -> clone w i = (c, w') ->
  let v := writes w' c i l in
  genes v c = last_written true l (genes w i) /\
  genes v i = last_written false l (genes w i) /\
  (forall j, w_ind v j = w_ind w' j) /\
  (forall j, j < w_nind w -> i_genome (w_ind w j) <> i_genome (w_ind w i) -> genes v j = genes w j).
Proof. exact clone_isolated. Qed.
Print Assumptions C06_clone_is_isolated.

(** Over a whole program, however individuals are created, cloned, written to and evaluated: no two
    have the same id, and the heap stays sane. *)
Theorem C06_ids_stay_distinct :
  forall G P F (w : world G P F), life w ->
  sane w /\ forall i j, i < w_nind w -> j < w_nind w -> i_uuid (w_ind w i) = i_uuid (w_ind w j) -> i = j.
Proof. exact life_ids. Qed.
Print Assumptions C06_ids_stay_distinct.

(** two individuals; individual 0 is evaluated and has a cached phenome *)
Definition demo : world nat nat nat :=
  mk_world (fun n => if n =? 0 then mk_indiv 0 4 1 (Some 9) (Some (PhVal 3)) 20 [7] false None None
                     else mk_indiv 1 4 1 None None 21 [] false None None)
           (fun a => if a =? 0 then [1; 2] else [5]) 2 2 30.

Example C06_example :
  let '(c, w) := clone demo 0 in
  let v := writes w c 0 [(true, [8; 8]); (false, [6]); (true, [9])] in
  sane demo /\ c = 2 /\ genes w 2 = [1; 2] /\ genes v 2 = [9] /\ genes v 0 = [6] /\ genes v 1 = [5] /\
  i_parents (w_ind w 2) = [20] /\ i_fitness (w_ind w 2) = None /\ i_fitness (w_ind w 0) = Some 9.
Proof.
  assert (HS : sane demo).
  { intros [|[|i]] H; cbn; [| |exfalso; cbn in H; inversion H; inversion H1; inversion H3]; split; repeat constructor. }
  split; [exact HS|]. vm_compute. repeat split.
Qed.

Example C06_life_example :
  let w0 := mk_world (fun _ => mk_indiv 0 0 0 None None 0 [] false None None) (fun _ => []) 0 0 0 : world nat nat nat in
  let '(a, w1) := new_arr w0 [1; 2] in let '(x, w2) := create w1 a 4 1 false in
  let '(y, w3) := create w2 a 4 1 false in let '(c, w4) := clone w3 x in
  life w4 /\ w_nind w4 = 3 /\ map (fun i => i_uuid (w_ind w4 i)) [x; y; c] = [0; 1; 2].
Proof.
  set (w0 := mk_world _ _ 0 0 0). cbn [new_arr create clone]. split; [|split; reflexivity].
  eapply life_clone; [eapply life_create; [eapply life_create; [eapply life_array; [apply (life_start w0); reflexivity|reflexivity]| |reflexivity]| |reflexivity]| |reflexivity]; cbn; repeat constructor.
Qed.

(** C07.  One at a time: whatever was decoded, cloned or mutated before (any world), an evaluation that
    does not raise stores the score of the current genome (NaN for a robust individual whose evaluation
    failed) and changes nobody else. *)
Theorem C07_evaluate_scores_current_genome :
  forall G P F (nan : F) decoder_of problem_of (w : world G P F) i f w',
  evaluate nan decoder_of problem_of w i = (Ok f, w') ->
  i_fitness (w_ind w' i) = Some f /\
  f = outcome nan (score (decoder_of (i_decoder (w_ind w i))) (problem_of (i_problem (w_ind w i))) (genes w i)) /\
  genes w' i = genes w i /\ (forall j, j <> i -> w_ind w' j = w_ind w j) /\ w_arr w' = w_arr w.
Proof. exact evaluate_scores. Qed.
Print Assumptions C07_evaluate_scores_current_genome.

Theorem C07_evaluate_population_scores_current_genomes :
  forall G P F (nan : F) decoder_of problem_of (w : world G P F) l u w',
  evaluate_population nan decoder_of problem_of w l = (Ok u, w') ->
  w_arr w' = w_arr w /\ (forall j, ~ In j l -> w_ind w' j = w_ind w j) /\
  forall j, In j l ->
    i_fitness (w_ind w' j) =
    Some (outcome nan (score (decoder_of (i_decoder (w_ind w j))) (problem_of (i_problem (w_ind w j))) (genes w j))).
Proof. exact evaluate_population_scores. Qed.
Print Assumptions C07_evaluate_population_scores_current_genomes.

(** Grouped evaluation is right for every chunk size when the problem's evaluate_multiple accepts the
    [individuals] keyword and no cached phenome is stale.  Missing from the full claim: exactly those
    two conditions, see the refutations. *)
Theorem C07_grouped_evaluate_partial :
  forall G P F decoder_of problem_of takes_individuals chunk_size problem (w : world G P F) l,
  takes_individuals problem = true -> l <> [] -> chunk_size <> Some 0 ->
  (forall i, In i l -> i_problem (w_ind w i) = problem /\ cache_current decoder_of w i /\
     exists f, score (decoder_of (i_decoder (w_ind w i))) (problem_of (i_problem (w_ind w i))) (genes w i) = Ok f) ->
  exists w', grouped_evaluate decoder_of problem_of takes_individuals chunk_size w l = (Ok tt, w') /\
    w_arr w' = w_arr w /\ (forall j, ~ In j l -> w_ind w' j = w_ind w j) /\
    (forall j, i_genome (w_ind w' j) = i_genome (w_ind w j)) /\
    forall j f, In j l ->
      score (decoder_of (i_decoder (w_ind w j))) (problem_of (i_problem (w_ind w j))) (genes w j) = Ok f ->
      i_fitness (w_ind w' j) = Some f.
Proof. exact grouped_scores. Qed.
Print Assumptions C07_grouped_evaluate_partial.

(** What grouped evaluation does on any population, whatever is cached: each member gets the problem's
    score of what it shows (the cached phenome if there is one, otherwise the decoding of its genome);
    or an error is raised, for one of the listed reasons, and nobody's fitness has changed. *)
Theorem C07_grouped_evaluate_any :
  forall G P F decoder_of problem_of takes_individuals chunk_size (w : world G P F) l r w',
  grouped_evaluate decoder_of problem_of takes_individuals chunk_size w l = (r, w') ->
  w_arr w' = w_arr w /\ (forall j, ~ In j l -> w_ind w' j = w_ind w j) /\
  (forall j, i_genome (w_ind w' j) = i_genome (w_ind w j) /\ i_problem (w_ind w' j) = i_problem (w_ind w j) /\
     presented decoder_of w' j = presented decoder_of w j) /\
  match r with
  | Ok _ => l <> [] /\ chunk_size <> Some 0 /\
      (forall i j, In i l -> In j l -> i_problem (w_ind w i) = i_problem (w_ind w j)) /\
      forall j, In j l -> takes_individuals (i_problem (w_ind w j)) = true /\
        exists f, presented_score decoder_of problem_of w j = Ok f /\ i_fitness (w_ind w' j) = Some f
  | Err e => (forall j, i_fitness (w_ind w' j) = i_fitness (w_ind w j)) /\
      ((l = [] /\ e = IndexError) \/
       (e = AssertionError /\ exists i j, In i l /\ In j l /\ i_problem (w_ind w i) <> i_problem (w_ind w j)) \/
       (chunk_size = Some 0 /\ e = ValueError) \/
       (e = TypeError /\ exists i, In i l /\ takes_individuals (i_problem (w_ind w i)) = false) \/
       (exists i, In i l /\ presented_score decoder_of problem_of w i = Err e))
  end.
Proof. exact @grouped_any. Qed.
Print Assumptions C07_grouped_evaluate_any.

(** decoder 1 sums the genes; the problem returns the phenome *)
Definition demo_decoder (n : nat) : option (list nat -> result nat) :=
  if n =? 1 then Some (fun g => Ok (fold_left Nat.add g 0)) else None.
Definition demo_problem (n : nat) (v : phen_value nat nat) : result nat :=
  match v with VArr g => Ok (length g) | VVal p => Ok p end.

(** clone an evaluated individual, mutate the clone, evaluate it in a group: it gets its parent's score *)
Theorem C07_grouped_evaluate_stale_refuted :
  exists (w : world nat nat nat) parent child w1 w2 w3,
  i_phenome (w_ind w parent) = Some (PhVal 3) /\
  score (demo_decoder 1) (demo_problem 4) (genes w parent) = Ok 3 /\
  clone w parent = (child, w1) /\
  mutate_ind (fun _ => Ok ([5; 6], None)) w1 child = (Ok tt, w2) /\
  grouped_evaluate demo_decoder demo_problem (fun _ => true) None w2 [child] = (Ok tt, w3) /\
  score (demo_decoder 1) (demo_problem 4) (genes w3 child) = Ok 11 /\
  i_fitness (w_ind w3 child) = Some 3.
Proof.
  exists demo, 0, 2. eexists _, _, _.
  split; [reflexivity|]. split; [reflexivity|]. split; [reflexivity|]. split; [reflexivity|].
  split; [reflexivity|]. split; vm_compute; reflexivity.
Qed.
Print Assumptions C07_grouped_evaluate_stale_refuted.

(** with a problem that keeps the default evaluate_multiple, grouped evaluation always raises *)
Theorem C07_grouped_evaluate_default_problem_refuted :
  exists (w : world nat nat nat) i w',
  cache_current demo_decoder w i /\
  score (demo_decoder 1) (demo_problem 4) (genes w i) = Ok 5 /\
  grouped_evaluate demo_decoder demo_problem (fun _ => false) None w [i] = (Err TypeError, w').
Proof.
  exists demo, 1. eexists. split; [exact I|]. split; [reflexivity|]. vm_compute. reflexivity.
Qed.
Print Assumptions C07_grouped_evaluate_default_problem_refuted.

Example C07_example :
  let w2 := snd (grouped_evaluate demo_decoder demo_problem (fun _ => true) (Some 1) demo [1; 0]) in
  cache_current demo_decoder demo 0 /\ cache_current demo_decoder demo 1 /\
  fst (evaluate 0 demo_decoder demo_problem demo 1) = Ok 5 /\
  i_fitness (w_ind w2 0) = Some 3 /\ i_fitness (w_ind w2 1) = Some 5.
Proof. split; [exists 3; split; reflexivity|]. vm_compute. auto. Qed.

(** individual 0 shows its stale cache 3, individual 1 its decoded genome *)
Example C07_grouped_evaluate_any_example :
  let w := upd_arr demo 0 [8; 8] in
  let '(r, w') := grouped_evaluate demo_decoder demo_problem (fun _ => true) (Some 1) w [1; 0] in
  r = Ok tt /\ presented_score demo_decoder demo_problem w 0 = Ok 3 /\ presented_score demo_decoder demo_problem w 1 = Ok 5 /\
  i_fitness (w_ind w' 0) = Some 3 /\ i_fitness (w_ind w' 1) = Some 5.
Proof. vm_compute. repeat split. Qed.

(** C08. *)
Theorem C08_robust_evaluation :
  forall G P F (nan : F) decoder_of problem_of (w : world G P F) i r w',
  i_robust (w_ind w i) = true ->
  evaluate nan decoder_of problem_of w i = (r, w') ->
  (exists f, r = Ok f /\ i_fitness (w_ind w' i) = Some f) /\
  (forall f, score (decoder_of (i_decoder (w_ind w i))) (problem_of (i_problem (w_ind w i))) (genes w i) = Ok f ->
     i_fitness (w_ind w' i) = Some f /\ i_viable (w_ind w' i) = Some true) /\
  (forall e, score (decoder_of (i_decoder (w_ind w i))) (problem_of (i_problem (w_ind w i))) (genes w i) = Err e ->
     i_fitness (w_ind w' i) = Some nan /\ i_viable (w_ind w' i) = Some false /\ i_exc (w_ind w' i) = Some e).
Proof. exact robust_evaluation. Qed.
Print Assumptions C08_robust_evaluation.

Theorem C08_latest_attempt_counts :
  forall G P F (nan : F) earlier decoder_of problem_of (w : world G P F) i vs w',
  i_robust (w_ind w i) = true ->
  attempts nan (earlier ++ [(decoder_of, problem_of)]) w i = (vs, w') ->
  Forall (fun v => exists f, v = Ok f) vs /\ length vs = S (length earlier) /\
  let s := score (decoder_of (i_decoder (w_ind w i))) (problem_of (i_problem (w_ind w i))) (genes w i) in
  i_fitness (w_ind w' i) = Some (outcome nan s) /\
  (i_viable (w_ind w' i) = Some true <-> exists f, s = Ok f) /\
  (i_viable (w_ind w' i) = Some false <-> exists e, s = Err e) /\
  (forall e, s = Err e -> i_exc (w_ind w' i) = Some e).
Proof. exact latest_attempt. Qed.
Print Assumptions C08_latest_attempt_counts.

Example C08_example :
  let w := mk_world (P:=nat) (fun _ => mk_indiv 0 0 0 None None 1 [] true None None) (fun _ => [4]) 1 1 2 in
  let failing := (demo_decoder, fun (_ : nat) (_ : phen_value nat nat) => Err ValueError) in
  let '(vs, w1) := attempts 99 [failing; (demo_decoder, demo_problem)] w 0 in
  let '(vs2, w2) := attempts 99 [failing; (demo_decoder, demo_problem); failing] w 0 in
  vs = [Ok 99; Ok 1] /\ i_viable (w_ind w1 0) = Some true /\ i_fitness (w_ind w1 0) = Some 1 /\
  vs2 = [Ok 99; Ok 1; Ok 99] /\ i_viable (w_ind w2 0) = Some false /\ i_exc (w_ind w2 0) = Some ValueError.
Proof. vm_compute. repeat split. Qed.
