(** C102: a run fails only with an exception that one of its parts raised. *)
From Verif Require Import Model.Base Model.Heap Model.Pipeline Model.HeapEa Model.HeapIslands Model.Segmented Model.SegRun Model.Problems
  Model.CoopRun Spec.Heap Spec.HeapEa Spec.SegRun Spec.CoopRun Spec.Raising Proofs.Raising Proofs.RaisingSeg Proofs.RaisingCoop.
From Verif Require Import Spec.HeapIslands.
From Verif Require Model.Migration.

Theorem C102_generational_run :
  forall (E : exn -> Prop) G P (decoder_of : nat -> option (list G -> result P)) problem_of maximize coin max_generations
    k_elites size operators pick stop initialize problem decoder robust pop_size start w e gc,
  (forall i, clone_vary_evaluate (operators i) /\ Forall (op_raises E) (operators i)) ->
  (robust = true \/ forall g, raises_only E (score (decoder_of decoder) (problem_of problem) g) /\
                              passes_only E (score (decoder_of decoder) (problem_of problem) g)) ->
  (E IndexError \/ (1 <= pop_size /\ forall i w l k, l <> [] -> pick i w l k < length l)) ->
  heap_ea decoder_of problem_of maximize coin max_generations k_elites size operators pick stop
    initialize problem decoder robust pop_size start w = Some (Err e, gc) -> E e.
Proof. exact heap_run_errors. Qed.
Print Assumptions C102_generational_run.

Theorem C102_island_run :
  forall (E : exn -> Prop) G P (decoder_of : nat -> option (list G -> result P)) problem_of direction pb decoder robust initialize
    stamps replace coin sponsor draw neighbors gap max_generations size operators pick stop n pop_size w e gc,
  (stamps = true \/ forall i j, pb i = pb j) ->
  (forall g i, clone_vary_evaluate (operators g i) /\ Forall (op_raises E) (operators g i)) ->
  (robust = true \/ forall i g, raises_only E (score (decoder_of decoder) (problem_of (pb i)) g) /\
                                passes_only E (score (decoder_of decoder) (problem_of (pb i)) g)) ->
  (E IndexError \/
   (1 <= pop_size /\ 1 <= size /\ (forall g i w l k, l <> [] -> pick g i w l k < length l) /\ (forall g i k w l, l <> [] -> replace g i k w l < length l) /\
    (forall g i w l, l <> [] -> sponsor g i w l < length l) /\
    (forall g i, i < n -> draw g i < length (neighbors i)) /\ (forall i j, i < n -> In j (neighbors i) -> j < n))) ->
  (E ZeroDivisionError \/ gap <> 0%Z) ->
  heap_islands decoder_of problem_of direction pb decoder robust initialize stamps replace coin sponsor draw neighbors gap
    max_generations size operators pick stop n pop_size w = Some (Err e, gc) -> E e.
Proof. exact island_run_errors. Qed.
Print Assumptions C102_island_run.

Theorem C102_segmented_run :
  forall G (E : exn -> Prop) score,
  (forall gs : list (list G), raises_only E (score gs) /\ passes_only E (score gs)) ->
  forall maximize coin k_elites genomes gens st e,
  Forall (seg_gen_raises E) gens -> (E IndexError \/ picks_within (length genomes) gens) ->
  seg_run score maximize coin k_elites genomes gens st = Err e -> E e.
Proof. exact @seg_run_errors. Qed.
Print Assumptions C102_segmented_run.

Theorem C102_cooperative_run :
  forall G (E : exn -> Prop) pick mutate uuid sel num_trials size,
  (forall g i k x, passes_only E (mutate g i k x)) ->
  (E IndexError \/ (1 <= size /\ forall g i k (l : list (member G)), l <> [] -> pick g i k l < length l)) ->
  choosers sel ->
  (forall g i k fits t j pop n, passes_only E (sel g i k fits t j pop n)) ->
  (E ValueError \/ 0 < num_trials) ->
  forall max_generations stop value created e gc evss,
  (E IndexError \/ (forall p, In p created -> p <> [])) ->
  (forall p m, In p created -> In m p -> forall gs, passes_only E (c_score (m_ind m) gs)) ->
  coop_run pick mutate uuid sel num_trials size max_generations stop value created = Some (Err e, gc, evss) -> E e.
Proof. exact @coop_run_errors. Qed.
Print Assumptions C102_cooperative_run.

Theorem C102_cooperative_problem_run :
  forall G (E : exn -> Prop) pick mutate uuid sel num_trials size,
  (forall g i k x, passes_only E (mutate g i k x)) ->
  (E IndexError \/ (1 <= size /\ forall g i k (l : list (member G)), l <> [] -> pick g i k l < length l)) ->
  forall combine score chunk,
  (forall g i k fits t j pop n, raises_only E (sel g i k fits t j pop n)) ->
  (forall gs, raises_only E (combine gs)) -> (forall g, raises_only E (score g)) -> (E ValueError \/ chunk <> Some 0) ->
  forall max_generations stop created e gc evss,
  (E IndexError \/ (forall p, In p created -> p <> [])) ->
  (forall value, coop_problem_run pick mutate uuid sel num_trials size combine score chunk max_generations stop value created =
     Some (Err e, gc, evss) -> E e) /\
  forall context, E KeyError \/ context <> None ->
    coop_problem_run_default pick mutate uuid sel num_trials size combine score chunk max_generations stop context created =
      Some (Err e, gc, evss) -> E e.
Proof. exact @coop_problem_runs_errors. Qed.
Print Assumptions C102_cooperative_problem_run.

Theorem C102_migrations :
  forall G (E : exn -> Prop) gap neighbors n,
  (E ZeroDivisionError \/ gap <> 0%Z) ->
  forall (calls : list (Migration.mig_call G)) fresh e, Forall (call_raises E) calls ->
  (E IndexError \/ Forall (indices_fit neighbors n) calls) ->
  Migration.mig_run gap neighbors (Migration.mig_init n fresh) calls = Err e -> E e.
Proof. exact @migrations_errors. Qed.
Print Assumptions C102_migrations.

(** a problem that raises in the second generation, a mutator that runs dry, and a selection that picks nobody *)
Example C102_example :
  let run problem operators pick := heap_ea no_decoder problem true (fun _ _ _ => true) 2 1 2 operators pick (fun _ _ _ => false)
          ex_init 0 0 false 2 0 ex_world in
  (match run fussy_problem (fun i => bit_pipeline 1 (ex_us i) (fun _ => false) (ex_masks i)) ex_pick with
   | Some (Err e, _) => e = UserError 7 | _ => False end) /\
  (match run max_ones_problem (fun _ => [OpClone; dry_op; OpEval]) ex_pick with
   | Some (Err e, _) => e = RuntimeError | _ => False end) /\
  (match run max_ones_problem (fun _ => [OpClone; OpEval]) (fun _ _ _ _ => 2) with
   | Some (Err e, _) => e = IndexError | _ => False end) /\
  op_raises (fun e => e = RuntimeError) dry_op /\ ~ op_raises (fun e => e = StopIteration) dry_op.
Proof.
  split; [vm_compute; reflexivity|]. split; [vm_compute; reflexivity|]. split; [vm_compute; reflexivity|]. split.
  - intros k g e. destruct (Nat.ltb k 1); [discriminate|]. intros [= <-]. reflexivity.
  - intros H. specialize (H 1 [] StopIteration eq_refl). discriminate.
Qed.

(** copying from a genome without segments, and mutators for another number of segments *)
Example C102_segmented_example :
  seg_run (fun _ => Ok (NInt 0)) true no_coin 1 [[]; [[5%nat]]] [Singly [mk_plan 0 [CopySeg 1 0 true 0 0]]] empty_store = Err ValueError /\
  seg_run (fun _ => Ok (NInt 0)) true no_coin 1 [[[4]]; [[5%nat]]] [Singly [mk_plan 0 [MutateEach []]]] empty_store = Err NameError /\
  seg_run (fun _ => Ok (NInt 0)) true no_coin 1 [[[4]]; [[5%nat]]] [Singly [mk_plan 2 []]] empty_store = Err IndexError.
Proof. repeat split; vm_compute; reflexivity. Qed.

(** no trials at all, and no context left by an earlier run *)
Example C102_cooperative_example :
  (match coop_run demo_pick demo_mutate demo_uuid demo_sel 0%nat 2%nat 1 (fun _ _ _ => false) (NInt 0) demo_created with
   | Some (Err e, _, _) => e = ValueError | _ => False end) /\
  (match coop_problem_run_default demo_pick demo_mutate demo_uuid demo_sel 1%nat 2%nat np_concatenate (fun _ => Ok (NInt 0)) None 1
           (fun _ _ _ => false) None demo_created with
   | Some (Err e, _, _) => e = KeyError | _ => False end) /\
  (match coop_problem_run demo_pick demo_mutate demo_uuid demo_sel 1%nat 2%nat np_concatenate (fun _ => Err (UserError 3)) None 1
           (fun _ _ _ => false) (NInt 0) demo_created with
   | Some (Err e, _, _) => e = UserError 3 | _ => False end).
Proof. repeat split; vm_compute; reflexivity. Qed.

Example C102_migration_example :
  Migration.mig_run 0%Z (fun _ => [0]) (Migration.mig_init 1 0) [idle_call] = Err ZeroDivisionError /\
  Migration.mig_run 1%Z (fun _ => []) (Migration.mig_init 1 0) [idle_call] = Err IndexError /\
  call_raises (fun e => e = IndexError) idle_call /\ indices_fit (fun _ => [0]) 1 idle_call.
Proof.
  split; [reflexivity|]. split; [reflexivity|]. split.
  - split; [|intros pop e [=]]. intros i [|x pop] e; cbn; [|discriminate]. intros [= <-]. reflexivity.
  - split; [cbn; auto|]. split; [cbn; auto|]. split; [intros j [<-|[]]; auto|].
    intros i [|y pop] x ix; cbn; [discriminate|]. intros [= <- <-]. exists 0, []. split; [reflexivity|cbn; apply Nat.lt_0_succ].
Qed.
