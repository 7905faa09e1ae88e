(** C18 and C51 (and the pipeline part of C07): lazily pulled operator pipelines. *)
From Verif Require Import Model.Base Model.Heap Model.Pipeline Spec.Heap Proofs.Pipeline.

(** C18. *)
Theorem C18_pool_size_and_demand :
  forall G P F (nan : F) decoder_of problem_of stack n m (w : world G P F) out sts w1 out2 sts2 w2,
  pipeline_shape stack ->
  pool nan decoder_of problem_of n stack (start stack) w = Ok (out, sts, w1) ->
  pool nan decoder_of problem_of m stack sts w1 = Ok (out2, sts2, w2) ->
  length out = n /\ map s_done sts = demand stack n /\
  length out2 = m /\ map s_done sts2 = demand stack (n + m).
Proof. exact @pool_demand. Qed.
Print Assumptions C18_pool_size_and_demand.

Theorem C18_pool_succeeds :
  forall G P F (nan : F) decoder_of problem_of stack n (w : world G P F),
  pipeline_shape stack -> Forall (never_fails decoder_of problem_of) stack ->
  (forall l items, stack = l ++ [OpIter items] -> source_demand stack n <= length items) ->
  exists out sts w', pool nan decoder_of problem_of n stack (start stack) w = Ok (out, sts, w') /\ length out = n.
Proof. exact @pool_total. Qed.
Print Assumptions C18_pool_succeeds.

(** An exhausted source ends the pool with StopIteration when every operator passes the end of the stream
    on, and with RuntimeError (PEP 479) otherwise. *)
Theorem C18_short_source_raises :
  forall G P F (nan : F) decoder_of problem_of l items n (w : world G P F),
  let stack := l ++ [OpIter items] in
  pipeline_shape stack -> Forall (never_fails decoder_of problem_of) stack ->
  length items < source_demand stack n ->
  (Forall quiet l -> pool nan decoder_of problem_of n stack (start stack) w = Err StopIteration) /\
  (~ Forall quiet l -> pool nan decoder_of problem_of n stack (start stack) w = Err RuntimeError).
Proof. exact @pool_runs_dry_exactly. Qed.
Print Assumptions C18_short_source_raises.

Theorem C18_pool_in_two_goes :
  forall G P F (nan : F) decoder_of problem_of n m stack sts (w : world G P F),
  pool nan decoder_of problem_of (n + m) stack sts w =
  match pool nan decoder_of problem_of n stack sts w with
  | Err e => Err e
  | Ok (a, sts1, w1) =>
      match pool nan decoder_of problem_of m stack sts1 w1 with
      | Err e => Err e
      | Ok (b, sts2, w2) => Ok (a ++ b, sts2, w2)
      end
  end.
Proof. exact @pool_app. Qed.
Print Assumptions C18_pool_in_two_goes.

Definition herd : world nat nat nat :=
  mk_world (fun n => mk_indiv n 0 0 (Some n) None (n + 20) [] false None None) (fun a => [a; a + 10]) 3 3 30.
Definition none_decoder (_ : nat) : option (list nat -> result nat) := None.
Definition adder (_ : nat) (v : phen_value nat nat) : result nat :=
  match v with VArr g => Ok (fold_left Nat.add g 0) | VVal p => Ok p end.
(** select, clone, mutate, cross over, evaluate *)
Definition demo_stack (source : op nat) : list (op nat) :=
  [OpEval;
   OpXover (fun _ => false)
     (fun _ a b => match a, b with x :: a', y :: b' => Ok (y :: a', x :: b') | _, _ => Ok (a, b) end) false;
   OpMutate (fun _ g => Ok (map (Nat.add 100) g, None)) true; OpClone; source].
Definition demo_select : op nat := OpSelect [2; 0; 1] (fun k => k mod 3).

Example C18_example :
  pipeline_shape (demo_stack demo_select) /\
  Forall (never_fails none_decoder adder) (demo_stack demo_select) /\
  match pool 0 none_decoder adder 3 (demo_stack demo_select) (start (demo_stack demo_select)) herd with
  | Ok (out, sts, w) => out = [3; 4; 5] /\ map s_done sts = [3; 3; 4; 4; 4] /\ source_demand (demo_stack demo_select) 3 = 4
                        /\ map (genes w) out = [[100; 112]; [102; 110]; [102; 111]]
  | Err _ => False
  end.
Proof.
  split; [cbn; repeat split|]. split.
  - constructor; [|constructor; [|constructor; [|constructor; [|constructor; [|constructor]]]]].
    + intros d p g. eexists. reflexivity.
    + intros k a b. destruct a; [|destruct b]; eexists; reflexivity.
    + intros k g. eexists. reflexivity.
    + exact I.
    + intros k. apply (PeanoNat.Nat.mod_upper_bound k 3). discriminate.
  - vm_compute. repeat split.
Qed.

(** three items are not enough for three individuals behind a crossover, but enough without *)
Example C18_example_dry :
  let stack := demo_stack (OpIter [0; 1; 2]) in
  pool 0 none_decoder adder 3 stack (start stack) herd = Err RuntimeError /\
  pool 0 none_decoder adder 4 [OpIter [0; 1; 2]] (start [OpIter (G:=nat) [0; 1; 2]]) herd = Err StopIteration /\
  length [0; 1; 2] < source_demand stack 3.
Proof. vm_compute. repeat split; repeat constructor. Qed.

(** C51. *)
Theorem C51_parents_untouched :
  forall G P F (nan : F) decoder_of problem_of stack n m (w : world G P F) out sts w1 out2 sts2 w2,
  breeding (w_nind w) stack ->
  pool nan decoder_of problem_of n stack (start stack) w = Ok (out, sts, w1) ->
  pool nan decoder_of problem_of m stack sts w1 = Ok (out2, sts2, w2) ->
  untouched w w2 /\ fresh_and_separate w w2 (out ++ out2) /\
  (forall i, In i out -> w_ind w2 i = w_ind w1 i /\ genes w2 i = genes w1 i).
Proof. exact @pool_isolated. Qed.
Print Assumptions C51_parents_untouched.

Example C51_example :
  breeding (w_nind herd) (demo_stack demo_select) /\
  match pool 0 none_decoder adder 3 (demo_stack demo_select) (start (demo_stack demo_select)) herd with
  | Ok (out, sts, w1) =>
      match pool 0 none_decoder adder 2 (demo_stack demo_select) sts w1 with
      | Ok (out2, _, w2) => map (genes w2) [0; 1; 2] = [[0; 10]; [1; 11]; [2; 12]] /\ out ++ out2 = [3; 4; 5; 6; 7]
      | Err _ => False
      end
  | Err _ => False
  end.
Proof. split; [cbn; intros i Hi; repeat (destruct Hi as [<-|Hi]; [repeat constructor|]); destruct Hi|]. vm_compute. repeat split. Qed.

(** C07 for pipelines that end in ops.evaluate. *)
Theorem C07_pipeline_offspring_carry_their_own_score :
  forall G P F (nan : F) decoder_of problem_of up n (w : world G P F) out sts w',
  breeding (w_nind w) (OpEval :: up) ->
  pool nan decoder_of problem_of n (OpEval :: up) (start (OpEval :: up)) w = Ok (out, sts, w') ->
  forall i, In i out ->
    i_fitness (w_ind w' i) =
    Some (outcome nan (score (decoder_of (i_decoder (w_ind w' i))) (problem_of (i_problem (w_ind w' i))) (genes w' i))).
Proof. exact @pool_scores. Qed.
Print Assumptions C07_pipeline_offspring_carry_their_own_score.

Example C07_pipeline_example :
  match pool 0 none_decoder adder 3 (demo_stack demo_select) (start (demo_stack demo_select)) herd with
  | Ok (out, _, w) => map (fun i => i_fitness (w_ind w i)) out = [Some 212; Some 212; Some 213]
  | Err _ => False
  end.
Proof. vm_compute. reflexivity. Qed.
