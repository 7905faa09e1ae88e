(** C46, C47, C48, C54: problem wrappers, cooperative evaluation, bit-string problems, external programs. *)
From Coq Require Import Lia.
From Verif Require Import Model.Base Model.Scalar Model.Selection Model.Problems Spec.Order Spec.Problems Proofs.Problems.

(** C46, offsets: with a finite offset the wrapped problem's evaluations differ by the offset and every
    comparison of two of them comes out as before, also for infinite and NaN fitnesses. *)
Theorem C46_offset_keeps_order :
  forall P (ev : nat -> P -> result num) maximize coin offset q k l p r f g,
  num_val offset = Some (Fin q) -> ev k p = Ok f -> ev l r = Ok g ->
  exists f' g', evaluate (offset_problem ev maximize None offset) k p = Ok f' /\
    evaluate (offset_problem ev maximize None offset) l r = Ok g' /\
    worse (offset_problem ev maximize None offset) coin f' g' = worse (scalar_problem ev maximize) coin f g /\
    (better maximize f' g' <-> better maximize f g).
Proof.
  intros P ev maximize coin offset q k l p r f g Hq Hf Hg. exists (num_add f offset), (num_add g offset).
  cbn. unfold offset_evaluate. rewrite Hf, Hg. split; [reflexivity|]. split; [reflexivity|].
  split; [exact (offset_worse maximize coin f g offset q Hq)|exact (offset_better maximize f g offset q Hq)].
Qed.
Print Assumptions C46_offset_keeps_order.

(** C46, offsets with a maximize argument: that direction, and not the wrapped problem's, decides. *)
Theorem C46_offset_explicit_direction :
  forall P (ev : nat -> P -> result num) maximize m coin offset q k l p r f g,
  num_val offset = Some (Fin q) -> ev k p = Ok f -> ev l r = Ok g ->
  exists f' g', evaluate (offset_problem ev maximize (Some m) offset) k p = Ok f' /\
    evaluate (offset_problem ev maximize (Some m) offset) l r = Ok g' /\
    worse (offset_problem ev maximize (Some m) offset) coin f' g' = worse (scalar_problem ev m) coin f g /\
    (better m f' g' <-> better m f g).
Proof.
  intros P ev maximize m coin offset q k l p r f g Hq Hf Hg. exists (num_add f offset), (num_add g offset).
  cbn. unfold offset_evaluate. rewrite Hf, Hg. split; [reflexivity|]. split; [reflexivity|].
  split; [exact (offset_worse m coin f g offset q Hq)|exact (offset_better m f g offset q Hq)].
Qed.
Print Assumptions C46_offset_explicit_direction.

(** An infinite offset erases all differences. *)
Theorem C46_infinite_offset_refuted :
  exists f g offset, better true f g /\ ~ better true (num_add f offset) (num_add g offset).
Proof.
  exists (NInt 2), (NInt 1), (NFlt true PInf). split; [reflexivity|]. cbn. tauto.
Qed.
Print Assumptions C46_infinite_offset_refuted.

(** Equality of floats has a relative tolerance, so an offset can turn different fitnesses into equal
    ones (and [>] from true to false). *)
Theorem C46_offset_equality_refuted :
  exists f g offset q, num_val offset = Some (Fin q) /\ equivalent f g = false /\
    equivalent (num_add f offset) (num_add g offset) = true.
Proof.
  exists (NFlt true (Fin 1)), (NFlt true (Fin 2)), (NFlt true (Fin (10000000000 # 1))), (10000000000 # 1)%Q.
  vm_compute. auto.
Qed.
Print Assumptions C46_offset_equality_refuted.

Example C46_offset_example :
  let ev := fun (_ : nat) (p : Z) => Ok (NInt p) in
  evaluate (offset_problem ev true None (NFlt true (Fin (-7 # 2)))) 0 5%Z = Ok (NFlt true (Fin (3 # 2))) /\
  worse (offset_problem ev true None (NFlt true (Fin (-7 # 2)))) false (NFlt true (Fin (3 # 2))) (NFlt true (Fin (5 # 2))) = true /\
  worse (offset_problem ev true (Some false) (NFlt true (Fin (-7 # 2)))) false (NFlt true (Fin (3 # 2))) (NFlt true (Fin (5 # 2))) = false.
Proof. vm_compute. auto. Qed.

(** C46, averages: the fitness is the mean of n evaluations in a row. *)
Theorem C46_average_is_mean :
  forall P (ev : nat -> P -> result num) n k p fs,
  length fs = n -> (forall i f, nth_error fs i = Some f -> ev (k + i) p = Ok f) ->
  exists m, average_evaluate ev n k p = Ok m /\ mean_of fs m.
Proof. exact @average_mean. Qed.
Print Assumptions C46_average_is_mean.

Theorem C46_average_of_deterministic :
  forall P (ev : nat -> P -> result num) n k p f,
  0 < n -> (forall i, ev i p = Ok f) ->
  exists m, average_evaluate ev n k p = Ok m /\ forall mx, same_value mx m f.
Proof. exact @average_deterministic. Qed.
Print Assumptions C46_average_of_deterministic.

(** C46: a constant problem, averaged or not, gives everybody the constant, however often it was asked before. *)
Theorem C46_constant_is_flat :
  forall P c maximize n k l (p r : P), 0 < n ->
  exists f g, evaluate (average_problem (scalar_problem (constant_evaluate c) maximize) n) k p = Ok f /\
    evaluate (average_problem (scalar_problem (constant_evaluate c) maximize) n) l r = Ok g /\
    forall mx, same_value mx f c /\ same_value mx g c.
Proof. exact @constant_flat. Qed.
Print Assumptions C46_constant_is_flat.
Example C46_constant_example :
  evaluate (average_problem (scalar_problem (constant_evaluate (NInt 7)) true) 3) 4 tt = Ok (NFlt false (Fin (21 # 3))).
Proof. reflexivity. Qed.

(** C46: the averaged problem as a problem: evaluations are means of n, comparisons the wrapped problem's. *)
Theorem C46_average_problem :
  forall P (q : problem P) n,
  (forall k p fs, length fs = n -> (forall i f, nth_error fs i = Some f -> evaluate q (k + i) p = Ok f) ->
     exists m, evaluate (average_problem q n) k p = Ok m /\ mean_of fs m) /\
  (forall coin f g, worse (average_problem q n) coin f g = worse q coin f g) /\
  (forall f g, equiv (average_problem q n) f g = equiv q f g).
Proof. intros P q n. split; [intros k p fs; exact (average_mean (evaluate q) n k p fs)|split; reflexivity]. Qed.
Print Assumptions C46_average_problem.

(** C46, grouped averages: every phenome is sent n times in a row, and gets the mean of its own n
    results, whatever the wrapped evaluate_multiple does. *)
Theorem C46_grouped_average_is_mean :
  forall P (evm : list P -> result (list num)) n phenomes groups,
  0 < n -> length groups = length phenomes -> Forall (fun g => length g = n) groups ->
  evm (flat_map (fun p => repeat p n) phenomes) = Ok (concat groups) ->
  exists means, average_multiple evm n phenomes = Ok means /\ Forall2 mean_of groups means.
Proof. intros P evm. exact (average_multiple_groups evm). Qed.
Print Assumptions C46_grouped_average_is_mean.

Theorem C46_grouped_average_of_deterministic :
  forall P (ev : nat -> P -> result num) n k phenomes (score : P -> num),
  0 < n -> (forall i p, In p phenomes -> ev i p = Ok (score p)) ->
  exists means, average_multiple (evaluate_all ev k) n phenomes = Ok means /\
    Forall2 (fun p m => forall mx, same_value mx m (score p)) phenomes means.
Proof. exact @average_multiple_deterministic. Qed.
Print Assumptions C46_grouped_average_of_deterministic.

(** noise that grows with every evaluation *)
Example C46_average_example :
  let ev := fun (k : nat) (p : Z) => Ok (NInt (p + Z.of_nat k)) in
  average_multiple (evaluate_all ev 0) 2 [10; 20; 30]%Z =
    Ok [NFlt false (Fin (21 # 2)); NFlt false (Fin (45 # 2)); NFlt false (Fin (69 # 2))] /\
  average_evaluate ev 3 0 10%Z = Ok (NFlt false (Fin (33 # 3))) /\
  average_evaluate (fun _ (p : Z) => Ok (NFlt true PInf)) 3 0 10%Z = Ok (NFlt false PInf).
Proof. vm_compute. auto. Qed.

(** C46, alternation: the problems take turns of [m] steps each; evaluation and comparison use the one
    whose turn it is. *)
Theorem C46_alternating_takes_turns :
  forall P (problems : list (problem P)) m step,
  problems <> [] -> 0 < m ->
  exists q, nth_error problems (fst (turn (length problems) m step)) = Some q /\
    (forall k p, alternating_evaluate problems (inject_Z (Z.of_nat m)) step k p = evaluate q k p) /\
    (forall coin f g, alternating_worse problems (inject_Z (Z.of_nat m)) step coin f g = Ok (worse q coin f g)) /\
    (forall f g, alternating_equiv problems (inject_Z (Z.of_nat m)) step f g = Ok (equiv q f g)).
Proof.
  intros P problems m step Hp Hm. destruct (current_is_turn problems m step Hp Hm) as (q & E & Ec). exists q. split; [exact E|].
  unfold alternating_evaluate, alternating_worse, alternating_equiv. rewrite Ec. cbn. auto.
Qed.
Print Assumptions C46_alternating_takes_turns.

Example C46_alternating_example :
  let c := fun z => scalar_problem (fun _ (_ : unit) => Ok (NInt z)) true in
  map (fun step => alternating_evaluate [c 0; c 1; c 2]%Z (2 # 1) step 0 tt) (seq 0 8) =
  map (fun z => Ok (NInt z)) [0; 0; 1; 1; 2; 2; 0; 0]%Z.
Proof. vm_compute. reflexivity. Qed.

(** C47: CooperativeProblem.  Every trial scores a combination with exactly one contribution per
    subpopulation, in order, the individual in its own slot and members of the other subpopulations in
    theirs; the fitness is the mean of num_trials such scores. *)
Theorem C47_problem_evaluates_combinations :
  forall G (sel : nat -> nat -> list (cind G) -> nat -> result (cind G)) combine score num_trials x current subpops f,
  members sel -> coop_evaluate sel combine score false num_trials x current subpops = Ok f ->
  exists css fs, length css = num_trials /\ Forall (combination subpops current x) css /\
    Forall2 (fun cs v => exists g, combine (map c_genome cs) = Ok g /\ score g = Ok v) css fs /\ mean_of fs f.
Proof. intros G sel. exact (coop_problem_spec sel). Qed.
Print Assumptions C47_problem_evaluates_combinations.

(** With the default combination the trial's genome is the genomes one after the other; no
    subpopulations at all raise ValueError. *)
Theorem C47_default_combination :
  forall G (sel : nat -> nat -> list (cind G) -> nat -> result (cind G)) score n x current subpops,
  (subpops <> [] -> forall f, coop_evaluate sel np_concatenate score false n x current subpops = Ok f -> members sel ->
    exists css fs, length css = n /\ Forall (combination subpops current x) css /\
      Forall2 (fun cs v => score (flat_map c_genome cs) = Ok v) css fs /\ mean_of fs f) /\
  (forall log m, coop_evaluate sel np_concatenate score log (S m) x current [] = Err ValueError).
Proof. exact @coop_default_combination. Qed.
Print Assumptions C47_default_combination.

(** It does return, if the selectors and the wrapped problem do. *)
Theorem C47_problem_returns :
  forall G (sel : nat -> nat -> list (cind G) -> nat -> result (cind G)) combine score num_trials x current subpops,
  (forall t i pop, i <> current -> nth_error subpops i = Some pop -> exists z, sel t i pop 0 = Ok z) ->
  (forall gs, length gs = length subpops -> exists g v, combine gs = Ok g /\ score g = Ok v) ->
  exists f, coop_evaluate sel combine score false num_trials x current subpops = Ok f.
Proof. intros G sel. exact (coop_problem_returns sel). Qed.
Print Assumptions C47_problem_returns.

(** C47: CooperativeEvaluate, the operator; the combination is scored by the decoder and problem of its
    first member. *)
Theorem C47_operator_evaluates_combinations :
  forall G (sel : nat -> nat -> list (cind G) -> nat -> result (cind G)) num_trials x current subpops f,
  members sel -> coop_op sel concat_combine_score num_trials x current subpops = Ok f ->
  exists css fs, length css = num_trials /\ Forall (combination subpops current x) css /\
    Forall2 (fun cs v => exists c r, cs = c :: r /\ c_score c (concat (map c_genome cs)) = Ok v) css fs /\
    mean_of fs f /\ 0 < num_trials.
Proof. exact @coop_concat_spec. Qed.
Print Assumptions C47_operator_evaluates_combinations.

(** Trial t of the operator takes the t-th member that each selector yields; the problem makes new
    selectors for trial t and takes their first member. *)
Theorem C47_collaborators_of_each_trial :
  forall G (sel : nat -> nat -> list (cind G) -> nat -> result (cind G)) n x current subpops,
  (forall combine_score f, coop_op sel combine_score n x current subpops = Ok f ->
   exists fs, length fs = n /\ mean_of fs f /\ forall t v, nth_error fs t = Some v ->
    exists cs, length cs = length subpops /\ combine_score cs = Ok v /\ forall i c, nth_error cs i = Some c ->
      (i = current -> c = x) /\ (i <> current -> exists pop, nth_error subpops i = Some pop /\ sel 0 i pop t = Ok c)) /\
  (forall combine score f, coop_evaluate sel combine score false n x current subpops = Ok f ->
   exists fs, length fs = n /\ mean_of fs f /\ forall t v, nth_error fs t = Some v ->
    exists cs g, length cs = length subpops /\ combine (map c_genome cs) = Ok g /\ score g = Ok v /\
      forall i c, nth_error cs i = Some c ->
      (i = current -> c = x) /\ (i <> current -> exists pop, nth_error subpops i = Some pop /\ sel t i pop 0 = Ok c)).
Proof.
  intros G sel n x current subpops. split; [intros cs f; exact (coop_op_picks sel cs n x current subpops f)|].
  intros combine score f. exact (coop_problem_picks sel combine score n x current subpops f).
Qed.
Print Assumptions C47_collaborators_of_each_trial.

(** With a log stream CooperativeProblem.evaluate raises AttributeError in its first trial: the
    collaborators it logs are genomes, not individuals. *)
Theorem C47_logging_refuted :
  exists (sel : nat -> nat -> list (cind Z) -> nat -> result (cind Z)) combine score x subpops f,
  members sel /\ coop_evaluate sel combine score false 1 x 0 subpops = Ok f /\
  forall n, coop_evaluate sel combine score true (S n) x 0 subpops = Err AttributeError.
Proof.
  exists ex_sel, np_concatenate, ex_score, (ex_ind 0 [1]%Z), [[]; [ex_ind 1 [2]%Z]]. eexists.
  split; [exact ex_members|]. split; [reflexivity|]. reflexivity.
Qed.
Print Assumptions C47_logging_refuted.

(** That holds for every evaluation that would have worked without a log stream, except for those
    without any trial or subpopulation. *)
Theorem C47_logging_always_fails :
  forall G (sel : nat -> nat -> list (cind G) -> nat -> result (cind G)) combine score n x current subpops f,
  coop_evaluate sel combine score false n x current subpops = Ok f ->
  (subpops <> [] -> 0 < n -> coop_evaluate sel combine score true n x current subpops = Err AttributeError) /\
  (subpops = [] \/ n = 0 -> coop_evaluate sel combine score true n x current subpops = Ok f).
Proof. exact @coop_logging. Qed.
Print Assumptions C47_logging_always_fails.

(** Three subpopulations, the middle one current; collaborators by naive cyclic selection.  The operator
    goes round them; the problem makes new selectors for every trial and gets the first ones again. *)
Example C47_example :
  members ex_sel /\
  let subpops := [[ex_ind 0 [1]; ex_ind 1 [2]]; [ex_ind 2 [50]]; [ex_ind 3 [300]; ex_ind 4 [400]; ex_ind 5 [500]]]%Z in
  coop_op ex_sel concat_combine_score 2 (ex_ind 9 [10; 10]%Z) 1 subpops = Ok (NFlt false (Fin (743 # 2))) /\
  coop_evaluate ex_sel np_concatenate ex_score false 2 (ex_ind 9 [10; 10]%Z) 1 subpops = Ok (NFlt false (Fin (642 # 2))).
Proof. split; [exact ex_members|]. vm_compute. auto. Qed.

(** C48: MaxOnes counts the positions that agree with the target (all ones by default). *)
Theorem C48_max_ones :
  forall target l, match target with Some t => length t = length l | None => True end ->
  exists n, max_ones target (BArr l) = Ok (Z.of_nat n) /\ n = agreements l (target_of target l) /\
    n <= length l /\ (n = length l <-> l = target_of target l).
Proof.
  intros target l H. destruct (max_ones_spec target l H) as (E & H1 & H2). exists (agreements l (target_of target l)). auto.
Qed.
Print Assumptions C48_max_ones.

(** C48: LeadingOnes is the length of the longest prefix that agrees with the target. *)
Theorem C48_leading_ones :
  forall target l, l <> [] -> match target with Some t => length t = length l | None => True end ->
  exists n, leading_ones target (BArr l) = Ok (Z.of_nat n) /\ common_prefix l (target_of target l) n /\
    n <= length l /\ (n = length l <-> l = target_of target l).
Proof.
  intros target l Hl H. destruct (leading_ones_spec target l Hl H) as (n & E & Hp). exists n. split; [exact E|]. split; [exact Hp|].
  split; [apply Hp|]. apply common_prefix_full; [|exact Hp]. symmetry. apply matches_target, H.
Qed.
Print Assumptions C48_leading_ones.

(** C48: the trap is largest exactly at all ones; from any other string, replacing a one improves it. *)
Theorem C48_deceptive_trap :
  forall l, l <> [] ->
  (deceptive_trap l = Z.of_nat (length l) <-> l = repeat 1%Z (length l)) /\
  (0 <= deceptive_trap l <= Z.of_nat (length l))%Z /\
  (l <> repeat 1%Z (length l) ->
   deceptive_trap l = (Z.of_nat (length l) - Z.of_nat (ones l) - 1)%Z /\
   forall a b x, l = a ++ 1%Z :: b -> x <> 1%Z -> deceptive_trap (a ++ x :: b) = (deceptive_trap l + 1)%Z).
Proof. exact trap_all. Qed.
Print Assumptions C48_deceptive_trap.

(** C48: TwoMax is the larger of the number of ones and the number of zeros. *)
Theorem C48_two_max :
  forall l, bits l ->
  two_max l = Z.of_nat (Nat.max (ones l) (length l - ones l)) /\
  (two_max l <= Z.of_nat (length l))%Z /\
  (two_max l = Z.of_nat (length l) <-> l = repeat 1%Z (length l) \/ l = repeat 0%Z (length l)) /\
  two_max (complement l) = two_max l.
Proof.
  intros l H. split; [exact (two_max_spec l)|]. destruct (two_max_optimum l H) as (_ & H1 & H2). split; [exact H1|]. split; [exact H2|].
  exact (two_max_complement l H).
Qed.
Print Assumptions C48_two_max.

(** C48: ImageProblem counts the pixels that agree with the image. *)
Theorem C48_image :
  forall img l, length l = length img ->
  exists n, image_problem img l = Ok (Z.of_nat n) /\ n = agreements l img /\ n <= length img /\ (n = length img <-> l = img).
Proof.
  intros img l H. destruct (image_spec img l H) as (E & H1 & H2). exists (agreements l img). auto.
Qed.
Print Assumptions C48_image.

(** Empty strings: LeadingOnes raises StopIteration; a target of another length gives NameError, not the
    intended AssertionError. *)
Theorem C48_leading_ones_empty_refuted : leading_ones None (BArr []) = Err StopIteration.
Proof. reflexivity. Qed.
Print Assumptions C48_leading_ones_empty_refuted.
Theorem C48_wrong_length_refuted : exists t l, length t <> length l /\ max_ones (Some t) (BArr l) = Err NameError.
Proof. exists [1%Z], []. split; [discriminate|reflexivity]. Qed.
Print Assumptions C48_wrong_length_refuted.

Example C48_example :
  let l := [1; 1; 0; 1]%Z in
  bits l /\ l <> [] /\
  max_ones None (BArr l) = Ok 3%Z /\ max_ones (Some [0; 1; 0; 0]%Z) (BArr l) = Ok 2%Z /\
  leading_ones None (BArr l) = Ok 2%Z /\ leading_ones (Some [0; 1; 0; 0]%Z) (BArr l) = Ok 0%Z /\
  deceptive_trap l = 0%Z /\ deceptive_trap [1; 1; 1; 1]%Z = 4%Z /\ deceptive_trap [0; 0; 0; 0]%Z = 3%Z /\
  two_max l = 3%Z /\ two_max (complement l) = 3%Z /\ two_max [0; 0; 0]%Z = 3%Z /\
  image_problem [1; 0; 0; 1]%Z l = Ok 3%Z.
Proof. split; [repeat (constructor; [auto|]); constructor|]. split; [discriminate|]. vm_compute. auto 20. Qed.

(** C54: an external evaluation returns values exactly when the program succeeds and prints as many
    lines, each a number, as there are phenomes; they are returned in order.  Text after the last
    newline is ignored. *)
Theorem C54_external_values :
  forall X (show : X -> list nat) run parse phenomes fs,
  external_multiple show run parse phenomes = Ok fs <->
  exists lines rest, run (process_input show phenomes) = (0%Z, concat (map (fun l => l ++ [10]) lines) ++ rest) /\
    ~ In 10 rest /\ Forall (fun l => ~ In 10 l) lines /\
    Forall2 (fun l f => parse l = Some f) lines fs /\ length lines = length phenomes.
Proof. intros X show run parse. exact (external_spec show run parse). Qed.
Print Assumptions C54_external_values.

(** C54: the program's input has one line per phenome, in order, with its elements separated by commas. *)
Theorem C54_external_input :
  forall X (show : X -> list nat) phenomes,
  phenomes <> [] -> (forall x, ~ In 10 (show x) /\ ~ In 44 (show x)) ->
  exists lines, split 10 (process_input show phenomes) = lines /\
    Forall2 (fun p l => p <> [] -> split 44 l = map show p) phenomes lines.
Proof. exact @external_input. Qed.
Print Assumptions C54_external_input.

(** C54: evaluating one phenome. *)
Theorem C54_external_one :
  forall X (show : X -> list nat) run parse phenome f,
  external_evaluate show run parse phenome = Ok f <-> external_multiple show run parse [phenome] = Ok [f].
Proof. intros X show run parse. exact (external_one show run parse). Qed.
Print Assumptions C54_external_one.

(** digits only; the program prints the first element of every line *)
Example C54_example :
  let show := fun d : nat => [48 + d] in
  let run := fun s => (0%Z, concat (map (fun l => firstn 1 l ++ [10]) (split 10 s))) in
  let parse := fun l => match l with [d] => Some (NInt (Z.of_nat (d - 48))) | _ => None end in
  process_input show [[1; 2]; [7; 8]] = [49; 44; 50; 10; 55; 44; 56] /\
  external_multiple show run parse [[1; 2]; [7; 8]] = Ok [NInt 1; NInt 7] /\
  external_multiple show (fun s => (0%Z, [49])) parse [[1; 2]] = Err RuntimeError.
Proof. vm_compute. auto. Qed.
