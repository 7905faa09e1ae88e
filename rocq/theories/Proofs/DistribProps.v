From Coq Require Import Lia Permutation.
From Verif Require Import Model.Base Model.PyList Model.Scalar Model.Selection Model.Counters Model.Distrib
  Spec.Order Spec.Distrib Proofs.Order Proofs.PyList Proofs.ScalarSel Proofs.Distrib.

Lemma births_after G max_births pop_size count_nonviable choice outcome inserter pipeline (genomes : list G) n :
  (0 <= max_births)%Z ->
  (forall i x pop, exists pop', inserter i x pop pop_size = Ok pop') ->
  (forall i pop, length (pipeline i pop) = 1) ->
  exists st, ss_iter max_births pop_size count_nonviable choice outcome inserter pipeline n 0 (ss_init genomes) = Ok st /\
    let k := length (as_evaluated st) in
    let compensated := if count_nonviable then 0 else failures (as_evaluated st) in
    (k <= n /\ (k < n -> as_pending st = [])) /\
    bc_curr (as_births st) = Z.min max_births (Z.of_nat k - Z.of_nat compensated) /\
    bc_ctx (as_births st) = bc_curr (as_births st) /\
    Z.of_nat (length (as_submitted st)) = (bc_curr (as_births st) + Z.of_nat compensated)%Z /\
    length (as_pending st) + k = length genomes + length (as_submitted st).
Proof.
  intros Hm Hi H1.
  destruct (steady_ledger G max_births pop_size count_nonviable choice outcome inserter pipeline Hi H1 genomes n Hm)
    as (st & E & (L1 & L2 & L3 & L4 & L5) & Hk & Hd).
  exists st. split; [exact E|]. cbv zeta. unfold charged in *.
  assert (EE : (if count_nonviable then 0 else Z.of_nat (failures (as_evaluated st)))%Z =
               Z.of_nat (if count_nonviable then 0 else failures (as_evaluated st))) by (destruct count_nonviable; reflexivity).
  rewrite EE in *. split; [auto|]. split; [exact L2|]. split; [exact L3|]. split; [exact L4|]. lia.
Qed.

Lemma exact_budget G max_births pop_size count_nonviable choice outcome inserter pipeline (genomes : list G) N :
  (0 <= max_births)%Z -> genomes <> [] ->
  (forall i x pop, exists pop', inserter i x pop pop_size = Ok pop') ->
  (forall i pop, length (pipeline i pop) = 1) ->
  (count_nonviable = false -> forall i g, N <= i -> exists f, outcome i g = Ok f) ->
  (exists fuel st, ss_loop max_births pop_size count_nonviable choice outcome inserter pipeline fuel 0 (ss_init genomes) = Some (Ok st)) /\
  forall fuel st, ss_loop max_births pop_size count_nonviable choice outcome inserter pipeline fuel 0 (ss_init genomes) = Some (Ok st) ->
    let compensated := if count_nonviable then 0 else failures (as_evaluated st) in
    bc_curr (as_births st) = max_births /\ bc_ctx (as_births st) = max_births /\
    Z.of_nat (length (as_submitted st)) = (max_births + Z.of_nat compensated)%Z /\
    length (as_evaluated st) = length genomes + length (as_submitted st).
Proof.
  intros Hm Hg Hi H1 HN. split.
  - exact (steady_terminates G max_births pop_size count_nonviable choice outcome inserter pipeline Hi H1 genomes N Hm HN).
  - intros fuel st E.
    destruct (steady_final G max_births pop_size count_nonviable choice outcome inserter pipeline Hi H1 genomes fuel st Hm Hg E) as (A & B & C & D).
    unfold charged in C. cbv zeta. split; [exact A|]. split; [exact B|]. split; [|exact D]. destruct count_nonviable; exact C.
Qed.

Lemma overshoot : exists max_births pop_size (genomes : list nat) pipeline choice outcome fuel st,
  (forall i pop, length (pipeline i pop) = 2) /\
  ss_loop max_births pop_size true choice outcome (fun _ => greedy_insert true (fun _ _ => false)) pipeline fuel 0 (ss_init genomes) = Some (Ok st) /\
  (max_births < bc_curr (as_births st))%Z.
Proof.
  exists 1%Z, 2, [0], (fun _ _ => [0; 0]), (fun _ => 0), (fun _ _ => Ok (NInt 0)), 5.
  eexists. split; [reflexivity|]. split; [vm_compute; reflexivity|]. vm_compute. reflexivity.
Qed.

Lemma greedy_run G max_births pop_size count_nonviable choice outcome mx coin pipeline (genomes : list G) n :
  0 < pop_size ->
  let run n := ss_iter max_births pop_size count_nonviable choice outcome (fun i => greedy_insert mx (coin i)) pipeline n 0 (ss_init genomes) in
  exists st, run n = Ok st /\
    length (as_pop st) = Nat.min pop_size (length (as_evaluated st)) /\
    (forall y, In y (as_pop st) -> In y (as_evaluated st)) /\
    (exists st', run (S n) = Ok st' /\
      (st' = st /\ as_pending st = [] \/
       exists x, as_evaluated st' = as_evaluated st ++ [x] /\ arrival mx pop_size (as_pop st) x (as_pop st'))) /\
    (forall m st', n <= m -> run m = Ok st' -> no_worse mx (as_pop st) (as_pop st')).
Proof.
  intros Hp run.
  assert (Hi : forall i x pop, exists pop', (fun i => greedy_insert mx (coin i)) i x pop pop_size = Ok (pop' : list (dind G))).
  { intros i x pop. destruct (greedy_arrival G mx (coin i) x pop pop_size Hp) as (pop' & E & _). eauto. }
  assert (Ha : forall i x pop pop', (fun i => greedy_insert mx (coin i)) i x pop pop_size = Ok (pop' : list (dind G)) -> arrival mx pop_size pop x pop').
  { intros i x pop pop' E. destruct (greedy_arrival G mx (coin i) x pop pop_size Hp) as (pop2 & E2 & A & _). cbv beta in E. rewrite E in E2. injection E2 as <-. exact A. }
  destruct (steady_population G max_births pop_size count_nonviable choice outcome _ pipeline Hi mx Ha genomes n) as (st & E & A & B & C).
  exists st. split; [exact E|]. split; [exact A|]. split; [exact B|]. split; [exact C|].
  intros m st' Hnm E'. exact (steady_no_worse G max_births pop_size count_nonviable choice outcome _ pipeline Hi mx Ha genomes n m st st' Hnm E E').
Qed.

Lemma tournament_run G max_births pop_size count_nonviable choice outcome mx coin draw pipeline (genomes : list G) n :
  0 < pop_size ->
  let run n := ss_iter max_births pop_size count_nonviable choice outcome (fun i => tournament_insert mx (coin i) (draw i)) pipeline n 0 (ss_init genomes) in
  exists st, run n = Ok st /\
    length (as_pop st) = Nat.min pop_size (length (as_evaluated st)) /\
    (forall y, In y (as_pop st) -> In y (as_evaluated st)) /\
    (exists st', run (S n) = Ok st' /\
      (st' = st /\ as_pending st = [] \/
       exists x, as_evaluated st' = as_evaluated st ++ [x] /\ arrival mx pop_size (as_pop st) x (as_pop st'))) /\
    (forall m st', n <= m -> run m = Ok st' -> no_worse mx (as_pop st) (as_pop st')).
Proof.
  intros Hp run.
  assert (Hi : forall i x pop, exists pop', (fun i => tournament_insert mx (coin i) (draw i)) i x pop pop_size = Ok (pop' : list (dind G))).
  { intros i x pop. destruct (tournament_arrival G mx (coin i) (draw i) x pop pop_size Hp) as (pop' & E & _). eauto. }
  assert (Ha : forall i x pop pop', (fun i => tournament_insert mx (coin i) (draw i)) i x pop pop_size = Ok (pop' : list (dind G)) -> arrival mx pop_size pop x pop').
  { intros i x pop pop' E. destruct (tournament_arrival G mx (coin i) (draw i) x pop pop_size Hp) as (pop2 & E2 & A). cbv beta in E. rewrite E in E2. injection E2 as <-. exact A. }
  destruct (steady_population G max_births pop_size count_nonviable choice outcome _ pipeline Hi mx Ha genomes n) as (st & E & A & B & C).
  exists st. split; [exact E|]. split; [exact A|]. split; [exact B|]. split; [exact C|].
  intros m st' Hnm E'. exact (steady_no_worse G max_births pop_size count_nonviable choice outcome _ pipeline Hi mx Ha genomes n m st st' Hnm E E').
Qed.

Lemma greedy_slot G mx coin (x : dind G) pop pop_size pop' : 0 < pop_size -> pop_size <= length pop ->
  greedy_insert mx coin x pop pop_size = Ok pop' ->
  pop' = pop \/ exists l1 old l2, pop = l1 ++ old :: l2 /\ pop' = l1 ++ x :: l2 /\
       forall y, In y pop -> ~ better mx (si_fit (d_ind old)) (si_fit (d_ind y)).
Proof.
  intros Hp Hl E. destruct (greedy_arrival G mx coin x pop pop_size Hp) as (pop2 & E2 & _ & H).
  rewrite E in E2. injection E2 as <-. apply H, Hl.
Qed.

Lemma counter_lost_update : exists workers actions,
  NoDup workers /\ Permutation actions (sequential workers) /\ reads_first actions /\
  counter_run 0 actions <> Z.of_nat (length workers).
Proof.
  exists [0; 1], [ReadCounter 0; ReadCounter 1; WriteCounter 0; WriteCounter 1].
  split; [repeat constructor; simpl; intuition discriminate|]. split; [unfold sequential; simpl; constructor; apply perm_swap|].
  split; [|vm_compute; discriminate].
  intros l1 w l2 E. destruct l1 as [|a [|b [|c [|d l1]]]]; simpl in E; injection E; intros; subst; try discriminate; simpl; auto.
  destruct l1; discriminate.
Qed.
