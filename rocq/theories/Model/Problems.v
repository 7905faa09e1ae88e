(** Problem wrappers (leap_ec/problem.py), cooperative evaluation (leap_ec/problem.py, leap_ec/ops.py) and the
    bit-string benchmarks (leap_ec/binary_rep/problems.py).
    Floats are exact; sums and means do not round or overflow. *)
From Coq Require Import Qround.
From Verif Require Import Model.Base Model.Scalar.

(** ** arithmetic on numbers *)
(** the sums of leap_ec/problem.py:290-303, 342-371 *)
Definition ext_add (a b : ext) : option ext :=
  match a, b with
  | Fin x, Fin y => Some (Fin (x + y)%Q)
  | PInf, MInf | MInf, PInf => None
  | PInf, _ | _, PInf => Some PInf
  | MInf, _ | _, MInf => Some MInf
  end.
(** Python's + : int + int is an int, float + float a float, anything with a numpy float a numpy float;
    inf - inf is NaN *)
(** leap_ec/problem.py:290-303 *)
Definition num_add (a b : num) : num :=
  match a, b with
  | NNan, _ | _, NNan => NNan
  | NInt x, NInt y => NInt (x + y)
  | NInt x, NFlt p e => match ext_add (Fin (inject_Z x)) e with Some s => NFlt p s | None => NNan end
  | NFlt p e, NInt y => match ext_add e (Fin (inject_Z y)) with Some s => NFlt p s | None => NNan end
  | NFlt p e, NFlt q f => match ext_add e f with Some s => NFlt (p && q) s | None => NNan end
  end.

(** np.mean (and statistics.mean, leap_ec/ops.py:1407, up to the type of the result): the sum divided by the
    number of values *)
Definition ext_sum (l : list num) : option ext :=
  fold_left (fun acc x => match acc, num_val x with Some a, Some b => ext_add a b | _, _ => None end) l (Some (Fin 0%Q)).
(** leap_ec/ops.py:1407, continued *)
Definition np_mean (l : list num) : num :=
  match ext_sum l with
  | None => NNan
  | Some (Fin s) => match l with [] => NNan | _ => NFlt false (Fin (s / inject_Z (Z.of_nat (length l)))%Q) end
  | Some e => NFlt false e
  end.

Section Wrappers.
Context {P : Type}.

(** A problem: [evaluate] may depend on the number of evaluations made before (noise); the rest is
    leap_ec/problem.py:84-86, 88-120, 122-139. *)
Record problem := mk_problem {
  evaluate : nat -> P -> result num;
  worse : bool -> num -> num -> bool;   (* first argument: the coin *)
  equiv : num -> num -> bool }.
(** the interface of leap_ec/problem.py:84-86, 88-120, 122-139 *)
Definition scalar_problem (ev : nat -> P -> result num) (maximize : bool) : problem :=
  mk_problem ev (worse_than maximize) equivalent.

(** leap_ec/problem.py:58-64 the default evaluate_multiple; [k]: evaluations made before *)
Fixpoint evaluate_all (ev : nat -> P -> result num) (k : nat) (l : list P) : result (list num) :=
  match l with
  | [] => Ok []
  | p :: r => bind (ev k p) (fun f => bind (evaluate_all ev (S k) r) (fun fs => Ok (f :: fs)))
  end.

(** leap_ec/problem.py:190-204 ConstantProblem.evaluate *)
Definition constant_evaluate (c : num) : nat -> P -> result num := fun _ _ => Ok c.

(** leap_ec/problem.py:277-288, 290-303 FitnessOffsetProblem of a scalar problem ([flip]: the maximize argument, None:
    that of the wrapped problem) *)
Definition offset_evaluate (ev : nat -> P -> result num) (offset : num) (k : nat) (p : P) : result num :=
  bind (ev k p) (fun f => Ok (num_add f offset)).
(** leap_ec/problem.py:277-288, continued *)
Definition offset_problem (ev : nat -> P -> result num) (maximize : bool) (flip : option bool) (offset : num) : problem :=
  scalar_problem (offset_evaluate ev offset) (match flip with Some m => m | None => maximize end).

(** leap_ec/problem.py:342-345 AverageFitnessProblem.evaluate *)
Definition average_evaluate (ev : nat -> P -> result num) (n k : nat) (p : P) : result num :=
  bind (evaluate_all ev k (repeat p n)) (fun fs => Ok (np_mean fs)).

(** leap_ec/problem.py:353-359 mean_by_chunk; n > 0 (line 337), so every round shortens the list; [fuel] is
    its length *)
Fixpoint mean_by_chunk (n fuel : nat) (l : list num) : list num :=
  match fuel, l with
  | _, [] => []
  | 0, _ => []
  | S f, _ => np_mean (firstn n l) :: mean_by_chunk n f (skipn n l)
  end.
(** leap_ec/problem.py:347-371 AverageFitnessProblem.evaluate_multiple; [evm]: the wrapped problem's evaluate_multiple, which returns a list *)
Definition average_multiple (evm : list P -> result (list num)) (n : nat) (phenomes : list P) : result (list num) :=
  bind (evm (flat_map (fun p => repeat p n) phenomes)) (fun fs =>
  let means := mean_by_chunk n (length fs) fs in
  if length means =? length phenomes then Ok means else Err AssertionError).
(** leap_ec/problem.py:373-377 *)
Definition average_problem (q : problem) (n : nat) : problem := mk_problem (average_evaluate (evaluate q) n) (worse q) (equiv q).

(** leap_ec/problem.py:565-572 AlternatingProblem.get_current_problem, of an object whose constructor
    (leap_ec/problem.py:556-563) did not raise; [step]: context['leap']['generation'], a non-negative int;
    [modulo]: any positive number.  step / modulo is a float division, exact here. *)
Definition current_problem (problems : list problem) (modulo : Q) (step : nat) : result problem :=
  match nth_error problems (Z.to_nat (Qfloor (inject_Z (Z.of_nat step) / modulo) mod Z.of_nat (length problems))) with
  | Some q => Ok q
  | None => Err IndexError
  end.
(** leap_ec/problem.py:574-575 evaluate *)
Definition alternating_evaluate (problems : list problem) (modulo : Q) (step k : nat) (p : P) : result num :=
  bind (current_problem problems modulo step) (fun q => evaluate q k p).
(** leap_ec/problem.py:577-579 worse_than *)
Definition alternating_worse (problems : list problem) (modulo : Q) (step : nat) (coin : bool) (f g : num) : result bool :=
  bind (current_problem problems modulo step) (fun q => Ok (worse q coin f g)).
(** leap_ec/problem.py:581-583 equivalent *)
Definition alternating_equiv (problems : list problem) (modulo : Q) (step : nat) (f g : num) : result bool :=
  bind (current_problem problems modulo step) (fun q => Ok (equiv q f g)).
End Wrappers.
Arguments problem : clear implicits.

(** ** leap_ec/problem.py:213-258 ExternalProcessProblem.  Bytes are numbers, 10 is the newline, 44 the comma;
    [show]: str() of an element; [run]: the external program, from its stdin to return code and stdout;
    [parse]: float() of a line, None for ValueError. *)
Section External.
Context {X : Type}.
Variable show : X -> list nat.
Variable run : list nat -> Z * list nat.
Variable parse : list nat -> option num.

(** sep.join(parts) *)
(** leap_ec/problem.py:231-258 *)
Definition join (sep : nat) (parts : list (list nat)) : list nat :=
  match parts with
  | [] => []
  | p :: r => p ++ flat_map (fun q => sep :: q) r
  end.
(** bytes.split(sep): at least one part *)
(** leap_ec/problem.py:231-258 *)
Fixpoint split (sep : nat) (s : list nat) : list (list nat) :=
  match s with
  | [] => [[]]
  | c :: r => if c =? sep then [] :: split sep r
              else match split sep r with [] => [[c]] | p :: ps => (c :: p) :: ps end
  end.
(** leap_ec/problem.py:231-258 *)
Fixpoint parse_all (lines : list (list nat)) : result (list num) :=
  match lines with
  | [] => Ok []
  | l :: r => match parse l with
              | None => Err ValueError
              | Some f => bind (parse_all r) (fun fs => Ok (f :: fs))
              end
  end.
(** leap_ec/problem.py:231-258 *)
Definition process_input (phenomes : list (list X)) : list nat :=
  join 10 (map (fun p => join 44 (map show p)) phenomes).
(** leap_ec/problem.py:231-258 *)
Definition external_multiple (phenomes : list (list X)) : result (list num) :=
  let '(code, out) := run (process_input phenomes) in
  if negb (code =? 0)%Z then Err RuntimeError else
  bind (parse_all (removelast (split 10 out))) (fun fs =>
  if length fs =? length phenomes then Ok fs else Err RuntimeError).
(** leap_ec/problem.py:226-229 *)
Definition external_evaluate (phenome : list X) : result num :=
  bind (external_multiple [phenome]) (fun fs => match fs with [f] => Ok f | _ => Err AssertionError end).
End External.

(** ** cooperative coevolution *)
Section Cooperative.
Context {G : Type}.
(** an individual with its genome and its own decoder and problem: [c_score] is what decoding a genome
    and evaluating it gives *)
(** the individuals of leap_ec/problem.py:502-524 *)
Record cind := mk_cind { c_id : nat; c_genome : list G; c_score : list G -> result num }.

(** [sel t i pop k]: what the k-th next() gives on the selector that is made from subpopulation number
    i, [pop], in the t-th round of making selectors *)
Variable sel : nat -> nat -> list cind -> nat -> result cind.

(** leap_ec/problem.py:502-524 and leap_ec/ops.py:1412-1428 _choose_collaborators: one round over the subpopulations *)
Fixpoint choose (current_ind : cind) (current i : nat) (subpops : list (list cind)) (pick : nat -> list cind -> result cind)
  : result (list cind) :=
  match subpops with
  | [] => Ok []
  | pop :: r =>
      bind (if i =? current then Ok current_ind else pick i pop) (fun x =>
      bind (choose current_ind current (S i) r pick) (fun xs => Ok (x :: xs)))
  end.

(** np.concatenate of at least one array *)
(** leap_ec/problem.py:383-391 *)
Definition np_concatenate (gs : list (list G)) : result (list G) :=
  match gs with [] => Err ValueError | _ => Ok (concat gs) end.

(** leap_ec/problem.py:461-492 *)
Fixpoint trials (n t : nat) (one : nat -> result num) : result (list num) :=
  match n with
  | 0 => Ok []
  | S m => bind (one t) (fun f => bind (trials m (S t) one) (fun fs => Ok (f :: fs)))
  end.

(** leap_ec/problem.py:461-492 CooperativeProblem.evaluate: selectors are made anew in every trial; [combine]
    and [score] (combined decoder and wrapped problem) are constructor arguments.  _choose_collaborators
    returns genomes, and _log_trial (lines 526-537), called if there is a log stream, asks them for
    .genome: AttributeError. *)
Definition coop_trial (combine : list (list G) -> result (list G)) (score : list G -> result num) (log : bool)
    (x : cind) (current : nat) (subpops : list (list cind)) (t : nat) : result num :=
  bind (choose x current 0 subpops (fun i pop => sel t i pop 0)) (fun cs =>
  bind (combine (map c_genome cs)) (fun g =>
  bind (score g) (fun f =>
  if log && negb (length cs =? 0) then Err AttributeError else Ok f))).
(** leap_ec/problem.py:461-492, continued *)
Definition coop_evaluate combine score log num_trials x current subpops : result num :=
  bind (trials num_trials 0 (coop_trial combine score log x current subpops)) (fun fs => Ok (np_mean fs)).

(** leap_ec/ops.py:1376-1409 CooperativeEvaluate.__call__ on one individual: selectors are made once; the
    default combination (leap_ec/ops.py:1324-1334) clones the first collaborator, so its decoder and problem
    are used.  Returns the fitness that is assigned to the individual; statistics.mean of no values
    raises (a ValueError).  Logging is left out: it asks individuals, which have what it needs. *)
Definition concat_combine_score (cs : list cind) : result num :=
  match cs with
  | [] => Err IndexError
  | c :: _ => c_score c (concat (map c_genome cs))
  end.
(** leap_ec/ops.py:1376-1409, continued *)
Definition coop_op_trial (combine_score : list cind -> result num) (x : cind) (current : nat) (subpops : list (list cind)) (t : nat)
  : result num :=
  bind (choose x current 0 subpops (fun i pop => sel 0 i pop t)) combine_score.
(** leap_ec/ops.py:1376-1409, continued *)
Definition coop_op combine_score num_trials x current subpops : result num :=
  bind (trials num_trials 0 (coop_op_trial combine_score x current subpops)) (fun fs =>
  match fs with [] => Err ValueError | _ => Ok (np_mean fs) end).
End Cooperative.
Arguments cind : clear implicits.

(** ** leap_ec/binary_rep/problems.py.  A phenome is a numpy array of integers or something else. *)
(** leap_ec/binary_rep/problems.py:53-61 *)
Inductive bphen := BArr (l : list Z) | BOther.
(** leap_ec/binary_rep/problems.py:53-61 *)
Definition count_true (l : list bool) : Z := Z.of_nat (length (filter (fun b => b) l)).
(** elementwise == *)
(** leap_ec/binary_rep/problems.py:53-61 *)
Fixpoint zip_eq (a b : list Z) : list bool :=
  match a, b with
  | x :: a', y :: b' => (x =? y)%Z :: zip_eq a' b'
  | _, _ => []
  end.
(** the positions that count: leap_ec/binary_rep/problems.py:53-61, 104-112; the message of the failing assertion reads
    the undefined name [individual]: NameError *)
Definition matches (target : option (list Z)) (phenome : bphen) : result (list bool) :=
  match phenome with
  | BOther => Err ValueError
  | BArr l =>
      match target with
      | Some t => if length l =? length t then Ok (zip_eq l t) else Err NameError
      | None => Ok (map (fun x => (x =? 1)%Z) l)
      end
  end.
(** leap_ec/binary_rep/problems.py:35-61 MaxOnes.evaluate *)
Definition max_ones (target : option (list Z)) (phenome : bphen) : result Z :=
  bind (matches target phenome) (fun m => Ok (count_true m)).
(** itertools.groupby: the first group *)
(** leap_ec/binary_rep/problems.py:114-116 *)
Fixpoint take_same (b : bool) (l : list bool) : list bool :=
  match l with
  | x :: r => if Bool.eqb x b then x :: take_same b r else []
  | [] => []
  end.
(** leap_ec/binary_rep/problems.py:88-116 LeadingOnes.evaluate *)
Definition leading_ones (target : option (list Z)) (phenome : bphen) : result Z :=
  bind (matches target phenome) (fun m =>
  match m with
  | [] => Err StopIteration
  | b :: _ => Ok (count_true (take_same b m))
  end).
(** leap_ec/binary_rep/problems.py:132-157 DeceptiveTrap.evaluate on an array *)
Definition deceptive_trap (l : list Z) : Z :=
  let dimensions := Z.of_nat (length l) in
  let ones := count_true (map (fun x => (x =? 1)%Z) l) in
  if (ones =? dimensions)%Z then dimensions else (dimensions - ones - 1)%Z.
(** leap_ec/binary_rep/problems.py:173-191 TwoMax.evaluate on an array: int() truncates *)
Definition Qtrunc (q : Q) : Z := Z.quot (Qnum q) (Zpos (Qden q)).
(** leap_ec/binary_rep/problems.py:173-191, continued *)
Definition two_max (l : list Z) : Z :=
  let dimensions := Z.of_nat (length l) in
  let ones := count_true (map (fun x => (x =? 1)%Z) l) in
  Qtrunc (Qabs (inject_Z dimensions / 2 - inject_Z ones) + inject_Z dimensions / 2)%Q.
(** leap_ec/binary_rep/problems.py:214-219 ImageProblem.evaluate; [img]: the flattened black-and-white image *)
Fixpoint zip_xor (a b : list Z) : list Z :=
  match a, b with
  | x :: a', y :: b' => Z.lxor x y :: zip_xor a' b'
  | _, _ => []
  end.
(** leap_ec/binary_rep/problems.py:214-219, continued *)
Definition image_problem (img l : list Z) : result Z :=
  if length l =? length img then Ok (count_true (map (fun x => (x =? 0)%Z) (zip_xor l img))) else Err AssertionError.
