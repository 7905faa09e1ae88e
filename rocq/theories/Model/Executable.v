(** leap_ec/executable_rep/problems.py (TruthTableProblem, EnvironmentProblem) and
    leap_ec/executable_rep/executable.py (ArgmaxExecutable, KeyboardExecutable). *)
From Verif Require Import Model.Base.

(** ** TruthTableProblem *)

(** leap_ec/executable_rep/problems.py:197-208 _enumerate_tt *)
Fixpoint enumerate_tt (num_inputs : nat) : result (list (list Z)) :=
  match num_inputs with
  | 0 => Err AssertionError
  | 1 => Ok [[0]; [1]]%Z
  | S n => bind (enumerate_tt n) (fun tt => Ok (map (cons 0%Z) tt ++ map (cons 1%Z) tt))
  end.

Section TruthTable.
Context {O : Type}.
(** the comparison observed == expected of leap_ec/executable_rep/problems.py:192 *)
Variable out_eqb : list O -> list O -> bool.
(** the target function, the executable and the number of inputs of the latter,
    leap_ec/executable_rep/problems.py:186-191; either may raise *)
Variable function : list Z -> result (list O).
(** leap_ec/executable_rep/problems.py:191 *)
Variable executable : list Z -> result (list O).
(** leap_ec/executable_rep/problems.py:189 executable.num_inputs *)
Variable exec_inputs : nat.
(** leap_ec/executable_rep/problems.py:138 *)
Variable pad_inputs : bool.

(** leap_ec/executable_rep/problems.py:189-190 *)
Definition padded (input : list Z) : list Z :=
  if pad_inputs && (length input <? exec_inputs)
  then input ++ map (fun _ => 0%Z) (seq 0 (exec_inputs - length input)) else input.

(** leap_ec/executable_rep/problems.py:184-193 the loop *)
Fixpoint tt_score (score : Z) (inputs : list (list Z)) : result Z :=
  match inputs with
  | [] => Ok score
  | i :: rest =>
      bind (function i) (fun expected =>
      if length expected =? 0 then Err AssertionError
      else bind (executable (padded i)) (fun observed =>
           tt_score (if out_eqb observed expected then score + 1 else score)%Z rest))
  end.

(** leap_ec/executable_rep/problems.py:141-195 evaluate *)
Definition tt_evaluate (num_inputs : nat) : result Q :=
  bind (enumerate_tt num_inputs) (fun inputs =>
  bind (tt_score 0 inputs) (fun score =>
  Ok (inject_Z score / inject_Z (Z.of_nat (length inputs)))%Q)).
End TruthTable.

(** ** EnvironmentProblem *)

Section Env.
Context {W O A : Type}.
(** environment.reset(), the executable and environment.step(action), leap_ec/executable_rep/problems.py:99-106.
    [W] is the state of everything; any of them may raise.  A step gives the observation, the reward and
    the flags terminated and truncated.  Rendering (104) is left out. *)
Variable reset : W -> result (W * O).
(** leap_ec/executable_rep/problems.py:105 *)
Variable executable : W -> O -> result (W * A).
(** leap_ec/executable_rep/problems.py:106 *)
Variable step : W -> A -> result (W * (O * Q * bool * bool)).
(** leap_ec/executable_rep/problems.py:32 *)
Variable stop_on_done : bool.

(** leap_ec/executable_rep/problems.py:102-111: the steps of one run; observations and rewards appended *)
Fixpoint env_steps (n : nat) (w : W) (observation : O) : result (W * list O * list Q) :=
  match n with
  | 0 => Ok (w, [], [])
  | S n' =>
      bind (executable w observation) (fun '(w1, action) =>
      bind (step w1 action) (fun '(w2, (o, r, terminated, truncated)) =>
      if stop_on_done && (terminated || truncated) then Ok (w2, [o], [r])
      else bind (env_steps n' w2 o) (fun '(w3, os, rs) => Ok (w3, o :: os, r :: rs))))
  end.

(** leap_ec/executable_rep/problems.py:98-113: the runs *)
Fixpoint env_runs (runs steps : nat) (w : W) : result (W * list (list O) * list (list Q)) :=
  match runs with
  | 0 => Ok (w, [], [])
  | S k =>
      bind (reset w) (fun '(w1, o) =>
      bind (env_steps steps w1 o) (fun '(w2, os, rs) =>
      bind (env_runs k steps w2) (fun '(w3, oss, rss) => Ok (w3, (o :: os) :: oss, rs :: rss))))
  end.
End Env.

(** Python's sum, leap_ec/executable_rep/problems.py:54 *)
Definition py_sum (l : list Q) : Q := fold_left Qplus l 0%Q.
(** np.mean of a nonempty list, leap_ec/executable_rep/problems.py:55 *)
Definition mean_of (l : list Q) : Q := (py_sum l / inject_Z (Z.of_nat (length l)))%Q.
(** leap_ec/executable_rep/problems.py:51-55 _reward_fitness *)
Definition reward_fitness {O} (observations : list (list O)) (rewards : list (list Q)) : Q :=
  mean_of (map py_sum rewards).
(** leap_ec/executable_rep/problems.py:57-60 _survival_fitness *)
Definition survival_fitness {O} (observations : list (list O)) (rewards : list (list Q)) : Q :=
  mean_of (map (fun o => inject_Z (Z.of_nat (length o))) observations).
(** leap_ec/executable_rep/problems.py:34-39 the kinds of fitness *)
Inductive fitness_type := Reward | Survival.
(** leap_ec/executable_rep/problems.py:92-114 evaluate, with the final state; runs and steps are positive (23-24) *)
Definition env_evaluate {W O A} (reset : W -> result (W * O)) (executable : W -> O -> result (W * A))
    (step : W -> A -> result (W * (O * Q * bool * bool))) (stop_on_done : bool) (ft : fitness_type)
    (runs steps : nat) (w : W) : result (W * Q) :=
  bind (env_runs reset executable step stop_on_done runs steps w) (fun '(w', os, rs) =>
  Ok (w', match ft with Reward => reward_fitness os rs | Survival => survival_fitness os rs end)).

(** a space with a shape, or a tuple of such spaces; leap_ec/executable_rep/problems.py:63-90 *)
Inductive space := Plain (shape : list nat) | Tuple_ (shapes : list (list nat)).
(** leap_ec/executable_rep/problems.py:62-90 space_dimensions *)
Definition space_dimensions (s : space) : nat :=
  match s with
  | Plain shape => fold_left Nat.mul shape 1
  | Tuple_ shapes => fold_left Nat.add (map (fun shape => fold_left Nat.mul shape 1) shapes) 0
  end.
(** leap_ec/executable_rep/problems.py:41-49 the properties num_inputs and num_outputs: the value is computed and
    dropped (there is no return statement) *)
Definition env_num_inputs (observation_space : space) : option nat :=
  let _ := space_dimensions observation_space in None.

(** ** executables *)

(** np.argmax of a one-dimensional array without NaN, leap_ec/executable_rep/executable.py:145 *)
Fixpoint argmax_from (best : nat) (v : Q) (i : nat) (l : list Q) : nat :=
  match l with
  | [] => best
  | x :: r => if Qltb v x then argmax_from i x (S i) r else argmax_from best v (S i) r
  end.
(** leap_ec/executable_rep/executable.py:140-147 ArgmaxExecutable.__call__; np.argmax of nothing raises ValueError *)
Definition argmax_call {I} (wrapped : I -> result (list Q)) (input : I) : result nat :=
  bind (wrapped input) (fun value =>
  match value with [] => Err ValueError | x :: r => Ok (argmax_from 0 x 1 r) end).

(** leap_ec/executable_rep/executable.py:177-180 WrapperDecoder.decode *)
Definition wrapper_decode {G E F} (decode : G -> result E) (decorator : E -> result F) (genome : G) : result F :=
  bind (decode genome) decorator.

(** keyboard events, leap_ec/executable_rep/executable.py:100-109 *)
Inductive key_event := Press (key : Z) | Release (key : Z).
(** leap_ec/executable_rep/executable.py:100-109 key_press and key_release on [action] *)
Definition key_step (keymap : Z -> Z) (action : Z) (e : key_event) : Z :=
  match e with
  | Press k => keymap k
  | Release k => if (keymap k =? action)%Z then 0%Z else action
  end.
(** leap_ec/executable_rep/executable.py:98-113: the action after some events, starting from 0 *)
Definition key_action (keymap : Z -> Z) (events : list key_event) : Z := fold_left (key_step keymap) events 0%Z.
(** leap_ec/executable_rep/executable.py:86-87 the default keymap; ord('0') = 48 and ord('9') = 57 *)
Definition default_keymap (x : Z) : Z := if (48 <=? x)%Z && (x <? 57)%Z then (x - 48)%Z else 0%Z.
