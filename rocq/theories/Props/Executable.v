(** Properties C66-C68: executable phenomes *)
From Verif Require Import Model.Base Model.Executable Spec.Executable Proofs.Executable.

(** ** C66: the truth-table problem *)

(** the table has every input vector exactly once *)
Theorem C66_table (n : nat) : 0 < n ->
  exists table, enumerate_tt n = Ok table /\ complete_table n table /\ length table = 2 ^ n.
Proof. exact (table_spec n). Qed.
Print Assumptions C66_table.
Example C66_table_ex : enumerate_tt 2 = Ok [[0;0]; [0;1]; [1;0]; [1;1]]%Z.
Proof. reflexivity. Qed.

(** the fitness is the fraction of the input vectors on which the executable gives the target's output; it is
    1 exactly when they agree on all; and a fitness is given only if nothing raises and no target output is empty *)
Theorem C66_fitness {O} (out_eqb : list O -> list O -> bool) (function executable : list Z -> result (list O))
  (exec_inputs : nat) (pad : bool) (n : nat) : 0 < n ->
  let good i := exists e o, function i = Ok e /\ e <> [] /\ executable (filled pad exec_inputs i) = Ok o in
  let agree i := match function i, executable (filled pad exec_inputs i) with
                 | Ok e, Ok o => out_eqb o e | _, _ => false end in
  exists table, complete_table n table /\ length table = 2 ^ n /\
  ((forall i, bit_vector n i -> good i) ->
     exists q, tt_evaluate out_eqb function executable exec_inputs pad n = Ok q /\
       (q == inject_Z (Z.of_nat (length (filter agree table))) / inject_Z (Z.of_nat (2 ^ n)))%Q /\
       (0 <= q <= 1)%Q /\ ((q == 1)%Q <-> forall i, bit_vector n i -> agree i = true)) /\
  (forall q, tt_evaluate out_eqb function executable exec_inputs pad n = Ok q -> forall i, bit_vector n i -> good i).
Proof. exact (tt_evaluate_spec out_eqb function executable exec_inputs pad n). Qed.
Print Assumptions C66_fitness.
(** xor against or: three of four; the executable wants three inputs and is padded *)
Example C66_fitness_ex :
  let eqb a b := match a, b with [x], [y] => Z.eqb x y | _, _ => false end in
  tt_evaluate eqb (fun i => match i with [a; b] => Ok [Z.lxor a b] | _ => Err ValueError end)
    (fun i => match i with [a; b; c] => Ok [Z.lor (Z.lor a b) c] | _ => Err ValueError end) 3 true 2 = Ok (inject_Z 3 / inject_Z 4)%Q.
Proof. reflexivity. Qed.

(** ** C67: the environment problem *)

(** whatever the environment and the agent do: the fitness comes from [runs] episodes, each started by a reset, each
    following the agent and the environment step by step, each of the allowed length; it is the mean
    reward collected, or one more than the mean number of steps taken *)
Theorem C67_episodes {W O A} (reset : W -> result (W * O)) (executable : W -> O -> result (W * A))
  (step : W -> A -> result (W * (O * Q * bool * bool))) (stop : bool) (ft : fitness_type) (runs steps : nat) (w w' : W) (q : Q) :
  0 < runs -> 0 < steps -> env_evaluate reset executable step stop ft runs steps w = Ok (w', q) ->
  exists rs, run_sequence executable step reset stop steps w rs w' /\ length rs = runs /\
    Forall (fun run => snd run <> []) rs /\
    match ft with
    | Reward => q == total collected rs / inject_Z (Z.of_nat runs)
    | Survival => q == 1 + total steps_taken rs / inject_Z (Z.of_nat runs)
    end%Q.
Proof. exact (evaluate_env reset executable step stop ft runs steps w w' q). Qed.
Print Assumptions C67_episodes.

Example C67_reward_ex : env_evaluate ex_reset ex_agent ex_step true Reward 2 5 0 = Ok (3, ((0 + (0 + 1 + 2 + 3) + (0 + 1 + 2 + 3)) / 2)%Q).
Proof. reflexivity. Qed.
Example C67_all_steps_ex : exists q, env_evaluate ex_reset ex_agent ex_step false Reward 1 5 0 = Ok (5, q) /\ (q == 15)%Q.
Proof. eexists. split; reflexivity. Qed.

(** an exception of the environment or of the agent is the only way to get no fitness *)
Theorem C67_raises {W O A} (reset : W -> result (W * O)) (executable : W -> O -> result (W * A))
  (step : W -> A -> result (W * (O * Q * bool * bool))) (stop : bool) (ft : fitness_type) (runs steps : nat) (w : W) (e : exn) :
  env_evaluate reset executable step stop ft runs steps w = Err e ->
  (exists w1, reset w1 = Err e) \/ (exists w1 o, executable w1 o = Err e) \/ (exists w1 a, step w1 a = Err e).
Proof. exact (env_raises reset executable step stop ft runs steps w e). Qed.
Print Assumptions C67_raises.
Example C67_raises_ex : env_evaluate ex_reset ex_agent (fun w a => if Nat.eqb w 2 then Err RuntimeError else ex_step w a) true Reward 2 5 0 = Err RuntimeError.
Proof. reflexivity. Qed.

(** the survival fitness is not the number of steps survived: it counts the first observation too, so it can be
    more than the number of steps allowed *)
Theorem C67_survival_within_steps_refuted :
  exists q, env_evaluate ex_reset ex_agent ex_step false Survival 1 5 0 = Ok (5, q) /\ (inject_Z 5 < q)%Q.
Proof. eexists. split; reflexivity. Qed.
Print Assumptions C67_survival_within_steps_refuted.

(** the size of a space is the number of its index tuples, and of a tuple of spaces the sum *)
Theorem C67_space_dimensions :
  (forall shape, exists cells, NoDup cells /\ (forall c, In c cells <-> cell shape c) /\ length cells = space_dimensions (Plain shape)) /\
  (forall shapes, space_dimensions (Tuple_ shapes) = fold_right (fun s acc => space_dimensions (Plain s) + acc) 0 shapes).
Proof. exact (conj cells_spec tuple_dims). Qed.
Print Assumptions C67_space_dimensions.
Example C67_space_dimensions_ex : space_dimensions (Plain [2; 3]) = 6 /\ space_dimensions (Tuple_ [[2; 3]; [4]; []]) = 11.
Proof. split; reflexivity. Qed.

(** but the problem's num_inputs is never that size *)
Theorem C67_num_inputs_refuted : exists s, env_num_inputs s <> Some (space_dimensions s).
Proof. exists (Plain [2; 3]). discriminate. Qed.
Print Assumptions C67_num_inputs_refuted.

(** ** C68: argmax and keyboard *)

(** the first index with the largest value *)
Theorem C68_argmax {I} (wrapped : I -> result (list Q)) (input : I) (v : list Q) : wrapped input = Ok v -> v <> [] ->
  exists i y, argmax_call wrapped input = Ok i /\ nth_error v i = Some y /\
    (forall j x, nth_error v j = Some x -> x <= y)%Q /\ (forall j x, nth_error v j = Some x -> (j < i)%nat -> x < y)%Q.
Proof. exact (argmax_spec wrapped input v). Qed.
Print Assumptions C68_argmax.
Example C68_argmax_ex : argmax_call (fun _ : unit => Ok [1; 3; 2; 3]%Q) tt = Ok 1.
Proof. reflexivity. Qed.

(** no value, no index *)
Theorem C68_argmax_fails {I} (wrapped : I -> result (list Q)) (input : I) :
  (wrapped input = Ok [] -> argmax_call wrapped input = Err ValueError) /\
  (forall e, wrapped input = Err e -> argmax_call wrapped input = Err e).
Proof. exact (argmax_fails wrapped input). Qed.
Print Assumptions C68_argmax_fails.
Example C68_argmax_fails_ex : argmax_call (fun _ : unit => Ok []) tt = Err ValueError /\ argmax_call (fun _ : unit => Err KeyError) tt = Err KeyError.
Proof. split; reflexivity. Qed.

(** WrapperDecoder with ArgmaxExecutable: what a genome decodes to chooses the first of its largest outputs *)
Theorem C68_decoded_argmax {G I} (decode : G -> result (I -> result (list Q))) (genome : G) :
  (forall e, decode genome = Err e -> wrapper_decode decode (fun ex => Ok (argmax_call ex)) genome = Err e) /\
  (forall ex, decode genome = Ok ex -> exists policy, wrapper_decode decode (fun ex => Ok (argmax_call ex)) genome = Ok policy /\
    forall input v, ex input = Ok v -> v <> [] -> exists i y, policy input = Ok i /\ nth_error v i = Some y /\
      (forall j x, nth_error v j = Some x -> x <= y)%Q /\ (forall j x, nth_error v j = Some x -> (j < i)%nat -> x < y)%Q).
Proof. exact (decoded_argmax decode genome). Qed.
Print Assumptions C68_decoded_argmax.
Example C68_decoded_argmax_ex :
  match wrapper_decode (fun g : list Q => Ok (fun x : Q => Ok (map (Qmult x) g))) (fun ex => Ok (argmax_call ex)) [1; 3; 2]%Q with
  | Ok policy => policy 1%Q = Ok 1 /\ policy (-1)%Q = Ok 0 | Err _ => False end.
Proof. split; reflexivity. Qed.

(** the action is that of the key pressed last, or 0 once a key with that action is released *)
Theorem C68_keyboard (keymap : Z -> Z) (pre post : list key_event) (k : Z) :
  (forall e, In e post -> exists k', e = Release k') ->
  key_action keymap (pre ++ Press k :: post) =
  (if existsb (fun e => match e with Release k' => (keymap k' =? keymap k)%Z | Press _ => false end) post then 0%Z else keymap k).
Proof. exact (keyboard_spec keymap pre post k). Qed.
Print Assumptions C68_keyboard.
Example C68_keyboard_ex : let m := default_keymap in
  key_action m [Press 49; Press 50; Release 49]%Z = 2%Z /\ key_action m [Press 49; Press 50; Release 49; Release 50]%Z = 0%Z.
Proof. split; reflexivity. Qed.

(** before any key is pressed the action is 0 *)
Theorem C68_keyboard_idle (keymap : Z -> Z) (events : list key_event) :
  (forall e, In e events -> exists k', e = Release k') -> key_action keymap events = 0%Z.
Proof. exact (keyboard_idle keymap events). Qed.
Print Assumptions C68_keyboard_idle.
Example C68_keyboard_idle_ex : key_action (fun k => k) [Release 1; Release 0]%Z = 0%Z.
Proof. reflexivity. Qed.

(** the default keymap: the digits 0 to 8 mean themselves *)
Theorem C68_keymap (d : Z) : (0 <= d <= 8)%Z -> default_keymap (48 + d) = d.
Proof. exact (keymap_digit d). Qed.
Print Assumptions C68_keymap.
Example C68_keymap_ex : default_keymap 56 = 8%Z.
Proof. reflexivity. Qed.

(** but the digit 9 does not *)
Theorem C68_keymap_nine_refuted : exists d, (0 <= d <= 9)%Z /\ default_keymap (48 + d) <> d.
Proof. exists 9%Z. split; [split; discriminate|discriminate]. Qed.
Print Assumptions C68_keymap_nine_refuted.
