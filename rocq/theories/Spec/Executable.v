(** Specifications for executable phenomes: truth tables, episodes in an environment, indices. *)
From Verif Require Import Model.Base Model.Executable.

(** all 0/1 vectors of a length *)
Definition bit_vector (n : nat) (l : list Z) : Prop := length l = n /\ Forall (fun b => b = 0 \/ b = 1)%Z l.
Definition complete_table (n : nat) (table : list (list Z)) : Prop :=
  NoDup table /\ (forall l, In l table <-> bit_vector n l).

(** what the executable is given: the input, filled up with zeros when asked for *)
Definition filled (pad : bool) (n : nat) (l : list Z) : list Z :=
  if pad then l ++ repeat 0%Z (n - length l) else l.

Section Env.
Context {W O A : Type}.
Variable executable : W -> O -> result (W * A).
Variable step : W -> A -> result (W * (O * Q * bool * bool)).

(** one step of the agent in its environment *)
Record transition := mk_tr { tr_obs : O; tr_reward : Q; tr_done : bool }.

(** [replays w o trs w']: from state [w] with observation [o] the agent and the environment produce exactly
    the steps [trs] and end in [w'] *)
Inductive replays : W -> O -> list transition -> W -> Prop :=
| replays_nil w o : replays w o [] w
| replays_cons w o w1 a w2 o' r te tu trs w3 :
    executable w o = Ok (w1, a) -> step w1 a = Ok (w2, (o', r, te, tu)) -> replays w2 o' trs w3 ->
    replays w o (mk_tr o' r (te || tu) :: trs) w3.

(** an episode of at most [n] steps: with [stop] it ends at the first step that is done or after n
    steps, otherwise after n steps *)
Definition episode_length_ok (stop : bool) (n : nat) (trs : list transition) : Prop :=
  length trs <= n /\
  (stop = false -> length trs = n) /\
  (stop = true -> (forall i t, nth_error trs i = Some t -> S i < length trs -> tr_done t = false) /\
     (length trs = n \/ exists t, nth_error trs (length trs - 1) = Some t /\ tr_done t = true)).

(** a sequence of runs: each starts with a reset *)
Inductive run_sequence (reset : W -> result (W * O)) (stop : bool) (n : nat) : W -> list (O * list transition) -> W -> Prop :=
| runs_nil w : run_sequence reset stop n w [] w
| runs_cons w w1 o trs w2 rest w3 :
    reset w = Ok (w1, o) -> replays w1 o trs w2 -> episode_length_ok stop n trs ->
    run_sequence reset stop n w2 rest w3 -> run_sequence reset stop n w ((o, trs) :: rest) w3.
End Env.
Arguments transition : clear implicits.

(** sums of rationals *)
Definition total {A} (f : A -> Q) (l : list A) : Q := fold_right (fun x acc => f x + acc)%Q 0%Q l.
(** what an agent collects in a run, and how many steps it takes *)
Definition collected {O} (run : O * list (transition O)) : Q := total (@tr_reward O) (snd run).
Definition steps_taken {O} (run : O * list (transition O)) : Q := inject_Z (Z.of_nat (length (snd run))).

(** one index per dimension *)
Definition cell (shape idx : list nat) : Prop := Forall2 (fun i n => i < n) idx shape.

(** an environment that counts: done at the third step, the reward is the count *)
Definition ex_reset (w : nat) : result (nat * nat) := Ok (0, 0).
Definition ex_agent (w o : nat) : result (nat * unit) := Ok (w, tt).
Definition ex_step (w : nat) (_ : unit) : result (nat * (nat * Q * bool * bool)) :=
  Ok (S w, (S w, inject_Z (Z.of_nat (S w)), Nat.eqb (S w) 3, false)).
