(** When a message is printed, from the history of set-ups alone. *)
From Coq Require Import Ascii String.
From Verif Require Import Model.Base Model.CsvProbe Model.WorkerLog.
Local Open Scope list_scope.

(** the plugin has been set up on [wk] in the history *)
Definition set_up (h : list levent) (wk : nat) : Prop := exists v, In (ESetup v wk) h.
(** [v] is the verbosity of the last set-up, on whichever worker, that was that worker's first *)
Inductive last_fresh : list levent -> bool -> Prop :=
| fresh_here h v wk : ~ set_up h wk -> last_fresh (h ++ [ESetup v wk]) v
| fresh_again h v v' wk : set_up h wk -> last_fresh h v -> last_fresh (h ++ [ESetup v' wk]) v
| fresh_teardown h v wk : last_fresh h v -> last_fresh (h ++ [ETeardown wk]) v
| fresh_log h v wk level msg : last_fresh h v -> last_fresh (h ++ [ELog wk level msg]) v.
(** the least level printed *)
Definition threshold (verbose : bool) : Z := if verbose then 10%Z else 20%Z.

Section Lines.
Variable level_name : Z -> text.
Variable worker_id : nat -> text.
Variables (hostname process_id : text).
Definition message (level : Z) (msg : text) : text := hostname ++ lit " - " ++ process_id ++ lit " - " ++ level_name level ++ lit " : " ++ msg.
(** the lines an event prints, and whether it raises, after the history [h] *)
Inductive prints (h : list levent) : levent -> list text -> bool -> Prop :=
| p_first v wk : ~ set_up h wk -> prints h (ESetup v wk) [message 20 (lit "worker setup for " ++ worker_id wk)] true
| p_again v wk : set_up h wk -> prints h (ESetup v wk) [message 30 (lit "already has a logger")] true
| p_teardown wk : set_up h wk -> prints h (ETeardown wk) [message 20 (lit "Tearing down worker " ++ worker_id wk)] true
| p_no_teardown wk : ~ set_up h wk -> prints h (ETeardown wk) [] false
| p_log wk level msg v : set_up h wk -> last_fresh h v -> (threshold v <= level)%Z -> prints h (ELog wk level msg) [message level msg] true
| p_quiet wk level msg v : set_up h wk -> last_fresh h v -> (level < threshold v)%Z -> prints h (ELog wk level msg) [] true
| p_no_log wk level msg : ~ set_up h wk -> prints h (ELog wk level msg) [] false.
(** what a worker with a logger of its own gets *)
Inductive own_message (wk : nat) : levent -> Z -> text -> Prop :=
| o_setup v : own_message wk (ESetup v wk) 30 (lit "already has a logger")
| o_teardown : own_message wk (ETeardown wk) 20 (lit "Tearing down worker " ++ worker_id wk)
| o_log level msg : own_message wk (ELog wk level msg) level msg.
End Lines.

(** examples *)
Definition ex_level (z : Z) : text := if (z <=? 10)%Z then lit "DEBUG" else if (z <=? 20)%Z then lit "INFO" else lit "WARNING".
Definition ex_worker (n : nat) : text := if n =? 0 then lit "a" else lit "b".
Definition ex_events : list levent := [ESetup true 0; ELog 0 10 (lit "x"); ESetup false 1; ELog 0 10 (lit "y"); ESetup true 1; ELog 1 10 (lit "z"); ELog 0 20 (lit "u")].
