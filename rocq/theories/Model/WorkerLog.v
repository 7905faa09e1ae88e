(** leap_ec/distrib/logger.py: the logging plugin for dask workers, within one process. *)
From Coq Require Import Ascii String.
From Verif Require Import Model.Base Model.CsvProbe.
Local Open Scope list_scope.

(** logging's numbers of the levels *)
(** leap_ec/distrib/logger.py:87 *)
Definition DEBUG : Z := 10%Z.
(** leap_ec/distrib/logger.py:89 *)
Definition INFO : Z := 20%Z.
(** leap_ec/distrib/logger.py:96 *)
Definition WARNING : Z := 30%Z.

Section Logger.
(** str() of a level's name and of a time; the worker's id; EvaluatorLogFilter's hostname and process id as text, both taken
    once, when the module is imported (leap_ec/distrib/logger.py:24-28, 41) *)
Variable level_name : Z -> text.
Variable worker_id : nat -> text.
Variables (hostname process_id : text).
(** the effective level of the logger's ancestors, WARNING unless the application changed it; it counts while the logger's own
    level is NOTSET *)
Variable root_level : Z.

(** the logger a worker has: the module's, or one of its own put there by somebody else *)
(** leap_ec/distrib/logger.py:84, 95 *)
Inductive lgr := Shared | Own.

(** the level of the module's logger, None for NOTSET; worker.logger; what the module's handler has printed; what went to the
    workers' own loggers *)
(** leap_ec/distrib/logger.py:37-54 *)
Record lworld := mk_lw { lw_level : option Z; lw_attr : nat -> option lgr; lw_out : list text; lw_own : list (nat * (Z * text)) }.

(** the line without its '%(asctime)s - '; the filter adds hostname and process_id, leap_ec/distrib/logger.py:30-34, 45-47 *)
Definition log_line (level : Z) (msg : text) : text :=
  hostname ++ lit " - " ++ process_id ++ lit " - " ++ level_name level ++ lit " : " ++ msg.

(** Logger.isEnabledFor *)
(** leap_ec/distrib/logger.py:96, 102, 105 *)
Definition enabled (w : lworld) (level : Z) : bool :=
  (match lw_level w with Some l => l | None => root_level end <=? level)%Z.

(** worker.logger.log(level, msg): the handler's level is NOTSET.  Propagation to the root's handlers is left out. *)
(** leap_ec/distrib/logger.py:69, 96, 102, 105 *)
Definition worker_log (wk : nat) (level : Z) (msg : text) (w : lworld) : result unit * lworld :=
  match lw_attr w wk with
  | None => (Err AttributeError, w)
  | Some Own => (Ok tt, mk_lw (lw_level w) (lw_attr w) (lw_out w) (lw_own w ++ [(wk, (level, msg))]))
  | Some Shared =>
      (Ok tt, if enabled w level then mk_lw (lw_level w) (lw_attr w) (lw_out w ++ [log_line level msg]) (lw_own w) else w)
  end.

(** leap_ec/distrib/logger.py:81-89 *)
Definition setup_logger (verbose : bool) (wk : nat) (w : lworld) : lworld :=
  mk_lw (Some (if verbose then DEBUG else INFO)) (fun i => if i =? wk then Some Shared else lw_attr w i) (lw_out w) (lw_own w).

(** leap_ec/distrib/logger.py:91-102 *)
Definition setup (verbose : bool) (wk : nat) (w : lworld) : result unit * lworld :=
  match lw_attr w wk with
  | Some _ => worker_log wk WARNING (lit "already has a logger") w
  | None => worker_log wk INFO (lit "worker setup for " ++ worker_id wk) (setup_logger verbose wk w)
  end.

(** leap_ec/distrib/logger.py:104-105 *)
Definition teardown (wk : nat) (w : lworld) : result unit * lworld :=
  worker_log wk INFO (lit "Tearing down worker " ++ worker_id wk) w.

(** what happens in a process: the plugin is set up on a worker or torn down, a task logs; leap_ec/distrib/logger.py:61-69 *)
Inductive levent :=
| ESetup (verbose : bool) (wk : nat)
| ETeardown (wk : nat)
| ELog (wk : nat) (level : Z) (msg : text).
(** leap_ec/distrib/logger.py:61-69 *)
Definition lstep (e : levent) (w : lworld) : result unit * lworld :=
  match e with
  | ESetup v wk => setup v wk w
  | ETeardown wk => teardown wk w
  | ELog wk level msg => worker_log wk level msg w
  end.
(** leap_ec/distrib/logger.py:61-69, one event after another *)
Definition lrun (h : list levent) (w : lworld) : lworld := fold_left (fun w e => snd (lstep e w)) h w.
End Logger.
(** after the import, no worker having a logger; leap_ec/distrib/logger.py:37-54 *)
Definition lw0 : lworld := mk_lw None (fun _ => None) [] [].
