(** The logs written through csv.DictWriter: leap_ec/ops.py:1252-1318 migration_metric, leap_ec/distrib/probe.py and
    leap_ec/ops.py:1353-1448 CooperativeEvaluate's log.  Python's csv module is modelled as far as they use it. *)
From Coq Require Import Ascii String.
From Verif Require Import Model.Base Model.PyList Model.Scalar Model.Problems Model.CsvProbe Model.Migration.
Local Open Scope list_scope.

(** ** csv.writer with its defaults: delimiter ',', the double quote as quotechar, doubled inside, QUOTE_MINIMAL *)

(** leap_ec/ops.py:1302, leap_ec/distrib/probe.py:23-26: the delimiter *)
Definition delimiter : ascii := ","%char.
(** the quotechar, leap_ec/ops.py:1302 *)
Definition quotechar : ascii := ascii_of_nat 34.
(** '\r', leap_ec/distrib/probe.py:23-26 *)
Definition creturn : ascii := ascii_of_nat 13.
(** the default lineterminator, leap_ec/distrib/probe.py:23-26 *)
Definition crlf : text := [creturn; newline].
(** the one chosen at leap_ec/ops.py:1302 *)
Definition lf : text := [newline].

(** QUOTE_MINIMAL, up to Python 3.12: quoted if the field has the delimiter, the quotechar or a character of the line
    terminator; leap_ec/ops.py:1302 *)
Definition special (term : text) (c : ascii) : bool :=
  Ascii.eqb c delimiter || Ascii.eqb c quotechar || existsb (Ascii.eqb c) term.
(** quotechars are doubled, leap_ec/ops.py:1302 *)
Fixpoint doubled (f : text) : text :=
  match f with
  | [] => []
  | c :: r => if Ascii.eqb c quotechar then quotechar :: quotechar :: doubled r else c :: doubled r
  end.
(** leap_ec/ops.py:1302: one field *)
Definition write_field (term f : text) : text :=
  if existsb (special term) f then quotechar :: doubled f ++ [quotechar] else f.
(** writer.writerow, leap_ec/ops.py:1316: a row of one empty field is written with quotes *)
Definition write_row (term : text) (fs : list text) : text :=
  match fs with
  | [[]] => [quotechar; quotechar] ++ term
  | _ => join [delimiter] (map (write_field term) fs) ++ term
  end.

(** ** csv.DictWriter *)
(** a dict with str() of its values, leap_ec/ops.py:1309-1315 *)
Definition pydict := list (text * text).
(** d.get(k, ''), leap_ec/ops.py:1316 *)
Fixpoint dict_get (d : pydict) (k : text) : text :=
  match d with
  | [] => []
  | (k', v) :: r => if list_eq_dec ascii_dec k k' then v else dict_get r k
  end.
(** a later entry of a dict display replaces an earlier one with the same key; leap_ec/ops.py:1309-1315 *)
Fixpoint dict_set (d : pydict) (k v : text) : pydict :=
  match d with
  | [] => [(k, v)]
  | (k', v') :: r => if list_eq_dec ascii_dec k k' then (k', v) :: r else (k', v') :: dict_set r k v
  end.
(** DictWriter.writerow, leap_ec/ops.py:1316: keys that are no field names raise ValueError, missing ones are empty *)
Definition dict_writerow (term : text) (fields : list text) (d : pydict) (out : text) : result unit * text :=
  if forallb (fun e => existsb (fun f => if list_eq_dec ascii_dec (fst e) f then true else false) fields) d
  then (Ok tt, out ++ write_row term (map (dict_get d) fields))
  else (Err ValueError, out).
(** DictWriter.writeheader, leap_ec/ops.py:1304 *)
Definition writeheader (term : text) (fields : list text) (out : text) : text := out ++ write_row term fields.

(** ** leap_ec/ops.py:1252-1318 migration_metric *)
Section MigrationMetric.
(** str() of an integer, a fitness and a bool *)
Variable show_int : Z -> text.
Variable show : num -> text.
Variable show_bool : bool -> text.
(** the notes *)
Variable notes : pydict.

(** leap_ec/ops.py:1301 *)
Definition metric_fields : list text :=
  map fst notes ++ [lit "generation"; lit "migrant_fitness"; lit "contestant_fitness"; lit "success"].
(** leap_ec/ops.py:1295-1304; no stream, no writer *)
Definition metric_init (header : bool) (stream : option text) : option text :=
  match stream with
  | None => None
  | Some out => Some (if header then writeheader lf metric_fields out else out)
  end.
(** leap_ec/ops.py:1306-1316 measure_migration *)
Definition metric_call (generation : Z) (migrant contestant : num) (success : bool) (stream : option text)
  : result unit * option text :=
  match stream with
  | None => (Ok tt, None)
  | Some out =>
      let row := dict_set (dict_set (dict_set (dict_set notes (lit "generation") (show_int generation))
                   (lit "migrant_fitness") (show migrant)) (lit "contestant_fitness") (show contestant))
                   (lit "success") (show_bool success) in
      let '(r, out') := dict_writerow lf metric_fields row out in (r, Some out')
  end.
(** the calls of the metric by one call of the operator, leap_ec/ops.py:1224-1225 *)
Fixpoint metric_attempts {G} (gen : Z) (atts : list (@attempt G)) (stream : option text) : result unit * option text :=
  match atts with
  | [] => (Ok tt, stream)
  | a :: r =>
      match metric_call gen (m_fit (a_stamped a)) (m_fit (a_contestant a)) (a_success a) stream with
      | (Err e, s) => (Err e, s)
      | (Ok _, s) => metric_attempts gen r s
      end
  end.
(** and by a history of calls of the operator, leap_ec/ops.py:1206-1225 *)
Fixpoint metric_history {G} (os : list (@mig_out G)) (stream : option text) : result unit * option text :=
  match os with
  | [] => (Ok tt, stream)
  | o :: r =>
      match metric_attempts (o_gen o) (o_attempts o) stream with
      | (Err e, s) => (Err e, s)
      | (Ok _, s) => metric_history r s
      end
  end.
End MigrationMetric.

(** ** leap_ec/distrib/probe.py *)
(** getattr, str() of the attributes; leap_ec/distrib/probe.py:43-49 *)
Definition attributes := text -> option text.
(** the attributes in order, leap_ec/distrib/probe.py:43-49 *)
Fixpoint read_attributes (names : list text) (ind : attributes) : result pydict :=
  match names with
  | [] => Ok []
  | n :: r => match ind n with
              | None => Err AttributeError
              | Some v => bind (read_attributes r ind) (fun d => Ok ((n, v) :: d))
              end
  end.
(** leap_ec/distrib/probe.py:24-26 *)
Definition worker_fields : list text :=
  [lit "hostname"; lit "pid"; lit "uuid"; lit "birth_id"; lit "start_eval_time"; lit "stop_eval_time"; lit "fitness"].
(** leap_ec/distrib/probe.py:22-29 log_worker_location *)
Definition worker_init (header : bool) (out : text) : text := if header then writeheader crlf worker_fields out else out.
(** leap_ec/distrib/probe.py:31-52 write_record *)
Definition worker_call (ind : attributes) (out : text) : result unit * text :=
  match read_attributes worker_fields ind with
  | Err e => (Err e, out)
  | Ok d => dict_writerow crlf worker_fields d out
  end.
(** leap_ec/distrib/probe.py:31-52, one after another *)
Fixpoint worker_run (inds : list attributes) (out : text) : list (result unit) * text :=
  match inds with
  | [] => ([], out)
  | i :: r => let '(x, out1) := worker_call i out in let '(xs, out2) := worker_run r out1 in (x :: xs, out2)
  end.

(** leap_ec/distrib/probe.py:71-73 *)
Definition pop_attributes : list text :=
  [lit "uuid"; lit "birth_id"; lit "start_eval_time"; lit "stop_eval_time"; lit "fitness"].
(** leap_ec/distrib/probe.py:71-73 *)
Definition pop_fields : list text := lit "interval" :: pop_attributes.
(** leap_ec/distrib/probe.py:69-77 log_pop: the interval and the text written *)
Definition pop_init (header : bool) (out : text) : Z * text := (0%Z, if header then writeheader crlf pop_fields out else out).

Section LogPop.
Variable show_int : Z -> text.
Variable update_interval : Z.
(** leap_ec/distrib/probe.py:91-97 *)
Fixpoint pop_rows (interval : Z) (pop : list attributes) (out : text) : result unit * text :=
  match pop with
  | [] => (Ok tt, out)
  | i :: r =>
      match read_attributes pop_attributes i with
      | Err e => (Err e, out)
      | Ok d =>
          match dict_writerow crlf pop_fields ((lit "interval", show_int interval) :: d) out with
          | (Err e, out') => (Err e, out')
          | (Ok _, out') => pop_rows interval r out'
          end
      end
  end.
(** leap_ec/distrib/probe.py:79-103 write_pop_update *)
Definition pop_call (pop : list attributes) (st : Z * text) : result unit * (Z * text) :=
  let '(interval, out) := st in
  if (update_interval =? 0)%Z then (Err ZeroDivisionError, st)
  else if (interval mod update_interval =? 0)%Z then
    match pop_rows interval pop out with
    | (Err e, out') => (Err e, (interval, out'))
    | (Ok _, out') => (Ok tt, ((interval + 1)%Z, out'))
    end
  else (Ok tt, ((interval + 1)%Z, out)).
(** leap_ec/distrib/probe.py:79-103, one after another; the caller goes on after an exception *)
Fixpoint pop_run (pops : list (list attributes)) (st : Z * text) : list (result unit) * (Z * text) :=
  match pops with
  | [] => ([], st)
  | p :: r => let '(x, st1) := pop_call p st in let '(xs, st2) := pop_run r st1 in (x :: xs, st2)
  end.
End LogPop.

(** ** CooperativeEvaluate's log *)
Section CoopLog.
Context {G : Type}.
Variable sel : nat -> nat -> list (cind G) -> nat -> result (cind G).
(** str() of the context's generation and current_subpopulation, of integers, of fitnesses, of genomes and of the fitness
    an individual has while it is logged ('' for None); leap_ec/ops.py:1434-1447 *)
Variables (generation subpopulation : text) (show_int : Z -> text) (show : num -> text) (show_genome : list G -> text)
  (own_fitness : cind G -> text).

(** leap_ec/ops.py:1364-1370 *)
Definition coop_fields : list text :=
  [lit "generation"; lit "subpopulation"; lit "individual_type"; lit "collaborator_subpopulation"; lit "genome"; lit "fitness"].
(** leap_ec/ops.py:1361-1374 *)
Definition coop_log_init (out : text) : text := writeheader crlf coop_fields out.
(** one of the dicts at leap_ec/ops.py:1435-1447 *)
Definition coop_row (kind collab genome fitness : text) : pydict :=
  combine coop_fields [generation; subpopulation; kind; collab; genome; fitness].
(** leap_ec/ops.py:1434-1440 *)
Fixpoint log_collaborators (i : nat) (cs : list (cind G)) (out : text) : result unit * text :=
  match cs with
  | [] => (Ok tt, out)
  | c :: r =>
      match dict_writerow crlf coop_fields
              (coop_row (lit "Collaborator") (show_int (Z.of_nat i)) (show_genome (c_genome c)) (own_fitness c)) out with
      | (Err e, out') => (Err e, out')
      | (Ok _, out') => log_collaborators (S i) r out'
      end
  end.
(** leap_ec/ops.py:1431-1447 _log_trial *)
Definition log_trial (cs : list (cind G)) (combined : list G) (fitness : num) (out : text) : result unit * text :=
  match log_collaborators 0 cs out with
  | (Err e, out') => (Err e, out')
  | (Ok _, out') =>
      dict_writerow crlf coop_fields (coop_row (lit "Combined Individual") [] (show_genome combined) (show fitness)) out'
  end.
(** leap_ec/ops.py:1391-1405: [n] trials from number [t] on with a log, combining by leap_ec/ops.py:1324-1334 *)
Fixpoint logged_trials (n t : nat) (x : cind G) (current : nat) (subpops : list (list (cind G))) (out : text)
  : result (list num) * text :=
  match n with
  | 0 => (Ok [], out)
  | S m =>
      match choose x current 0 subpops (fun i pop => sel 0 i pop t) with
      | Err e => (Err e, out)
      | Ok cs =>
          match concat_combine_score cs with
          | Err e => (Err e, out)
          | Ok f =>
              match log_trial cs (concat (map c_genome cs)) f out with
              | (Err e, out') => (Err e, out')
              | (Ok _, out') =>
                  let '(r, out'') := logged_trials m (S t) x current subpops out' in
                  (bind r (fun fs => Ok (f :: fs)), out'')
              end
          end
      end
  end.
(** leap_ec/ops.py:1376-1409 __call__ on one individual, with a log: the fitness assigned *)
Definition coop_op_logged (n : nat) (x : cind G) (current : nat) (subpops : list (list (cind G))) (out : text)
  : result num * text :=
  let '(r, out') := logged_trials n 0 x current subpops out in
  (bind r (fun fs => match fs with [] => Err ValueError | _ => Ok (np_mean fs) end), out').
End CoopLog.
