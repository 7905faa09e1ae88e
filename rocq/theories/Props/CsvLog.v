(** Theorems about the logs written through csv.DictWriter (C81). *)
From Coq Require Import Ascii String.
From Verif Require Import Model.Base Model.PyList Model.Scalar Model.Problems Model.CsvProbe Model.Migration Model.CsvLog
  Spec.CsvLog Proofs.CsvLog.
Local Open Scope list_scope.

(** whatever the fields contain, csv.reader gives them back; with the terminator '\n' if no field has a '\r' *)
Theorem C81_read_back term rows : term = lf \/ term = crlf -> Forall (Forall (fun g => term = crlf \/ no_cr g)) rows ->
  csv_read (concat (map (write_row term) rows)) = Some rows.
Proof. exact (read_back term rows). Qed.
Print Assumptions C81_read_back.

(** the log of a history of migrations has one row per competing immigrant *)
Theorem C81_migration_log show_int show show_bool notes {G} (os : list (@mig_out G)) : good_notes notes ->
  (forall k v, In (k, v) notes -> no_cr k /\ no_cr v) -> (forall z, no_cr (show_int z)) -> (forall n, no_cr (show n)) -> (forall b, no_cr (show_bool b)) ->
  forall (header : bool) before, Forall (Forall no_cr) before ->
  exists s t, metric_init notes header (Some (concat (map (write_row lf) before))) = Some s /\
    metric_history show_int show show_bool notes os (Some s) = (Ok tt, Some t) /\
    csv_read t = Some (before ++ (if header then [map fst notes ++ std_names] else []) ++ migration_rows show_int show show_bool notes os).
Proof. exact (fun H => migration_log show_int show show_bool notes H os). Qed.
Print Assumptions C81_migration_log.

Theorem C81_no_stream {G} show_int show show_bool notes header (os : list (@mig_out G)) :
  metric_history show_int show show_bool notes os (metric_init notes header None) = (Ok tt, None).
Proof. exact (no_stream show_int show show_bool notes header os). Qed.
Print Assumptions C81_no_stream.

Theorem C81_worker_log (header : bool) before inds vss : Forall2 (has_values worker_columns) inds vss ->
  exists t, worker_run inds (worker_init header (concat (map (write_row crlf) before))) = (map (fun _ => Ok tt) inds, t) /\
    csv_read t = Some (before ++ (if header then [worker_columns] else []) ++ vss).
Proof. exact (worker_log header before inds vss). Qed.
Print Assumptions C81_worker_log.

Theorem C81_worker_missing_attribute ind n out : In n worker_columns -> ind n = None -> worker_call ind out = (Err AttributeError, out).
Proof. exact (worker_missing ind n out). Qed.
Print Assumptions C81_worker_missing_attribute.

(** a row has the fields in the order of the header, whatever the order of the dictionary; unknown keys write nothing *)
Theorem C81_dict_writer term fields d out :
  ((forall e, In e d -> In (fst e) fields) ->
     exists vs, Forall2 (dict_value d) fields vs /\ dict_writerow term fields d out = (Ok tt, out ++ write_row term vs)) /\
  (forall e, In e d -> ~ In (fst e) fields -> dict_writerow term fields d out = (Err ValueError, out)).
Proof. exact (dict_writer term fields d out). Qed.
Print Assumptions C81_dict_writer.

(** snapshots at the calls 0, u, 2u, ..., labelled with the number of the call *)
Theorem C81_log_pop show_int u header before pops : u <> 0%Z ->
  (forall p i n, In p pops -> In i p -> In n pop_columns -> i n <> None) ->
  exists rows t, snapshots show_int u 0 pops rows /\
    pop_run show_int u pops (pop_init header (concat (map (write_row crlf) before))) = (map (fun _ => Ok tt) pops, (Z.of_nat (length pops), t)) /\
    csv_read t = Some (before ++ (if header then [lit "interval" :: pop_columns] else []) ++ rows).
Proof.
  exact (fun U H => let (rows, S) := snapshots_exist show_int u pops 0 H in
         let (t, T) := pop_log show_int u U header before pops rows S in ex_intro _ rows (ex_intro _ t (conj S T))).
Qed.
Print Assumptions C81_log_pop.

Theorem C81_log_pop_zero show_int pops st : pop_run show_int 0 pops st = (map (fun _ => Err ZeroDivisionError) pops, st).
Proof. exact (pop_zero show_int pops st). Qed.
Print Assumptions C81_log_pop_zero.

Theorem C81_log_pop_interrupted show_int u k pre vss i n post out : u <> 0%Z -> (k mod u = 0)%Z -> Forall2 (has_values pop_columns) pre vss -> In n pop_columns -> i n = None ->
  pop_call show_int u (pre ++ i :: post) (k, out) =
  (Err AttributeError, (k, out ++ concat (map (write_row crlf) (map (cons (show_int k)) vss)))).
Proof. exact (fun U => pop_interrupted show_int u U k pre vss i n post out). Qed.
Print Assumptions C81_log_pop_interrupted.

(** the fitness that is assigned is the mean of those logged for the combined individuals *)
Theorem C81_cooperative_log {G} sel generation subpopulation show_int show show_genome own_fitness before n (x : cind G) current subpops v :
  coop_op sel concat_combine_score n x current subpops = Ok v ->
  exists css fs t, length css = n /\ length fs = n /\ v = np_mean fs /\
    (forall k cs, nth_error css k = Some cs -> choose x current 0 subpops (fun i pop => sel 0 i pop k) = Ok cs /\ exists f, nth_error fs k = Some f /\ concat_combine_score cs = Ok f) /\
    coop_op_logged sel generation subpopulation show_int show show_genome own_fitness n x current subpops (coop_log_init (concat (map (write_row crlf) before))) = (Ok v, t) /\
    csv_read t = Some (before ++ coop_columns :: concat (map (fun p => trial_rows generation subpopulation show_int show show_genome own_fitness (fst p) (snd p)) (List.combine css fs))).
Proof. exact (coop_log sel generation subpopulation show_int show show_genome own_fitness before n x current subpops v). Qed.
Print Assumptions C81_cooperative_log.

Theorem C81_cooperative_log_size {G} sel generation subpopulation show_int show show_genome own_fitness before n (x : cind G) current subpops v t :
  coop_op sel concat_combine_score n x current subpops = Ok v ->
  coop_op_logged sel generation subpopulation show_int show show_genome own_fitness n x current subpops (coop_log_init (concat (map (write_row crlf) before))) = (Ok v, t) ->
  exists rows, csv_read t = Some (before ++ coop_columns :: rows) /\ length rows = n * (length subpops + 1).
Proof. exact (coop_log_size sel generation subpopulation show_int show show_genome own_fitness before n x current subpops v t). Qed.
Print Assumptions C81_cooperative_log_size.

(** a note called like a column is lost: both columns show the generation *)
Theorem C81_note_clash_refuted : exists notes s t, notes = [(lit "generation", lit "first")] /\
  metric_init notes true (Some []) = Some s /\
  metric_call ex_show_int ex_show ex_show_bool notes 2%Z (NInt 1) (NInt 0) true (Some s) = (Ok tt, Some t) /\
  exists rows, csv_read t = Some rows /\ forall r, In r rows -> ~ In (lit "first") r.
Proof.
  eexists _, _, _. split; [reflexivity|]. split; [reflexivity|]. split; [vm_compute; reflexivity|]. eexists. split; [vm_compute; reflexivity|].
  intros r [<- | [<- | []]] H; vm_compute in H; repeat (destruct H as [H | H]; [discriminate|]); contradiction.
Qed.
Print Assumptions C81_note_clash_refuted.

(** with the terminator '\n' a carriage return in a note is not quoted, and the row cannot be read *)
Theorem C81_carriage_return_refuted : exists notes s t, map fst notes = [lit "a"] /\
  metric_init notes true (Some []) = Some s /\
  metric_call ex_show_int ex_show ex_show_bool notes 2%Z (NInt 1) (NInt 0) true (Some s) = (Ok tt, Some t) /\ csv_read t = None.
Proof.
  exists [(lit "a", lit "x" ++ [c_cr] ++ lit "y")]. eexists _, _. split; [reflexivity|]. split; [reflexivity|]. split; vm_compute; reflexivity.
Qed.
Print Assumptions C81_carriage_return_refuted.

(** a call that raised is repeated under the same number, and its first rows are in the log twice *)
Theorem C81_snapshot_once_refuted : exists pops rs st rows r,
  pop_run ex_show_int 2%Z pops (pop_init true []) = (rs, st) /\ rs = [Err AttributeError; Ok tt] /\
  csv_read (snd st) = Some rows /\ nth_error rows 1 = Some r /\ nth_error rows 2 = Some r.
Proof.
  exists [[ex_attr (lit "a"); fun _ => None]; [ex_attr (lit "a")]]. eexists _, _, _, _. split; [vm_compute; reflexivity|]. split; [reflexivity|].
  split; [vm_compute; reflexivity|]. split; reflexivity.
Qed.
Print Assumptions C81_snapshot_once_refuted.

Example C81_read_back_example : csv_read (concat (map (write_row crlf) [[lit "a,b"; [quotechar]; []; [newline]]; [[]]; [lit "x"]])) =
  Some [[lit "a,b"; [quotechar]; []; [newline]]; [[]]; [lit "x"]].
Proof. vm_compute. reflexivity. Qed.
Example C81_quoting_example : write_row crlf [lit "a,b"; lit "c"; [quotechar]] = [quotechar] ++ lit "a,b" ++ [quotechar] ++ lit ",c," ++ repeat quotechar 4 ++ crlf.
Proof. vm_compute. reflexivity. Qed.
(** the doctest of migration_metric *)
Example C81_migration_example : exists s, metric_init [(lit "run", lit "0"); (lit "description", lit "Test output")] true (Some []) = Some s /\
  s = lit "run,description,generation,migrant_fitness,contestant_fitness,success" ++ [newline] /\
  metric_call ex_show_int ex_show ex_show_bool [(lit "run", lit "0"); (lit "description", lit "Test output")] 0%Z (NInt 1) (NInt 2) true (Some []) =
  (Ok tt, Some (lit "0,Test output,0,1,2,True" ++ [newline])).
Proof. eexists. split; [reflexivity|]. split; vm_compute; reflexivity. Qed.
Example C81_log_pop_example : exists st, pop_run ex_show_int 2%Z [[ex_attr (lit "a")]; [ex_attr (lit "b")]; [ex_attr (lit "c"); ex_attr (lit "d")]] (pop_init true []) = ([Ok tt; Ok tt; Ok tt], st) /\
  option_map (map (firstn 2)) (csv_read (snd st)) = Some [[lit "interval"; lit "uuid"]; [lit "0"; lit "a"]; [lit "2"; lit "c"]; [lit "2"; lit "d"]].
Proof. eexists. split; [vm_compute; reflexivity|]. vm_compute. reflexivity. Qed.
Example C81_worker_example : exists t, worker_run [ex_attr (lit "a,b")] (worker_init false []) = ([Ok tt], t) /\
  csv_read t = Some [[lit "x"; lit "x"; lit "a,b"; lit "x"; lit "x"; lit "x"; lit "x"]].
Proof. eexists. split; vm_compute; reflexivity. Qed.
Example C81_cooperative_example : exists t,
  coop_op_logged (fun _ _ pop k => match nth_error pop k with Some c => Ok c | None => Err StopIteration end) (lit "0") (lit "0") ex_show_int ex_show
    (fun _ => lit "g") (fun _ => []) 2 (ex_coop 5 [1%Z]) 0 [[]; [ex_coop 0 [0%Z]; ex_coop 1 [1%Z]]] (coop_log_init []) =
  (Ok (np_mean [NInt 1; NInt 2]), t) /\
  option_map (map (skipn 2)) (csv_read t) = Some [[lit "individual_type"; lit "collaborator_subpopulation"; lit "genome"; lit "fitness"];
    [lit "Collaborator"; lit "0"; lit "g"; []]; [lit "Collaborator"; lit "1"; lit "g"; []]; [lit "Combined Individual"; []; lit "g"; lit "1"];
    [lit "Collaborator"; lit "0"; lit "g"; []]; [lit "Collaborator"; lit "1"; lit "g"; []]; [lit "Combined Individual"; []; lit "g"; lit "2"]].
Proof. eexists. split; vm_compute; reflexivity. Qed.
Example C81_dict_writer_example :
  dict_writerow lf [lit "a"; lit "b"; lit "c"] [(lit "c", lit "3"); (lit "a", lit "1")] [] = (Ok tt, lit "1,,3" ++ lf) /\
  dict_writerow lf [lit "a"] [(lit "z", lit "3")] [] = (Err ValueError, []).
Proof. split; vm_compute; reflexivity. Qed.
