(** Properties C74 and C75: what the CSV probes write *)
From Coq Require Import Ascii String.
From Verif Require Import Model.Base Model.Scalar Model.Probe Model.Problems Model.CsvProbe Spec.Order Spec.Metrics Spec.Problems Spec.CsvProbe
  Proofs.CsvProbe.
Local Open Scope list_scope.

(** FitnessStatsCSVProbe returns each population unchanged and writes exactly one row for each call at a measured
    generation; the best so far covers all calls, measured or not *)
Theorem C74_appends conf show_int show show_sqrt mx h : sc_modulo conf <> 0%Z -> Forall (fun i => bi_pop i <> []) h ->
  Forall (fun i => measured conf i = true -> Forall (fun e => exists t, snd e (bi_pop i) = Ok t) (sc_extras conf)) h ->
  exists bests rows st, stats_run conf show_int show show_sqrt mx h (stats_init conf) = (map (fun i => Ok (bi_pop i)) h, st) /\
    best_so_far mx h bests /\
    Forall2 (stats_row conf show_int show show_sqrt) (filter (fun ib => measured conf (fst ib)) (combine h bests)) rows /\
    st_text st = st_text (stats_init conf) ++ concat (map (fun r => join comma_space r ++ [newline]) rows).
Proof. exact (run_from_start conf show_int show show_sqrt mx h). Qed.
Print Assumptions C74_appends.

(** with entries free of commas and newlines, the text read back as CSV is the comment, the header and the rows, each as
    wide as the header *)
Theorem C74_table conf show_int show show_sqrt mx h : sc_modulo conf <> 0%Z -> sc_header conf = true ->
  Forall (fun i => bi_pop i <> []) h ->
  Forall (fun i => Forall (fun e => exists t, snd e (bi_pop i) = Ok t /\ clean t) (sc_extras conf)) h ->
  clean_conf conf -> (forall z, clean (show_int z)) -> (forall n, clean (show n)) -> (forall n, clean (show_sqrt n)) ->
  exists bests rows st cs body, stats_run conf show_int show show_sqrt mx h (stats_init conf) = (map (fun i => Ok (bi_pop i)) h, st) /\
    best_so_far mx h bests /\
    Forall2 (stats_row conf show_int show show_sqrt) (filter (fun ib => measured conf (fst ib)) (combine h bests)) rows /\
    lines_are (st_text st) (cs ++ body) /\ comment_lines conf cs /\ Forall2 fields_are body (columns conf :: rows) /\
    Forall (fun r => length r = length (columns conf)) rows.
Proof. exact (table conf show_int show show_sqrt mx h). Qed.
Print Assumptions C74_table.
Example C74_table_ex : st_text (snd (stats_run ex_conf digit ex_show ex_show true
    [ex_in 0 [1; 5; 3]%Z; ex_in 1 [9; 2]%Z; ex_in 2 [4; 4]%Z] (stats_init ex_conf))) =
  lit "# x" ++ [newline] ++ lit "# y" ++ [newline] ++
  lit "job, alg, step, bsf, mean_fitness, std_fitness, min_fitness, max_fitness, size" ++ [newline] ++
  lit "7, ga, 0, 5, 3, 8, 1, 5, 3" ++ [newline] ++ lit "7, ga, 2, 9, 4, 0, 4, 4, 2" ++ [newline].
Proof. reflexivity. Qed.

(** the columns of a row agree with each other: minimum, mean and maximum are in order, and the deviation is zero just
    when all fitnesses are the same *)
Theorem C74_statistics_order l qs : l <> [] -> Forall2 (fun x q => num_val x = Some (Fin q)) l qs ->
  exists lo m hi v, num_val (np_min l) = Some (Fin lo) /\ num_val (np_mean l) = Some (Fin m) /\
    num_val (np_max l) = Some (Fin hi) /\ num_val (np_var l) = Some (Fin v) /\ (lo <= m <= hi)%Q /\ (0 <= v)%Q /\
    ((v == 0)%Q <-> (forall q, In q qs -> (q == m)%Q)).
Proof. exact (finite_order l qs). Qed.
Print Assumptions C74_statistics_order.
Example C74_statistics_order_ex : map (fun f : list num -> num => f [NInt 1; NInt 5; NInt 3]) [np_min; np_mean; np_max] <> [] /\
  Forall2 (fun x q => num_val x = Some (Fin q)) [NInt 1; NInt 5; NInt 3] [1; 5; 3]%Q.
Proof. split; [discriminate|]. constructor; [reflexivity|]. constructor; [reflexivity|]. constructor; [reflexivity|constructor]. Qed.

(** one NaN fitness makes all four NaN, although the best so far ignores it *)
Theorem C74_nan_columns l : (exists x, In x l /\ num_val x = None) ->
  num_val (np_min l) = None /\ num_val (np_mean l) = None /\ num_val (np_max l) = None /\ num_val (np_var l) = None.
Proof. exact (nan_columns l). Qed.
Print Assumptions C74_nan_columns.
Example C74_nan_columns_ex : exists x, In x [NInt 1; NNan] /\ num_val x = None.
Proof. exists NNan. split; [right; left; reflexivity|reflexivity]. Qed.

(** integers only: minimum and maximum are fitnesses of the population, written as integers; with one float among
    them, both are written as floats *)
Theorem C74_number_kind l : l <> [] ->
  ((forall x, In x l -> exists z, x = NInt z) -> In (np_min l) l /\ In (np_max l) l) /\
  ((exists x, In x l /\ forall z, x <> NInt z) -> forall z, np_min l <> NInt z /\ np_max l <> NInt z).
Proof. exact (extremes_kind l). Qed.
Print Assumptions C74_number_kind.
Example C74_number_kind_ex : (np_min [NInt 2; NInt 1] = NInt 1 /\ np_max [NInt 2; NInt 1] = NInt 2) /\
  exists x, In x [NInt 1; NFlt false (Fin (1 # 2))] /\ forall z, x <> NInt z.
Proof. split; [split; reflexivity|]. eexists. split; [right; left; reflexivity|discriminate]. Qed.

Theorem C74_empty_population conf show_int show show_sqrt mx i st : bi_pop i = [] ->
  stats_call conf show_int show show_sqrt mx i st = (Err ValueError, st).
Proof. exact (call_empty conf show_int show show_sqrt mx i st). Qed.
Print Assumptions C74_empty_population.
Theorem C74_modulo_zero conf show_int show show_sqrt mx i st : sc_modulo conf = 0%Z -> bi_pop i <> [] ->
  fst (stats_call conf show_int show show_sqrt mx i st) = Err ZeroDivisionError /\
  st_text (snd (stats_call conf show_int show show_sqrt mx i st)) = st_text st /\
  exists b, st_bsf (snd (stats_call conf show_int show show_sqrt mx i st)) = Some b /\ (In b (bi_pop i) \/ st_bsf st = Some b).
Proof. exact (call_modulo_zero conf show_int show show_sqrt mx i st). Qed.
Print Assumptions C74_modulo_zero.
Example C74_empty_population_ex : bi_pop (ex_in 3 []) = [] /\ bi_pop (ex_in 3 [1%Z]) <> [].
Proof. split; [reflexivity|discriminate]. Qed.

(** without a header the file holds the rows alone, and no comment either *)
Theorem C74_no_header conf show_int show show_sqrt mx h : sc_header conf = false -> sc_modulo conf <> 0%Z ->
  Forall (fun i => bi_pop i <> []) h ->
  Forall (fun i => measured conf i = true -> Forall (fun e => exists t, snd e (bi_pop i) = Ok t) (sc_extras conf)) h ->
  exists bests rows, best_so_far mx h bests /\
    Forall2 (stats_row conf show_int show show_sqrt) (filter (fun ib => measured conf (fst ib)) (combine h bests)) rows /\
    st_text (snd (stats_run conf show_int show show_sqrt mx h (stats_init conf))) =
      concat (map (fun r => join comma_space r ++ [newline]) rows).
Proof. exact (no_header_rows conf show_int show show_sqrt mx h). Qed.
Print Assumptions C74_no_header.
Example C74_no_header_ex :
  Forall (fun i => bi_pop i <> []) [ex_in 3 [1%Z]; ex_in 4 [2%Z]] /\
  st_text (snd (stats_run ex_bare_conf digit ex_show ex_show true [ex_in 3 [1%Z]; ex_in 4 [2%Z]] (stats_init ex_bare_conf))) <> [].
Proof. split; [repeat constructor; discriminate|]. intros H. vm_compute in H. discriminate H. Qed.

(** nothing is quoted: a note with a comma in it gives rows with more fields than the header *)
Theorem C74_unquoted_refuted : exists h header row fs gs,
  lines_are (st_text (snd (stats_run ex_quote_conf digit ex_show ex_show true h (stats_init ex_quote_conf)))) [header; row] /\
  fields_are header fs /\ fields_are row gs /\ length gs = S (length fs).
Proof. exact unquoted. Qed.
Print Assumptions C74_unquoted_refuted.

(** an extra metric that raises leaves half a line behind, and the next row goes on in the same line *)
Theorem C74_interrupted_line_refuted : exists i j rs st,
  stats_run ex_fail_conf digit ex_show ex_show true [i; j] (stats_init ex_fail_conf) = (rs, st) /\
  rs = [Err ValueError; Ok (bi_pop j)] /\
  exists header row fs gs, lines_are (st_text st) [header; row] /\ fields_are header fs /\ fields_are row gs /\
    (length fs < length gs)%nat.
Proof. exact interrupted. Qed.
Print Assumptions C74_interrupted_line_refuted.

(** AttributesCSVProbe needs a stream or a dataframe, and begins with the header if it was asked for *)
Theorem C75_init conf : (attr_init conf = Err ValueError <-> ac_stream conf = false /\ ac_dataframe conf = false) /\
  (ac_stream conf = true \/ ac_dataframe conf = true -> attr_init conf =
     Ok (mk_attr (if ac_stream conf && ac_header conf then [attr_columns conf] else []) [])).
Proof. exact (init_ok conf). Qed.
Print Assumptions C75_init.

(** one line and one dataframe row per individual, in order, each column with the value named by the header *)
Theorem C75_rows conf show_int show show_genome mx gen coin heap pop st :
  (forall e r, In e (ac_extras conf) -> exists v, snd e r = Ok v) -> ac_best_only conf = false ->
  Forall (has_attributes conf) pop ->
  exists als st', Forall2 (attr_row conf show_int show gen) pop als /\
    attr_call conf show_int show show_genome mx gen coin heap pop st = (Ok pop, st') /\ grows conf show_genome st st' heap als.
Proof. exact (fun T => call_rows_grow conf show_int show show_genome mx T gen coin heap pop st). Qed.
Print Assumptions C75_rows.
Example C75_rows_ex :
  (forall e r, In e (ac_extras ex_attr_conf) -> exists v, snd e r = Ok v) /\
  Forall (has_attributes ex_attr_conf) [ex_aind 3 0; ex_aind 5 1] /\
  forall heap, heap 0 = [1; 2]%Z -> heap 1 = [3]%Z ->
  attr_call ex_attr_conf digit ex_show ex_genome_text true 4 ex_coin heap [ex_aind 3 0; ex_aind 5 1] (mk_attr [] []) =
    (Ok [ex_aind 3 0; ex_aind 5 1],
     mk_attr [[lit "7"; lit "ga"; lit "4"; lit "2"; lit "3"; lit "12"; lit "6"]; [lit "7"; lit "ga"; lit "4"; lit "2"; lit "5"; lit "3"; lit "6"]]
       (map (fun fa => [(lit "step", CText (lit "4")); (lit "foo", CText (lit "2")); (lit "job", CText (lit "7")); (lit "alg", CText (lit "ga"));
                        (lit "fitness", CText (fst fa)); (lit "genome", CGenome (snd fa)); (lit "len", CText (lit "6"))])
            [(lit "3", 0); (lit "5", 1)])).
Proof. exact attr_example. Qed.

(** with best_only, one row, for an individual that no other beats by more than the rounding tolerance *)
Theorem C75_best_only conf show_int show show_genome mx gen coin heap pop st :
  (forall e r, In e (ac_extras conf) -> exists v, snd e r = Ok v) -> ac_best_only conf = true -> pop <> [] ->
  Forall (has_attributes conf) pop ->
  exists best al st', In best pop /\
    (forall y, In y pop -> better mx (si_fit (ai_sind y)) (si_fit (ai_sind best)) ->
       within_rel tol (si_fit (ai_sind y)) (si_fit (ai_sind best))) /\
    attr_row conf show_int show gen best al /\
    attr_call conf show_int show show_genome mx gen coin heap pop st = (Ok pop, st') /\ grows conf show_genome st st' heap [al].
Proof. exact (fun T => call_best_grow conf show_int show show_genome mx T gen coin heap pop st). Qed.
Print Assumptions C75_best_only.
Theorem C75_best_only_empty conf show_int show show_genome mx gen coin heap st : ac_best_only conf = true ->
  attr_call conf show_int show show_genome mx gen coin heap [] st = (Err ValueError, st).
Proof. exact (call_best_empty conf show_int show show_genome mx gen coin heap st). Qed.
Print Assumptions C75_best_only_empty.

(** an individual without one of the attributes raises; the rows of those before it stay *)
Theorem C75_missing_attribute conf show_int show show_genome mx gen coin heap pre ind post st :
  (forall e r, In e (ac_extras conf) -> exists v, snd e r = Ok v) -> ac_best_only conf = false ->
  Forall (has_attributes conf) pre -> ~ has_attributes conf ind ->
  attr_call conf show_int show show_genome mx gen coin heap (pre ++ ind :: post) st =
  (Err ValueError, snd (attr_call conf show_int show show_genome mx gen coin heap pre st)).
Proof. exact (fun T => call_missing conf show_int show show_genome mx T gen coin heap pre ind post st). Qed.
Print Assumptions C75_missing_attribute.
Example C75_missing_attribute_ex : ~ has_attributes ex_attr_conf (mk_aind [(lit "bar", lit "1")] (mk_sind 0 (NInt 1)) 0) /\
  has_attributes ex_attr_conf (ex_aind 3 0).
Proof. exact missing_example. Qed.

(** if no genome changes, the dataframe has what the stream has got after its header, whatever the calls *)
Theorem C75_dataframe_agrees conf show_int show show_genome mx gens coin heap pops hd :
  (forall e r, In e (ac_extras conf) -> exists v, snd e r = Ok v) -> ac_best_only conf = false ->
  ac_dataframe conf = true -> ac_stream conf = true -> Forall (Forall (has_attributes conf)) pops -> length gens = length pops ->
  let st' := fold_left (fun s gp => snd (attr_call conf show_int show show_genome mx (fst gp) coin heap (snd gp) s))
               (combine gens pops) (mk_attr hd []) in
  exists ls, as_lines st' = hd ++ ls /\ dataframe conf show_genome heap st' = Ok ls.
Proof. exact (dataframe_agrees conf show_int show show_genome mx gens coin heap pops hd). Qed.
Print Assumptions C75_dataframe_agrees.

(** the dataframe does not keep the genomes it was given: changed in place, they are changed in it *)
Theorem C75_dataframe_snapshot_refuted : exists heap heap' st ls ls',
  snd (attr_call ex_attr_conf digit ex_show ex_genome_text true 0 ex_coin heap [ex_aind 3 0] (mk_attr [] [])) = st /\
  dataframe ex_attr_conf ex_genome_text heap st = Ok ls /\ as_lines st = ls /\
  dataframe ex_attr_conf ex_genome_text heap' st = Ok ls' /\ ls' <> ls.
Proof. exact snapshot. Qed.
Print Assumptions C75_dataframe_snapshot_refuted.

(** a dataframe that was not asked for is an error, not an empty table *)
Theorem C75_no_dataframe conf show_genome heap st :
  (exists e, dataframe conf show_genome heap st = Err e) <-> ac_dataframe conf = false.
Proof. exact (no_dataframe conf show_genome heap st). Qed.
Print Assumptions C75_no_dataframe.

(** an attribute called "step" takes the place of the generation *)
Theorem C75_column_collision_refuted : exists gen ind st,
  attr_call ex_step_conf digit ex_show ex_genome_text true gen ex_coin (fun _ => []) [ind] (mk_attr [] []) = (Ok [ind], st) /\
  forall line t, In line (as_lines st) -> In t line -> t <> digit gen.
Proof. exact collision. Qed.
Print Assumptions C75_column_collision_refuted.
