(** What a CSV text means, and what the columns of the statistics are. *)
From Coq Require Import Ascii String.
From Verif Require Import Model.Base Model.Scalar Model.Probe Model.CsvProbe Spec.Order Spec.Metrics Spec.Problems.
Local Open Scope list_scope.

(** ** reading a text *)
Definition comma : ascii := ","%char.
Definition space : ascii := " "%char.

Fixpoint sep_by (c : ascii) (l : list text) : text :=
  match l with
  | [] => []
  | [x] => x
  | x :: r => x ++ c :: sep_by c r
  end.
Fixpoint drop_spaces (t : text) : text :=
  match t with
  | x :: r => if Ascii.eqb x space then drop_spaces r else t
  | [] => []
  end.

(** the lines of a text, each closed by a newline *)
Definition lines_are (t : text) (ls : list text) : Prop :=
  t = concat (map (fun l => l ++ [newline]) ls) /\ Forall (fun l => ~ In newline l) ls.
(** the fields of a line: what stands between commas, without spaces in front *)
Definition fields_are (line : text) (fs : list text) : Prop :=
  exists raw, raw <> [] /\ line = sep_by comma raw /\ Forall (fun f => ~ In comma f) raw /\ fs = map drop_spaces raw.

(** A field that can stand in a line: no comma, no newline, no space in front. *)
Definition clean (t : text) : Prop := ~ In comma t /\ ~ In newline t /\ drop_spaces t = t.

(** ** statistics *)
(** NaN if there is one; otherwise the value of an element that no other is below (above). *)
Definition lowest (l : list num) (m : num) : Prop :=
  if existsb isnan l then num_val m = None
  else exists x v, In x l /\ num_val x = Some v /\ num_val m = Some v /\
       forall y w, In y l -> num_val y = Some w -> ~ ext_lt w v.
Definition highest (l : list num) (m : num) : Prop :=
  if existsb isnan l then num_val m = None
  else exists x v, In x l /\ num_val x = Some v /\ num_val m = Some v /\
       forall y w, In y l -> num_val y = Some w -> ~ ext_lt v w.
(** the mean squared distance from the mean, for finite values *)
Definition variance_of (l : list num) (v : num) : Prop :=
  ((exists x, In x l /\ forall q, num_val x <> Some (Fin q)) -> num_val v = None) /\
  (forall qs m, l <> [] -> Forall2 (fun x q => num_val x = Some (Fin q)) l qs ->
     (m * inject_Z (Z.of_nat (length l)) == Qsum qs)%Q ->
     exists s, num_val v = Some (Fin s) /\
       (s * inject_Z (Z.of_nat (length l)) == Qsum (map (fun q => (q - m) * (q - m)) qs))%Q).

Section Rows.
Variables (conf : stats_conf) (show_int : Z -> text) (show show_sqrt : num -> text) (mx : bool).

(** the columns of the table *)
Definition columns : list text :=
  (match sc_job conf with Some _ => [lit "job"] | None => [] end) ++ map fst (sc_notes conf) ++
  [lit "step"; lit "bsf"; lit "mean_fitness"; lit "std_fitness"; lit "min_fitness"; lit "max_fitness"] ++
  map fst (sc_extras conf).
(** the entries of one row, for a call and the best individual so far *)
Definition stats_row (ib : bsf_input * sind) (row : list text) : Prop :=
  let '(i, b) := ib in
  let fits := map si_fit (bi_pop i) in
  exists m v lo hi es, mean_of fits m /\ variance_of fits v /\ lowest fits lo /\ highest fits hi /\
    Forall2 (fun e t => snd e (bi_pop i) = Ok t) (sc_extras conf) es /\
    row = (match sc_job conf with Some j => [j] | None => [] end) ++ map snd (sc_notes conf) ++
          [show_int (bi_gen i); show (si_fit b); show m; show_sqrt v; show lo; show hi] ++ es.

(** a call in a generation that is a multiple of the interval *)
Definition measured (i : bsf_input) : bool := (bi_gen i mod sc_modulo conf =? 0)%Z.

(** the best individual up to and including each call, up to the tolerance of the comparison *)
Definition best_so_far (h : list bsf_input) (bests : list sind) : Prop :=
  length bests = length h /\
  forall k b, nth_error bests k = Some b ->
    let seen := concat (map bi_pop (firstn (S k) h)) in
    In b seen /\ forall y, In y seen -> better mx (si_fit y) (si_fit b) -> within_rel (2 * tol) (si_fit y) (si_fit b).

(** Names and texts of the configuration that can stand in a line. *)
Definition clean_conf : Prop :=
  (match sc_job conf with Some j => clean j | None => True end) /\
  Forall (fun n => clean (fst n) /\ clean (snd n)) (sc_notes conf) /\ Forall (fun e => clean (fst e)) (sc_extras conf).
(** The comment, line by line, each line marked. *)
Definition comment_lines (cs : list text) : Prop :=
  exists ls, cs = map (fun l => lit "# " ++ l) ls /\ (sc_comment conf = [] -> ls = []) /\
    (sc_comment conf <> [] -> sep_by newline ls = sc_comment conf).
End Rows.

(** ** attributes *)
(** The value that column [n] of an individual's row should have: the last of step, attributes, job, notes, fitness,
    genome and extra metrics to be called [n]. *)
Definition last_named {A} (l : list (text * A)) (n : text) (v : option A) : Prop :=
  match v with
  | Some a => exists l1 l2, l = l1 ++ (n, a) :: l2 /\ ~ In n (map fst l2)
  | None => ~ In n (map fst l)
  end.

(** What an individual's row is made of, in the order in which it is put there: the step, the attributes, job, notes,
    fitness, genome and the extra metrics.  An extra metric sees a row with everything before it. *)
Definition attr_row (conf : attr_conf) (show_int : Z -> text) (show : num -> text) (gen : Z) (ind : aind)
    (al : list (text * cell)) : Prop :=
  exists vs evs, Forall2 (fun a v => In (a, v) (ai_attrs ind)) (ac_attributes conf) vs /\
    length evs = length (ac_extras conf) /\
    let base := (lit "step", CText (show_int gen)) :: combine (ac_attributes conf) (map CText vs)
      ++ (match ac_job conf with Some j => [(lit "job", CText j)] | None => [] end)
      ++ map (fun n => (fst n, CText (snd n))) (ac_notes conf)
      ++ (if ac_fitness conf then [(lit "fitness", CText (show (si_fit (ai_sind ind))))] else [])
      ++ (if ac_genome conf then [(lit "genome", CGenome (ai_genome ind))] else []) in
    al = base ++ combine (map fst (ac_extras conf)) evs /\
    forall k name f, nth_error (ac_extras conf) k = Some (name, f) -> exists r v,
      nth_error evs k = Some v /\ f r = Ok v /\
      forall n, last_named (base ++ combine (map fst (ac_extras conf)) (firstn k evs)) n (lookup n r).

(** A line has, under each field name, the last thing of that name. *)
Definition attr_line (show_genome : list Z -> text) (heap : nat -> list Z) (names : list text)
    (al : list (text * cell)) (line : list text) : Prop :=
  Forall2 (fun n t => exists c, last_named al n (Some c) /\
     t = match c with CText x => x | CGenome a => show_genome (heap a) end) names line.

(** The columns: job, notes, step, attributes, fitness, genome, extra metrics. *)
Definition attr_columns (conf : attr_conf) : list text :=
  concat [match ac_job conf with Some _ => [lit "job"] | None => [] end; map fst (ac_notes conf); [lit "step"];
          ac_attributes conf; if ac_fitness conf then [lit "fitness"] else []; if ac_genome conf then [lit "genome"] else [];
          map fst (ac_extras conf)].

(** The individual has every attribute asked for. *)
Definition has_attributes (conf : attr_conf) (ind : aind) : Prop :=
  Forall (fun a => In a (map fst (ai_attrs ind))) (ac_attributes conf).

(** The stream has got a line for each of [als], with genomes as they were at the time; the dataframe has got a row for
    each of [als], with genomes as they are whenever the dataframe is asked for. *)
Definition grows (conf : attr_conf) (show_genome : list Z -> text) (st st' : attr_state) (heap : nat -> list Z)
    (als : list (list (text * cell))) : Prop :=
  (exists lines, Forall2 (attr_line show_genome heap (attr_columns conf)) als lines /\
     as_lines st' = as_lines st ++ (if ac_stream conf then lines else [])) /\
  (ac_dataframe conf = true -> forall heap', exists old new, dataframe conf show_genome heap' st = Ok old /\
     Forall2 (attr_line show_genome heap' (attr_columns conf)) als new /\ dataframe conf show_genome heap' st' = Ok (old ++ new)).

(** ** examples *)
Definition digit (z : Z) : text := [ascii_of_nat (48 + Z.to_nat (z mod 10))].
Definition ex_show (n : num) : text :=
  match num_val n with Some (Fin q) => digit (Qnum (Qred q)) | _ => lit "nan" end.
Definition ex_coin (a b : sind) : bool := true.
Definition ex_in (g : Z) (fits : list Z) : bsf_input := mk_bin g ex_coin (map (fun z => mk_sind 0 (NInt z)) fits).
Definition ex_conf : stats_conf :=
  mk_conf (Some (lit "7")) [(lit "alg", lit "ga")] [(lit "size", fun pop => Ok (digit (Z.of_nat (length pop))))] 2
    (lit "x" ++ newline :: lit "y") true.
Definition ex_quote_conf : stats_conf := mk_conf None [(lit "note", lit "a, b")] [] 1 [] true.
Definition ex_bare_conf : stats_conf := mk_conf None [] [] 2 (lit "a comment") false.
(** an extra metric that fails on the first population *)
Definition ex_fail_conf : stats_conf :=
  mk_conf None [] [(lit "f", fun pop => match pop with [_] => Err ValueError | _ => Ok (lit "0") end)] 1 [] true.
Definition ex_attr_conf : attr_conf :=
  mk_aconf [lit "foo"] true true false true true true [(lit "alg", lit "ga")]
    [(lit "len", fun r => Ok (CText (digit (Z.of_nat (length r)))))] (Some (lit "7")).
Definition ex_genome_text (g : list Z) : text := concat (map digit g).
Definition ex_aind (fit : Z) (addr : nat) : aind := mk_aind [(lit "bar", lit "1"); (lit "foo", lit "2")] (mk_sind addr (NInt fit)) addr.
Definition ex_step_conf : attr_conf := mk_aconf [lit "step"] true false false true false false [] [] None.
