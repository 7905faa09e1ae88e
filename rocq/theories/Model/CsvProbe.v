(** leap_ec/probe.py: FitnessStatsCSVProbe and AttributesCSVProbe, down to the characters they write.  Fitnesses are
    scalar.  str() of a number is an argument; sums, means and deviations are exact. *)
From Coq Require Import Ascii String.
From Verif Require Import Model.Base Model.PyList Model.Scalar Model.Problems Model.Probe.
Local Open Scope list_scope.

(** a Python str, as at leap_ec/probe.py:346-360 *)
Definition text := list ascii.
(** string literals, as at leap_ec/probe.py:346-353 *)
Definition lit (s : string) : text := list_ascii_of_string s.
(** '\n', leap_ec/probe.py:353 *)
Definition newline : ascii := ascii_of_nat 10.
(** ', ', leap_ec/probe.py:347 *)
Definition comma_space : text := lit ", ".

(** sep.join(l), leap_ec/probe.py:348-350 *)
Fixpoint join (sep : text) (l : list text) : text :=
  match l with
  | [] => []
  | [x] => x
  | x :: r => x ++ sep ++ join sep r
  end.
(** s.split('\n'), leap_ec/probe.py:358; [cur] is the piece read so far *)
Fixpoint split_from (c : ascii) (cur : text) (s : text) : list text :=
  match s with
  | [] => [cur]
  | x :: r => if Ascii.eqb x c then cur :: split_from c [] r else split_from c (cur ++ [x]) r
  end.
(** leap_ec/probe.py:358 *)
Definition py_split (c : ascii) (s : text) : list text := split_from c [] s.

(** ** numpy on a list of fitnesses: leap_ec/probe.py:391-395 *)

(** np.array: integers stay integers if there is nothing else; leap_ec/probe.py:391-395 *)
Definition is_int (n : num) : bool := match n with NInt _ => true | _ => false end.
(** leap_ec/probe.py:391-395 *)
Definition to_float (n : num) : num := match num_val n with Some e => NFlt false e | None => NNan end.
(** leap_ec/probe.py:391-395 *)
Definition as_array (l : list num) : list num := if forallb is_int l then l else map to_float l.

(** the smaller of two, NaN if one is; leap_ec/probe.py:394 *)
Definition np_min2 (a b : num) : num :=
  if isnan a then a else if isnan b then b else if num_ltb b a then b else a.
(** leap_ec/probe.py:395 *)
Definition np_max2 (a b : num) : num :=
  if isnan a then a else if isnan b then b else if num_ltb a b then b else a.
(** np.min of at least one number, leap_ec/probe.py:394 *)
Definition np_min (l : list num) : num :=
  match as_array l with [] => NNan | x :: r => fold_left np_min2 r x end.
(** np.max of at least one number, leap_ec/probe.py:395 *)
Definition np_max (l : list num) : num :=
  match as_array l with [] => NNan | x :: r => fold_left np_max2 r x end.
(** (x - m) squared; with an infinite mean the square of an infinity, or NaN.  leap_ec/probe.py:393 *)
Definition sq_dev (m x : num) : num :=
  match num_val x, num_val m with
  | Some (Fin a), Some (Fin b) => NFlt false (Fin ((a - b) * (a - b))%Q)
  | Some MInf, Some MInf | Some PInf, Some PInf => NNan
  | Some _, Some _ => NFlt false PInf
  | _, _ => NNan
  end.
(** the square of np.std, leap_ec/probe.py:393 *)
Definition np_var (l : list num) : num := np_mean (map (sq_dev (np_mean l)) l).

(** ** FitnessStatsCSVProbe *)

(** constructor arguments, leap_ec/probe.py:319-344: str() of the job and of the values of notes; extra metrics may
    raise *)
Record stats_conf := mk_conf {
  sc_job : option text; sc_notes : list (text * text); sc_extras : list (text * (list sind -> result text));
  sc_modulo : Z; sc_comment : text; sc_header : bool }.

(** what the object remembers, and what it wrote, leap_ec/probe.py:335-344 *)
Record stats_state := mk_stats { st_bsf : option sind; st_text : text }.

Section Stats.
Variable conf : stats_conf.
(** str() of an integer, of a number, and of the square root of a number; leap_ec/probe.py:383-395 *)
Variable show_int : Z -> text.
Variable show : num -> text.
Variable show_sqrt : num -> text.
Variable maximize : bool.

(** leap_ec/probe.py:346-353 write_header *)
Definition write_header : text :=
  let job_header := match sc_job conf with Some _ => lit "job, " | None => [] end in
  let note_extras := match sc_notes conf with [] => [] | ns => join comma_space (map fst ns) ++ comma_space end in
  let extras := match sc_extras conf with [] => [] | es => comma_space ++ join comma_space (map fst es) end in
  job_header ++ note_extras ++ lit "step, bsf, mean_fitness, std_fitness, min_fitness, max_fitness" ++ extras ++ [newline].

(** leap_ec/probe.py:355-360 write_comment; the empty comment, like None, writes nothing *)
Definition write_comment : text :=
  match sc_comment conf with
  | [] => []
  | c => join [newline] (map (fun line => lit "# " ++ line) (py_split newline c)) ++ [newline]
  end.

(** leap_ec/probe.py:319-344 __init__ *)
Definition stats_init : stats_state :=
  mk_stats None (if sc_header conf then write_comment ++ write_header else []).

(** leap_ec/probe.py:396-397: what is written when an extra metric raises stays written *)
Fixpoint write_extras (es : list (text * (list sind -> result text))) (pop : list sind) (t : text) : result unit * text :=
  match es with
  | [] => (Ok tt, t)
  | (_, f) :: r => match f pop with
                   | Err e => (Err e, t)
                   | Ok s => write_extras r pop (t ++ comma_space ++ s)
                   end
  end.

(** leap_ec/probe.py:362-399 __call__; the assertions on the context are taken as satisfied *)
Definition stats_call (i : bsf_input) (st : stats_state) : result (list sind) * stats_state :=
  let pop := bi_pop i in
  match pymax (ind_gt maximize (bi_coin i)) pop with
  | None => (Err ValueError, st)
  | Some best =>
      let b := bsf_update maximize (bi_coin i) (st_bsf st) best in
      if (sc_modulo conf =? 0)%Z then (Err ZeroDivisionError, mk_stats (Some b) (st_text st))
      else if negb (bi_gen i mod sc_modulo conf =? 0)%Z then (Ok pop, mk_stats (Some b) (st_text st))
      else
        let fitnesses := map si_fit pop in
        let t := st_text st
          ++ match sc_job conf with Some j => j ++ comma_space | None => [] end
          ++ concat (map (fun n => snd n ++ comma_space) (sc_notes conf))
          ++ show_int (bi_gen i) ++ comma_space
          ++ show (si_fit b) ++ comma_space
          ++ show (np_mean fitnesses) ++ comma_space
          ++ show_sqrt (np_var fitnesses) ++ comma_space
          ++ show (np_min fitnesses) ++ comma_space
          ++ show (np_max fitnesses) in
        match write_extras (sc_extras conf) pop t with
        | (Err e, t') => (Err e, mk_stats (Some b) t')
        | (Ok _, t') => (Ok pop, mk_stats (Some b) (t' ++ [newline]))
        end
  end.

(** calls one after another; the caller goes on after an exception.  Histories of leap_ec/probe.py:362-399 *)
Fixpoint stats_run (h : list bsf_input) (st : stats_state) : list (result (list sind)) * stats_state :=
  match h with
  | [] => ([], st)
  | i :: h' => let '(r, st') := stats_call i st in
               let '(rs, st'') := stats_run h' st' in (r :: rs, st'')
  end.
End Stats.

(** ** AttributesCSVProbe *)

(** an entry of a row is some value, or an individual's genome, an object of the heap.  leap_ec/probe.py:574-596 *)
Inductive cell := CText (t : text) | CGenome (address : nat).

(** an individual: its attributes __dict__ (with values as text), fitness as text and genome.  leap_ec/probe.py:574-596 *)
Record aind := mk_aind { ai_attrs : list (text * text); ai_sind : sind; ai_genome : nat }.

(** equality of strings, for dict lookup; leap_ec/probe.py:578-595 *)
Definition text_eqb (a b : text) : bool := if list_eq_dec ascii_dec a b then true else false.
(** leap_ec/probe.py:579-583 *)
Fixpoint lookup {A} (k : text) (d : list (text * A)) : option A :=
  match d with
  | [] => None
  | (k', v) :: r => if text_eqb k' k then Some v else lookup k r
  end.
(** d[k] = v; leap_ec/probe.py:576-595 *)
Fixpoint assign {A} (d : list (text * A)) (k : text) (v : A) : list (text * A) :=
  match d with
  | [] => [(k, v)]
  | (k', v') :: r => if text_eqb k' k then (k', v) :: r else (k', v') :: assign r k v
  end.

(** a row of data, leap_ec/probe.py:574-596 *)
Definition arow := list (text * cell).

(** constructor arguments, leap_ec/probe.py:489-507; an extra metric is called with the row *)
Record attr_conf := mk_aconf {
  ac_attributes : list text; ac_stream : bool; ac_dataframe : bool; ac_best_only : bool; ac_header : bool;
  ac_fitness : bool; ac_genome : bool; ac_notes : list (text * text);
  ac_extras : list (text * (arow -> result cell)); ac_job : option text }.

(** the rows written to the stream, each as the strings of its entries, and the rows kept for the dataframe;
    leap_ec/probe.py:529-539 *)
Record attr_state := mk_attr { as_lines : list (list text); as_data : list arow }.

Section Attributes.
Variable conf : attr_conf.
(** str() of a generation number, of a fitness and of a genome's present contents; leap_ec/probe.py:567 *)
Variable show_int : Z -> text.
Variable show : num -> text.
Variable show_genome : list Z -> text.
Variable maximize : bool.

(** leap_ec/probe.py:513-527 *)
Definition fieldnames : list text :=
  (match ac_job conf with Some _ => [lit "job"] | None => [] end)
  ++ map fst (ac_notes conf) ++ [lit "step"] ++ ac_attributes conf
  ++ (if ac_fitness conf then [lit "fitness"] else [])
  ++ (if ac_genome conf then [lit "genome"] else [])
  ++ map fst (ac_extras conf).

(** leap_ec/probe.py:489-539 __init__ *)
Definition attr_init : result attr_state :=
  if negb (ac_dataframe conf) && negb (ac_stream conf) then Err ValueError
  else Ok (mk_attr (if ac_stream conf && ac_header conf then [fieldnames] else []) []).

(** leap_ec/probe.py:578-583 *)
Fixpoint add_attributes (attrs : list text) (ind : aind) (row : arow) : result arow :=
  match attrs with
  | [] => Ok row
  | a :: r => match lookup a (ai_attrs ind) with
              | None => Err ValueError
              | Some v => add_attributes r ind (assign row a (CText v))
              end
  end.
(** leap_ec/probe.py:593-594 *)
Fixpoint add_extras (es : list (text * (arow -> result cell))) (row : arow) : result arow :=
  match es with
  | [] => Ok row
  | (k, f) :: r => bind (f row) (fun v => add_extras r (assign row k v))
  end.
(** leap_ec/probe.py:574-596 get_row_dict *)
Definition get_row_dict (gen : Z) (ind : aind) : result arow :=
  let row := [(lit "step", CText (show_int gen))] in
  bind (add_attributes (ac_attributes conf) ind row) (fun row =>
  let row := match ac_job conf with Some j => assign row (lit "job") (CText j) | None => row end in
  let row := fold_left (fun r n => assign r (fst n) (CText (snd n))) (ac_notes conf) row in
  let row := if ac_fitness conf then assign row (lit "fitness") (CText (show (si_fit (ai_sind ind)))) else row in
  let row := if ac_genome conf then assign row (lit "genome") (CGenome (ai_genome ind)) else row in
  add_extras (ac_extras conf) row).

(** an entry as text, given the contents of the heap; leap_ec/probe.py:567 *)
Definition cell_text (heap : nat -> list Z) (c : cell) : text :=
  match c with CText t => t | CGenome a => show_genome (heap a) end.
(** csv.DictWriter.writerow, leap_ec/probe.py:567: one entry per field name, '' if the row lacks it, ValueError if the
    row has other keys *)
Definition dict_line (names : list text) (heap : nat -> list Z) (row : arow) : result (list text) :=
  if forallb (fun kv => existsb (text_eqb (fst kv)) names) row
  then Ok (map (fun n => match lookup n row with Some c => cell_text heap c | None => [] end) names)
  else Err ValueError.

(** leap_ec/probe.py:564-570 the loop *)
Fixpoint record_all (gen : Z) (heap : nat -> list Z) (inds : list aind) (st : attr_state) : result unit * attr_state :=
  match inds with
  | [] => (Ok tt, st)
  | ind :: r =>
      match get_row_dict gen ind with
      | Err e => (Err e, st)
      | Ok row =>
          match (if ac_stream conf then bind (dict_line fieldnames heap row) (fun l => Ok [l]) else Ok []) with
          | Err e => (Err e, st)
          | Ok ls =>
              record_all gen heap r
                (mk_attr (as_lines st ++ ls) (as_data st ++ (if ac_dataframe conf then [row] else [])))
          end
      end
  end.

(** leap_ec/probe.py:553-572 __call__; max of an empty population raises ValueError *)
Definition attr_call (gen : Z) (coin : sind -> sind -> bool) (heap : nat -> list Z) (pop : list aind) (st : attr_state)
  : result (list aind) * attr_state :=
  let go inds := match record_all gen heap inds st with
                 | (Err e, st') => (Err e, st')
                 | (Ok _, st') => (Ok pop, st')
                 end in
  if ac_best_only conf then
    match pymax (fun a b => ind_gt maximize coin (ai_sind a) (ai_sind b)) pop with
    | None => (Err ValueError, st)
    | Some best => go [best]
    end
  else go pop.

(** leap_ec/probe.py:542-551 dataframe: entries in the order of the field names, read when it is asked for *)
Definition dataframe (heap : nat -> list Z) (st : attr_state) : result (list (list text)) :=
  if ac_dataframe conf
  then Ok (map (fun row => map (fun n => match lookup n row with Some c => cell_text heap c | None => [] end) fieldnames)
             (as_data st))
  else Err ValueError.
End Attributes.
