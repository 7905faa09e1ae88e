(** Reading a CSV file back, as Python's csv.reader does. *)
From Coq Require Import Ascii String.
From Verif Require Import Model.Base Model.Scalar Model.Problems Model.CsvProbe Model.Migration Model.CsvLog.
Local Open Scope list_scope.

(** the reader: at the start of a row or a field, inside a field, inside quotes, behind a quote inside quotes, behind '\r' *)
Inductive rstate := RowStart | FieldStart | InField | InQuotes | QuoteSeen | AfterCR.
Definition c_comma : ascii := ","%char.
Definition c_quote : ascii := """"%char.
Definition c_lf : ascii := "010"%char.
Definition c_cr : ascii := "013"%char.

(** [read s cur row t]: the rows of [t], [cur] being the field and [row] the fields read so far; None for malformed texts *)
Fixpoint read (s : rstate) (cur : text) (row : list text) (t : text) : option (list (list text)) :=
  match t with
  | [] =>
      match s with
      | RowStart | AfterCR => Some []
      | InQuotes => None
      | _ => Some [row ++ [cur]]
      end
  | c :: r =>
      let field_end := read FieldStart [] (row ++ [cur]) r in
      let row_end (last : list text) :=
        option_map (cons last) (if Ascii.eqb c c_cr then read AfterCR [] [] r else read RowStart [] [] r) in
      let is_nl := Ascii.eqb c c_cr || Ascii.eqb c c_lf in
      match s with
      | RowStart =>
          if is_nl then row_end [] else if Ascii.eqb c c_quote then read InQuotes [] row r
          else if Ascii.eqb c c_comma then field_end else read InField [c] row r
      | FieldStart =>
          if is_nl then row_end (row ++ [[]]) else if Ascii.eqb c c_quote then read InQuotes [] row r
          else if Ascii.eqb c c_comma then field_end else read InField [c] row r
      | InField =>
          if is_nl then row_end (row ++ [cur])
          else if Ascii.eqb c c_comma then field_end else read InField (cur ++ [c]) row r
      | InQuotes => if Ascii.eqb c c_quote then read QuoteSeen cur row r else read InQuotes (cur ++ [c]) row r
      | QuoteSeen =>
          if Ascii.eqb c c_quote then read InQuotes (cur ++ [c]) row r
          else if is_nl then row_end (row ++ [cur])
          else if Ascii.eqb c c_comma then field_end else read InField (cur ++ [c]) row r
      | AfterCR => if Ascii.eqb c c_lf then read RowStart [] [] r else None
      end
  end.
Definition csv_read (t : text) : option (list (list text)) := read RowStart [] [] t.

(** no '\r' in a text *)
Definition no_cr (f : text) : Prop := ~ In c_cr f.

(** ** rows *)
Section MigrationRows.
Variables (show_int : Z -> text) (show : num -> text) (show_bool : bool -> text) (notes : pydict).
Definition std_names : list text := [lit "generation"; lit "migrant_fitness"; lit "contestant_fitness"; lit "success"].
(** the notes have distinct names other than those of the columns that follow *)
Definition good_notes : Prop := NoDup (map fst notes) /\ forall k, In k (map fst notes) -> ~ In k std_names.
Definition migration_row {G} (gen : Z) (a : @attempt G) : list text :=
  map snd notes ++ [show_int gen; show (m_fit (a_stamped a)); show (m_fit (a_contestant a)); show_bool (a_success a)].
Definition migration_rows {G} (os : list (@mig_out G)) : list (list text) :=
  concat (map (fun o => map (migration_row (o_gen o)) (o_attempts o)) os).
End MigrationRows.

(** the values of the named attributes *)
Definition has_values (names : list text) (ind : attributes) (vs : list text) : Prop :=
  Forall2 (fun n v => ind n = Some v) names vs.
(** the columns of the logs *)
Definition worker_columns : list text :=
  [lit "hostname"; lit "pid"; lit "uuid"; lit "birth_id"; lit "start_eval_time"; lit "stop_eval_time"; lit "fitness"].
Definition pop_columns : list text := [lit "uuid"; lit "birth_id"; lit "start_eval_time"; lit "stop_eval_time"; lit "fitness"].
Definition coop_columns : list text :=
  [lit "generation"; lit "subpopulation"; lit "individual_type"; lit "collaborator_subpopulation"; lit "genome"; lit "fitness"].
(** the rows of the snapshots: one per member of every population at a position divisible by [u], counting from [k] *)
Inductive snapshots (show_int : Z -> text) (u : Z) : Z -> list (list attributes) -> list (list text) -> Prop :=
  | snap_nil k : snapshots show_int u k [] []
  | snap_skip k p r rows : (k mod u <> 0)%Z -> snapshots show_int u (k + 1) r rows -> snapshots show_int u k (p :: r) rows
  | snap_take k p r vss rows : (k mod u = 0)%Z -> Forall2 (has_values pop_columns) p vss -> snapshots show_int u (k + 1) r rows ->
      snapshots show_int u k (p :: r) (map (cons (show_int k)) vss ++ rows).

Section CoopRows.
Context {G : Type}.
Variables (generation subpopulation : text) (show_int : Z -> text) (show : num -> text) (show_genome : list G -> text)
  (own_fitness : cind G -> text).
(** the rows of one trial: the collaborators, numbered, then their combination with its fitness *)
Definition trial_rows (cs : list (cind G)) (f : num) : list (list text) :=
  map (fun p => [generation; subpopulation; lit "Collaborator"; show_int (Z.of_nat (fst p)); show_genome (c_genome (snd p)); own_fitness (snd p)])
      (List.combine (seq 0 (length cs)) cs)
  ++ [[generation; subpopulation; lit "Combined Individual"; []; show_genome (concat (map c_genome cs)); show f]].
End CoopRows.

(** examples *)
Definition ex_show_int (z : Z) : text := if (z <? 0)%Z then lit "-" else if (z =? 0)%Z then lit "0" else if (z =? 1)%Z then lit "1" else lit "2".
Definition ex_show (n : num) : text := match n with NInt z => ex_show_int z | NFlt _ _ => lit "1.5" | NNan => lit "nan" end.
Definition ex_show_bool (b : bool) : text := if b then lit "True" else lit "False".
Definition ex_attr (u : text) : attributes := fun n => if list_eq_dec ascii_dec n (lit "uuid") then Some u else Some (lit "x").
Definition ex_coop (i : nat) (g : list Z) : cind Z := mk_cind i g (fun l => Ok (NInt (fold_right Z.add 0%Z l))).

(** [v] is what the dictionary [d] has under the key [f], the empty text if it has nothing there *)
Definition dict_value (d : pydict) (f v : text) : Prop :=
  (exists pre post, d = pre ++ (f, v) :: post /\ ~ In f (map fst pre)) \/ (~ In f (map fst d) /\ v = []).
