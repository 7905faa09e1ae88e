(** leap_ec/contrib/transfer/sequential.py: the file of a PopulationSeedingRepertoire and its use.  Python's csv module is
    modelled as far as it is used: csv.writer with its defaults (Model/CsvLog.v) and csv.reader with QUOTE_NONNUMERIC. *)
From Coq Require Import Ascii String.
From Verif Require Import Model.Base Model.CsvProbe Model.CsvLog Model.Transfer.
Local Open Scope list_scope.

(** a gene in memory: a number, or a string, which is what a quoted field of a file becomes; a genome is the list of its
    genes.  leap_ec/contrib/transfer/sequential.py:61-62 *)
Inductive rgene := RNum (n : num) | RStr (t : text).

Section File.
(** str() of a number, and float() of a string, None for ValueError; leap_ec/contrib/transfer/sequential.py:62, 95 *)
Variable show : num -> text.
Variable parse : text -> option num.

(** leap_ec/contrib/transfer/sequential.py:95: str() of a gene *)
Definition gene_text (g : rgene) : text := match g with RNum n => show n | RStr t => t end.

(** leap_ec/contrib/transfer/sequential.py:92-95 export: the contents of the file *)
Definition export (repertoire : list (list rgene)) : text :=
  concat (map (fun genome => write_row crlf (map gene_text genome)) repertoire).

(** open(path, 'w'), leap_ec/contrib/transfer/sequential.py:94: without newline='' a line feed is written as the line
    separator of the system, '\n' on Linux and '\r\n' on Windows *)
Definition text_write (linesep : text) (t : text) : text := flat_map (fun c => if Ascii.eqb c newline then linesep else [c]) t.

(** open(repfile, 'r'), leap_ec/contrib/transfer/sequential.py:61: every line end is read as '\n' *)
Fixpoint universal (t : text) : text :=
  match t with
  | [] => []
  | c :: r =>
      if Ascii.eqb c creturn
      then newline :: match r with
                      | d :: r' => if Ascii.eqb d newline then universal r' else universal r
                      | [] => []
                      end
      else c :: universal r
  end.

(** csv.reader: the states of its parser; leap_ec/contrib/transfer/sequential.py:61-62 *)
Inductive nstate := NRow | NField | NPlain | NQuoted | NQuoteSeen.
(** the end of a field, leap_ec/contrib/transfer/sequential.py:61-62: QUOTE_NONNUMERIC turns fields that began without a
    quote, and are not empty, into floats *)
Definition save_field (numeric : bool) (cur : text) : result rgene :=
  if numeric then match parse cur with Some n => Ok (RNum n) | None => Err ValueError end else Ok (RStr cur).
(** leap_ec/contrib/transfer/sequential.py:61-62: the rows, [cur] and [row] being the field and the row read so far *)
Fixpoint nn_read (s : nstate) (numeric : bool) (cur : text) (row : list rgene) (t : text) : result (list (list rgene)) :=
  match t with
  | [] =>
      match s with
      | NRow => Ok []
      | _ => bind (save_field numeric cur) (fun g => Ok [row ++ [g]])
      end
  | c :: r =>
      let field_end := bind (save_field numeric cur) (fun g => nn_read NField false [] (row ++ [g]) r) in
      let row_end := bind (save_field numeric cur) (fun g => bind (nn_read NRow false [] [] r) (fun rows => Ok ((row ++ [g]) :: rows))) in
      match s with
      | NRow =>
          if Ascii.eqb c newline then bind (nn_read NRow false [] [] r) (fun rows => Ok ([] :: rows))
          else if Ascii.eqb c quotechar then nn_read NQuoted false [] row r
          else if Ascii.eqb c delimiter then field_end
          else nn_read NPlain true [c] row r
      | NField =>
          if Ascii.eqb c newline then row_end
          else if Ascii.eqb c quotechar then nn_read NQuoted false [] row r
          else if Ascii.eqb c delimiter then field_end
          else nn_read NPlain true [c] row r
      | NPlain =>
          if Ascii.eqb c newline then row_end
          else if Ascii.eqb c delimiter then field_end
          else nn_read NPlain numeric (cur ++ [c]) row r
      | NQuoted =>
          if Ascii.eqb c quotechar then nn_read NQuoteSeen numeric cur row r
          else nn_read NQuoted numeric (cur ++ [c]) row r
      | NQuoteSeen =>
          if Ascii.eqb c quotechar then nn_read NQuoted numeric (cur ++ [c]) row r
          else if Ascii.eqb c newline then row_end
          else if Ascii.eqb c delimiter then field_end
          else nn_read NPlain numeric (cur ++ [c]) row r
      end
  end.

(** leap_ec/contrib/transfer/sequential.py:57-65 __init__: the repertoire, from the contents of the file if there is one *)
Definition repertoire_init (repfile : option text) : result (list (list rgene)) :=
  match repfile with
  | None => Ok []
  | Some file => nn_read NRow false [] [] (universal file)
  end.
End File.

(** leap_ec/contrib/transfer/sequential.py:97-101 apply: the algorithm gets a new seeded initializer, i.e. one with index 0;
    [s] is the state of the wrapped initializer *)
Definition apply {S G P K R} (algorithm : P -> (nat * S -> result G * (nat * S)) -> nat * S -> K -> R)
    (initialize : S -> result G * S) (repertoire : list G) (problem : P) (s : S) (kwargs : K) : R :=
  algorithm problem (seeded initialize repertoire) (0, s) kwargs.
