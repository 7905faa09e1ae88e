(** Specifications for repertoires on file *)
From Coq Require Import Ascii String.
From Verif Require Import Model.Base Model.CsvProbe Model.CsvLog Model.Transfer Model.Repertoire.
Local Open Scope list_scope.

(** the same number as a Python float *)
Definition as_float (n x : num) : Prop := (forall z, x <> NInt z) /\ num_val x = num_val n.

(** a text that can stand in a CSV file without quotes *)
Definition plain (t : text) : Prop :=
  t <> [] /\ ~ In ","%char t /\ ~ In """"%char t /\ ~ In "010"%char t /\ ~ In "013"%char t.
(** what is asked of str() and float(): float(str(n)) is n *)
Definition faithful (show : num -> text) (parse : text -> option num) (n : num) : Prop :=
  plain (show n) /\ exists x, parse (show n) = Some x /\ as_float n x.

(** two repertoires with the same numbers, the second one with floats *)
Definition same_numbers : list (list num) -> list (list num) -> Prop := Forall2 (Forall2 as_float).
(** genomes of numbers *)
Definition numbers (rep : list (list num)) : list (list rgene) := map (map RNum) rep.

(** what str() makes of a gene *)
Definition str_of (show : num -> text) (g : rgene) : text := match g with RNum n => show n | RStr t => t end.
(** how a gene with the text t comes back from a file: as text if csv.writer put it in quotes or if it is empty, otherwise as
    the number it reads as *)
Inductive comes_back (parse : text -> option num) : text -> rgene -> Prop :=
| back_empty : comes_back parse [] (RStr [])
| back_text t : In ","%char t \/ In """"%char t \/ In "010"%char t -> comes_back parse t (RStr t)
| back_number t n : plain t -> parse t = Some n -> comes_back parse t (RNum n).

(** examples *)
Definition ex_show (n : num) : text :=
  match n with NInt 0 => lit "0" | NInt 1 => lit "1" | NFlt _ (Fin (1 # 2)) => lit "0.5" | NFlt _ (Fin (0 # 1)) => lit "0.0"
  | NFlt _ (Fin (1 # 1)) => lit "1.0" | _ => lit "nan" end.
Definition ex_parse (t : text) : option num :=
  let is s := if list_eq_dec ascii_dec t (lit s) then true else false in
  if is "0"%string || is "0.0"%string then Some (NFlt true (Fin 0%Q)) else if is "1"%string || is "1.0"%string then Some (NFlt true (Fin 1%Q))
  else if is "0.5"%string then Some (NFlt true (Fin (1 # 2))) else if is "nan"%string then Some NNan else None.
Definition ex_rep : list (list num) := [[NInt 0; NInt 1]; []; [NFlt true (Fin (1 # 2)%Q)]].
Definition ex_rep_back : list (list num) := [[NFlt true (Fin 0%Q); NFlt true (Fin 1%Q)]; []; [NFlt true (Fin (1 # 2)%Q)]].
(** an algorithm that only makes its first population *)
Definition ex_algorithm (problem : nat) (init : nat * nat -> result nat * (nat * nat)) (st : nat * nat) (pop_size : nat) : result (list nat) :=
  match create_population init pop_size tt problem st with (Ok l, _) => Ok (map m_genome l) | (Err e, _) => Err e end.
(** genes of several kinds: a text with a comma, one with quotes, an empty one *)
Definition ex_genes : list (list rgene) := [[RStr (lit "a,b"); RNum (NInt 1)]; [RStr []]; []; [RStr (lit "say ""0"""); RStr []]].
Definition ex_genes_back : list (list rgene) :=
  [[RStr (lit "a,b"); RNum (NFlt true (Fin 1%Q))]; [RStr []]; []; [RStr (lit "say ""0"""); RStr []]].
