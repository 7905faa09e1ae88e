(** Printing from a pipeline: leap_ec/probe.py:22-69 and leap_ec/util.py:29-42, 272-297.  A stream is the text written to it. *)
From Coq Require Import Ascii String.
From Verif Require Import Model.Base Model.CsvProbe.
Local Open Scope list_scope.

(** print(t, file=stream), leap_ec/probe.py:67 *)
Definition print (t : text) (stream : text) : text := stream ++ t ++ [newline].

(** leap_ec/individual.py:255-256 Individual.__str__; the name of the class, str() of the uuid and of the fitness *)
Definition individual_str (cls uuid fitness : text) : text :=
  cls ++ lit "<" ++ uuid ++ lit "> with fitness " ++ fitness.

Section Printing.
Context {I V U : Type}.
(** str() of an individual and of what a probe returns, leap_ec/probe.py:45, 67 *)
Variables (show : I -> text) (show_value : V -> text).

(** leap_ec/probe.py:27-47 print_probe.  The population is the same list object before and after, so one list stands for it. *)
Definition print_probe (probe : list I -> result V) (prefix : text) (population : list I) (stream : text) : result (list I) * text :=
  match probe population with
  | Ok v => (Ok population, stream ++ prefix ++ show_value v)
  | Err e => (Err e, stream)
  end.
(** leap_ec/probe.py:27-47: the operator at work in one generation after the other *)
Fixpoint print_probes (probe : list I -> result V) (prefix : text) (populations : list (list I)) (stream : text) : list (result (list I)) * text :=
  match populations with
  | [] => ([], stream)
  | p :: r =>
      let '(o, stream1) := print_probe probe prefix p stream in
      let '(os, stream2) := print_probes probe prefix r stream1 in (o :: os, stream2)
  end.

(** leap_ec/probe.py:54-69 print_individual: one pull.  [next] is the upstream iterator with its state; a StopIteration
    escaping from a generator is a RuntimeError. *)
Definition print_pull (next : U -> result (I * U)) (prefix : text) (u : U) (stream : text) : result (I * U) * text :=
  match next u with
  | Ok (i, u') => (Ok (i, u'), print (prefix ++ show i) stream)
  | Err StopIteration => (Err RuntimeError, stream)
  | Err e => (Err e, stream)
  end.
(** leap_ec/probe.py:54-69: [n] pulls or fewer, if one raises: the individuals yielded, the exception if any, and the
    stream *)
Fixpoint print_pulls (next : U -> result (I * U)) (prefix : text) (n : nat) (u : U) (stream : text) : list I * option exn * text :=
  match n with
  | 0 => ([], None, stream)
  | S m =>
      match print_pull next prefix u stream with
      | (Ok (i, u'), stream') => let '(l, e, stream'') := print_pulls next prefix m u' stream' in (i :: l, e, stream'')
      | (Err e, stream') => ([], Some e, stream')
      end
  end.

(** leap_ec/util.py:32-42 print_population; str() of the generation, of a genome and of a fitness *)
Definition print_population (show_genome show_fitness : I -> text) (population : list I) (generation : text) (stream : text) : text :=
  fold_left (fun s i => print (generation ++ lit " " ++ show_genome i ++ lit " " ++ show_fitness i) s) population stream.

(** leap_ec/util.py:275-297 print_list *)
Definition print_list (l : list I) (stream : text) : text :=
  print (lit "[" ++ join (lit ", ") (map show l) ++ lit "]") stream.
End Printing.
