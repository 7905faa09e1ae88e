(** C87: printing operators. *)
From Coq Require Import Ascii String.
From Verif Require Import Model.Base Model.CsvProbe Model.Printing Spec.Printing Proofs.Printing.
Local Open Scope list_scope.

(** print_individual hands on what it pulls, one line for each, printed when it is pulled *)
Theorem C87_print_individual :
  forall I U (show : I -> text) (next : U -> result (I * U)) prefix u l u' stream, yields next u l u' ->
  exists added, print_pulls show next prefix (length l) u stream = (l, None, stream ++ added) /\
    (Forall (fun i => one_line (prefix ++ show i)) l -> lines added = map (fun i => prefix ++ show i) l).
Proof. exact @print_pulls_ok. Qed.
Print Assumptions C87_print_individual.

(** if the upstream iterator raises, nothing is printed for it; running out is a RuntimeError *)
Theorem C87_upstream_fails :
  forall I U (show : I -> text) (next : U -> result (I * U)) prefix u l u', yields next u l u' ->
  forall e stream m, next u' = Err e ->
  print_pulls show next prefix (length l + S m) u stream =
    (l, Some (match e with StopIteration => RuntimeError | _ => e end), snd (print_pulls show next prefix (length l) u stream)).
Proof. exact @print_pulls_fails. Qed.
Print Assumptions C87_upstream_fails.

(** print_probe hands on the populations and writes prefix and value, and nothing else *)
Theorem C87_print_probe :
  forall I V (show_value : V -> text) (probe : list I -> result V) prefix,
  (forall pops vs stream, Forall2 (fun p v => probe p = Ok v) pops vs ->
     print_probes show_value probe prefix pops stream = (map Ok pops, stream ++ concat (map (fun v => prefix ++ show_value v) vs))) /\
  (forall p e stream, probe p = Err e -> print_probe show_value probe prefix p stream = (Err e, stream)).
Proof. intros I V show_value probe prefix. split; [exact (print_probes_ok show_value probe prefix)|exact (fun p e s => print_probe_failed show_value probe prefix p e s)]. Qed.
Print Assumptions C87_print_probe.

(** so the values run together: different histories can leave the same text ... *)
Theorem C87_print_probe_values_readable_refuted :
  exists (show_value : nat -> text) prefix (pops pops' : list (list nat)),
    let probe (p : list nat) := Ok (length p) in
    snd (print_probes show_value probe prefix pops []) = snd (print_probes show_value probe prefix pops' []) /\
    length pops <> length pops'.
Proof.
  exists (fun n => concat (repeat (digit 1) n)), [], [[5; 6]; [7]], [[5; 6; 7]]. split; [vm_compute; reflexivity|discriminate].
Qed.
Print Assumptions C87_print_probe_values_readable_refuted.

(** ... unless the prefix starts with a line break (the text read with a final line break added) *)
Theorem C87_print_probe_values_readable_partial :
  forall V (show_value : V -> text) prefix vs, one_line prefix -> Forall (fun v => one_line (show_value v)) vs ->
  lines (concat (map (fun v => (newline :: prefix) ++ show_value v) vs) ++ [newline]) = [] :: map (fun v => prefix ++ show_value v) vs.
Proof. exact @separated. Qed.
Print Assumptions C87_print_probe_values_readable_partial.

(** the printed individual can be identified: class, id and fitness can be read off *)
Theorem C87_str_identifies :
  forall c u f c' u' f', ~ In "<"%char c -> ~ In "<"%char c' -> ~ In ">"%char u -> ~ In ">"%char u' ->
  individual_str c u f = individual_str c' u' f' -> c = c' /\ u = u' /\ f = f'.
Proof. exact str_injective. Qed.
Print Assumptions C87_str_identifies.

(** print_population: a line for each individual, in order; print_list: one line *)
Theorem C87_print_population :
  forall I (show_genome show_fitness : I -> text) generation pop stream, one_line generation ->
  Forall (fun i => one_line (show_genome i) /\ one_line (show_fitness i)) pop ->
  exists added, print_population show_genome show_fitness pop generation stream = stream ++ added /\
    lines added = map (fun i => generation ++ lit " " ++ show_genome i ++ lit " " ++ show_fitness i) pop.
Proof. exact @print_population_lines. Qed.
Print Assumptions C87_print_population.

Theorem C87_print_list :
  forall I (show : I -> text) l stream, Forall (fun i => one_line (show i)) l ->
  exists added, print_list show l stream = stream ++ added /\ lines added = [lit "[" ++ join (lit ", ") (map show l) ++ lit "]"].
Proof. exact @print_list_line. Qed.
Print Assumptions C87_print_list.

Example C87_example :
  yields list_next [3; 4; 5] [3; 4] [5] /\
  print_pulls digit list_next (lit "x ") 3 [3; 4] [] = ([3; 4], Some RuntimeError, lit "x 3" ++ [newline] ++ lit "x 4" ++ [newline]) /\
  lines (lit "x 3" ++ [newline] ++ lit "x 4" ++ [newline]) = [lit "x 3"; lit "x 4"] /\
  snd (print_probes digit (fun p : list nat => Ok (length p)) (newline :: lit "n=") [[7; 7]; [7]] []) = [newline] ++ lit "n=2" ++ [newline] ++ lit "n=1" /\
  print_population digit digit [3; 4] (lit "9") [] = lit "9 3 3" ++ [newline] ++ lit "9 4 4" ++ [newline] /\
  print_list digit [3; 4] [] = lit "[3, 4]" ++ [newline] /\
  individual_str (lit "Individual") (lit "a-1") (lit "2.5") = lit "Individual<a-1> with fitness 2.5".
Proof. split; [repeat (econstructor; [reflexivity|]); constructor|]. repeat split. Qed.
