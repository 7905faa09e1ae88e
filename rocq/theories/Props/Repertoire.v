(** Property C82: repertoires on file *)
From Coq Require Import Ascii String.
From Verif Require Import Model.Base Model.CsvProbe Model.CsvLog Model.Transfer Model.Repertoire Spec.Transfer Spec.Repertoire Proofs.Repertoire.
Local Open Scope list_scope.

(** saving genomes of numbers and loading them returns the same genomes in the same order, with floats for the numbers *)
Theorem C82_round_trip (show : num -> text) (parse : text -> option num) (rep : list (list num)) :
  Forall (Forall (faithful show parse)) rep ->
  exists rep', same_numbers rep rep' /\
    repertoire_init parse (Some (text_write [newline] (export show (numbers rep)))) = Ok (numbers rep').
Proof. exact (round_trip_linux show parse rep). Qed.
Print Assumptions C82_round_trip.
Example C82_round_trip_ex : Forall (Forall (faithful ex_show ex_parse)) ex_rep /\ export ex_show (numbers ex_rep) =
    lit "0,1" ++ crlf ++ crlf ++ lit "0.5" ++ crlf /\
  repertoire_init ex_parse (Some (text_write [newline] (export ex_show (numbers ex_rep)))) = Ok (numbers ex_rep_back) /\
  repertoire_init ex_parse None = Ok [].
Proof.
  split; [|repeat split; vm_compute; reflexivity].
  repeat constructor; try discriminate; try (intros H; vm_compute in H; repeat (destruct H as [H|H]; [discriminate|]); contradiction);
    eexists; (split; [vm_compute; reflexivity|split; [discriminate|reflexivity]]).
Qed.

(** doing so again changes nothing more *)
Theorem C82_round_trips (show : num -> text) (parse : text -> option num) (rep rep1 : list (list num)) :
  Forall (Forall (faithful show parse)) rep ->
  repertoire_init parse (Some (text_write [newline] (export show (numbers rep)))) = Ok (numbers rep1) ->
  Forall (Forall (faithful show parse)) rep1 ->
  exists rep2, same_numbers rep rep2 /\
    repertoire_init parse (Some (text_write [newline] (export show (numbers rep1)))) = Ok (numbers rep2).
Proof. exact (round_trips_linux show parse rep rep1). Qed.
Print Assumptions C82_round_trips.
Example C82_round_trips_ex : Forall (Forall (faithful ex_show ex_parse)) ex_rep_back /\
  repertoire_init ex_parse (Some (text_write [newline] (export ex_show (numbers ex_rep_back)))) = Ok (numbers ex_rep_back).
Proof.
  split; [|vm_compute; reflexivity].
  repeat constructor; try discriminate; try (intros H; vm_compute in H; repeat (destruct H as [H|H]; [discriminate|]); contradiction);
    eexists; (split; [vm_compute; reflexivity|split; [discriminate|reflexivity]]).
Qed.

(** a gene whose text is no number, such as the segments of a segmented genome, makes the file unreadable *)
Theorem C82_text_genes (show : num -> text) (parse : text -> option num) (rep : list (list rgene)) (genome : list rgene) (g : rgene) :
  Forall (Forall (fun g => plain (gene_text show g))) rep -> In genome rep -> In g genome -> parse (gene_text show g) = None ->
  repertoire_init parse (Some (text_write [newline] (export show rep))) = Err ValueError.
Proof. exact (text_genes_linux show parse rep genome g). Qed.
Print Assumptions C82_text_genes.
Example C82_text_genes_ex : ex_parse (gene_text ex_show (RStr (lit "[0 1]"))) = None /\
  repertoire_init ex_parse (Some (text_write [newline] (export ex_show [[RNum (NInt 0)]; [RNum (NInt 1); RStr (lit "[0 1]")]]))) = Err ValueError.
Proof. split; vm_compute; reflexivity. Qed.

(** genes of any kind: a text with a comma, a quote or a line feed comes back as it was, unlike a plain one *)
Theorem C82_any_genes (show : num -> text) (parse : text -> option num) (rep rep' : list (list rgene)) :
  Forall (Forall (fun g => ~ In "013"%char (str_of show g))) rep ->
  Forall2 (Forall2 (fun g g' => comes_back parse (str_of show g) g')) rep rep' ->
  repertoire_init parse (Some (text_write [newline] (export show rep))) = Ok rep'.
Proof. exact (any_genes_linux show parse rep rep'). Qed.
Print Assumptions C82_any_genes.
(** also from a file whose last line end was lost *)
Theorem C82_no_line_end (show : num -> text) (parse : text -> option num) (rep rep' : list (list rgene)) (t : text) :
  Forall (Forall (fun g => ~ In "013"%char (str_of show g))) rep ->
  Forall2 (Forall2 (fun g g' => comes_back parse (str_of show g) g')) rep rep' -> (forall pre, rep <> pre ++ [[]]) ->
  t ++ crlf = text_write [newline] (export show rep) -> repertoire_init parse (Some t) = Ok rep'.
Proof. exact (no_line_end_linux show parse rep rep' t). Qed.
Print Assumptions C82_no_line_end.
Example C82_any_genes_ex : Forall (Forall (fun g => ~ In "013"%char (str_of ex_show g))) ex_genes /\
  Forall2 (Forall2 (fun g g' => comes_back ex_parse (str_of ex_show g) g')) ex_genes ex_genes_back /\
  (forall pre, ex_genes <> pre ++ [[]]) /\
  export ex_show ex_genes = lit """a,b"",1" ++ crlf ++ lit """""" ++ crlf ++ crlf ++ lit """say """"0""""""," ++ crlf /\
  repertoire_init ex_parse (Some (lit """a,b"",1" ++ crlf ++ lit """""" ++ crlf ++ crlf ++ lit """say """"0"""""",")) = Ok ex_genes_back.
Proof.
  split; [|split; [|split; [|split; vm_compute; reflexivity]]].
  - repeat constructor; intros H; vm_compute in H; repeat (destruct H as [H|H]; [discriminate|]); contradiction.
  - repeat (apply Forall2_cons || apply Forall2_nil); try apply back_empty.
    + apply back_text. left. right. left. reflexivity.
    + apply back_number; [|reflexivity]. split; [discriminate|].
      repeat split; intros H; vm_compute in H; repeat (destruct H as [H|H]; [discriminate|]); contradiction.
    + apply back_text. right. left. do 4 right. left. reflexivity.
  - intros pre H. assert (K := f_equal (@rev _) H). rewrite rev_unit in K. discriminate.
Qed.

(** every application hands the algorithm a new initializer, which puts the saved genomes first in its first population *)
Theorem C82_apply {S G P K R D Q} (algorithm : P -> (nat * S -> result G * (nat * S)) -> nat * S -> K -> R)
    (initialize : S -> result G * S) (rep : list G) (problem : P) (s : S) (kwargs : K) :
  exists init st, apply algorithm initialize rep problem s kwargs = algorithm problem init st kwargs /\
    forall n (decoder : D) (target : Q) fresh s', length fresh = n - length rep -> calls initialize s fresh s' ->
      exists l st', create_population init n decoder target st = (Ok l, st') /\ fresh_population decoder target (firstn n rep ++ fresh) l.
Proof. exact (apply_seeds algorithm initialize rep problem s kwargs). Qed.
Print Assumptions C82_apply.
Example C82_apply_ex : apply ex_algorithm (fun s => (Ok s, S s)) [71; 72] 5 10 4 = Ok [71; 72; 10; 11] /\
  apply ex_algorithm (fun s => (Ok s, S s)) [71; 72] 6 12 3 = Ok [71; 72; 12].
Proof. split; reflexivity. Qed.

(** genomes of integers are not restored: their genes are floats afterwards *)
Theorem C82_integers_refuted : exists show parse rep, Forall (Forall (faithful show parse)) rep /\
  exists rep', repertoire_init parse (Some (text_write [newline] (export show (numbers rep)))) = Ok rep' /\ rep' <> numbers rep.
Proof.
  exists ex_show, ex_parse, ex_rep. split; [apply C82_round_trip_ex|]. exists (numbers ex_rep_back).
  split; [apply C82_round_trip_ex|vm_compute; discriminate].
Qed.
Print Assumptions C82_integers_refuted.
(** on Windows, where the file is opened without newline='', there is an empty genome after every genome *)
Theorem C82_windows_refuted : exists show parse rep, Forall (Forall (faithful show parse)) rep /\
  exists g, repertoire_init parse (Some (text_write crlf (export show (numbers rep)))) = Ok [g; []; []; []; [RNum (NFlt true (Fin (1 # 2)%Q))]; []] /\
    length rep = 3.
Proof.
  exists ex_show, ex_parse, ex_rep. split; [apply C82_round_trip_ex|]. eexists. split; vm_compute; reflexivity.
Qed.
Print Assumptions C82_windows_refuted.
