(** Proofs about repertoires on file *)
From Coq Require Import Ascii String Lia.
From Verif Require Import Model.Base Model.CsvProbe Model.CsvLog Model.Transfer Model.Repertoire Spec.Transfer Spec.Repertoire
  Proofs.Transfer.
Local Open Scope list_scope.

Section File.
Variable show : num -> text.
Variable parse : text -> option num.
Notation nn := (nn_read parse).

(** a plain text is written as it is *)
Lemma plain_char t c : plain t -> In c t ->
  Ascii.eqb c delimiter = false /\ Ascii.eqb c quotechar = false /\ Ascii.eqb c newline = false /\ Ascii.eqb c creturn = false.
Proof.
  intros (_ & P1 & P2 & P3 & P4) H. repeat split; apply Ascii.eqb_neq; intros ->; [apply P1|apply P2|apply P3|apply P4]; exact H.
Qed.
Lemma write_plain t : plain t -> write_field crlf t = t.
Proof.
  intros P. unfold write_field. replace (existsb (special crlf) t) with false; [reflexivity|]. symmetry.
  destruct (existsb (special crlf) t) eqn:E; [|reflexivity]. apply existsb_exists in E. destruct E as (c & Hc & E).
  destruct (plain_char t c P Hc) as (A & B & C & D). unfold special in E. rewrite A, B in E. cbn [existsb crlf orb] in E. rewrite C, D in E. discriminate.
Qed.
Lemma universal_plain t u : plain t \/ t = [] -> universal (t ++ u) = t ++ universal u.
Proof.
  intros P. assert (H : forall c, In c t -> Ascii.eqb c creturn = false).
  { destruct P as [P | ->]; [|contradiction]. intros c Hc. apply (plain_char t c P Hc). }
  clear P. induction t as [|c t IH]; [reflexivity|]. cbn [app universal]. rewrite (H c (or_introl eq_refl)). f_equal. apply IH. intros d Hd. apply H. right. exact Hd.
Qed.

(** reading a plain field *)
Lemma nn_plain numeric row u : forall t cur, (forall c, In c t -> Ascii.eqb c newline = false /\ Ascii.eqb c delimiter = false) ->
  nn NPlain numeric cur row (t ++ u) = nn NPlain numeric (cur ++ t) row u.
Proof.
  induction t as [|c t IH]; intros cur H; [rewrite app_nil_r; reflexivity|]. cbn [app nn_read].
  destruct (H c (or_introl eq_refl)) as (-> & ->). rewrite IH by (intros d Hd; apply H; right; exact Hd). rewrite <- app_assoc. reflexivity.
Qed.
Lemma nn_field s t row u : plain t -> s = NRow \/ s = NField -> nn s false [] row (t ++ u) = nn NPlain true t row u.
Proof.
  intros P S. destruct t as [|c t]; [destruct P as (P & _); contradiction|].
  destruct (plain_char _ c P (or_introl eq_refl)) as (A & B & C & _). cbn [app].
  transitivity (nn NPlain true [c] row (t ++ u)).
  { destruct S as [-> | ->]; cbn [nn_read]; rewrite A, B, C; reflexivity. }
  rewrite nn_plain; [reflexivity|]. intros d Hd. destruct (plain_char _ d P (or_intror Hd)) as (E & _ & F & _). split; assumption.
Qed.
Lemma plain_end t row u : nn NPlain true t row (newline :: u) =
  bind (save_field parse true t) (fun g => bind (nn NRow false [] [] u) (fun rows => Ok ((row ++ [g]) :: rows))).
Proof. reflexivity. Qed.
Lemma plain_comma t row u : nn NPlain true t row (delimiter :: u) =
  bind (save_field parse true t) (fun g => nn NField false [] (row ++ [g]) u).
Proof. reflexivity. Qed.

(** what a row of plain texts is read as: the first text that is not a number stops the reading *)
Fixpoint parse_row (ts : list text) : result (list rgene) :=
  match ts with
  | [] => Ok []
  | t :: r => match parse t with None => Err ValueError | Some n => bind (parse_row r) (fun gs => Ok (RNum n :: gs)) end
  end.
Lemma bind_assoc {A B C} (x : result A) (f : A -> result B) (g : B -> result C) : bind (bind x f) g = bind x (fun a => bind (f a) g).
Proof. destruct x; reflexivity. Qed.
Lemma bind_ext {A B} (x : result A) (f g : A -> result B) : (forall a, f a = g a) -> bind x f = bind x g.
Proof. intros H. destruct x; cbn; auto. Qed.
Lemma nn_fields u : forall ts t s row, Forall plain (t :: ts) -> s = NRow \/ s = NField ->
  nn s false [] row (join [delimiter] (t :: ts) ++ newline :: u) =
  bind (parse_row (t :: ts)) (fun gs => bind (nn NRow false [] [] u) (fun rows => Ok ((row ++ gs) :: rows))).
Proof.
  induction ts as [|t' ts IH]; intros t s row P S; inversion P as [|? ? P1 P2]; subst.
  - cbn [join]. rewrite nn_field by assumption. rewrite plain_end. cbn [parse_row]. unfold save_field. destruct (parse t); reflexivity.
  - change (join [delimiter] (t :: t' :: ts)) with (t ++ [delimiter] ++ join [delimiter] (t' :: ts)). rewrite <- app_assoc. cbn [app].
    rewrite nn_field by assumption. rewrite plain_comma. cbn [parse_row]. unfold save_field. destruct (parse t) as [n|]; [|reflexivity].
    cbn [bind]. rewrite (IH t' NField (row ++ [RNum n]) P2) by auto. cbn [parse_row]. rewrite bind_assoc.
    destruct (parse t') as [n'|]; [|reflexivity]. rewrite !bind_assoc. apply bind_ext. intros gs. cbn [bind].
    apply bind_ext. intros rows. rewrite <- app_assoc. reflexivity.
Qed.
Lemma universal_fields u : forall ts t, Forall plain (t :: ts) ->
  universal (join [delimiter] (t :: ts) ++ crlf ++ u) = join [delimiter] (t :: ts) ++ newline :: universal u.
Proof.
  induction ts as [|t' ts IH]; intros t P; inversion P as [|? ? P1 P2]; subst.
  - cbn [join]. rewrite universal_plain by auto. reflexivity.
  - change (join [delimiter] (t :: t' :: ts)) with (t ++ [delimiter] ++ join [delimiter] (t' :: ts)). rewrite <- !app_assoc.
    rewrite universal_plain by auto. f_equal. cbn [app]. transitivity (delimiter :: universal (join [delimiter] (t' :: ts) ++ crlf ++ u)); [reflexivity|].
    rewrite (IH t' P2). reflexivity.
Qed.
Lemma write_plain_row ts : Forall plain ts -> write_row crlf ts = join [delimiter] ts ++ crlf.
Proof.
  intros P. unfold write_row. assert (E : map (write_field crlf) ts = ts).
  { clear -P. induction P as [|t ts P1 P IH]; [reflexivity|]. cbn [map]. rewrite write_plain, IH by assumption. reflexivity. }
  destruct ts as [|t ts]; [reflexivity|]. destruct t as [|c t]; [inversion P as [|? ? (H & _) _]; contradiction|]. rewrite E. reflexivity.
Qed.

(** reading a file of plain rows *)
Fixpoint parse_rows (rows : list (list text)) : result (list (list rgene)) :=
  match rows with
  | [] => Ok []
  | r :: rest => bind (parse_row r) (fun gs => bind (parse_rows rest) (fun l => Ok (gs :: l)))
  end.
Lemma read_rows : forall rows, Forall (Forall plain) rows ->
  nn NRow false [] [] (universal (concat (map (write_row crlf) rows))) = parse_rows rows.
Proof.
  induction rows as [|ts rows IH]; intros P; [reflexivity|]. inversion P as [|? ? P1 P2]; subst. cbn [map concat parse_rows].
  rewrite write_plain_row by assumption. rewrite <- app_assoc. destruct ts as [|t ts].
  - cbn [join app]. transitivity (nn NRow false [] [] (newline :: universal (concat (map (write_row crlf) rows)))); [reflexivity|].
    transitivity (bind (nn NRow false [] [] (universal (concat (map (write_row crlf) rows)))) (fun rs => Ok ([] :: rs))); [reflexivity|].
    rewrite (IH P2). reflexivity.
  - rewrite universal_fields, nn_fields by auto. apply bind_ext. intros gs. rewrite (IH P2). reflexivity.
Qed.

Lemma file_rows rep : export show rep = concat (map (write_row crlf) (map (map (gene_text show)) rep)).
Proof. unfold export. rewrite map_map. reflexivity. Qed.

Lemma parse_faithful ns : Forall (faithful show parse) ns -> exists xs, Forall2 as_float ns xs /\
  parse_row (map (gene_text show) (map RNum ns)) = Ok (map RNum xs).
Proof.
  induction 1 as [|n ns (P & x & E & F) _ (xs & IH1 & IH2)]; [exists []; split; [constructor|reflexivity]|].
  exists (x :: xs). split; [constructor; assumption|]. cbn [map gene_text parse_row]. rewrite E. cbn [map gene_text] in IH2. rewrite IH2. reflexivity.
Qed.
Theorem round_trip rep : Forall (Forall (faithful show parse)) rep ->
  exists rep', same_numbers rep rep' /\ repertoire_init parse (Some (export show (numbers rep))) = Ok (numbers rep').
Proof.
  intros F. unfold repertoire_init. rewrite file_rows, read_rows.
  - clear -F. induction F as [|ns rep Fn F (rep' & IH1 & IH2)]; [exists []; split; [constructor|reflexivity]|].
    destruct (parse_faithful ns Fn) as (xs & X1 & X2). exists (xs :: rep'). split; [constructor; assumption|].
    unfold numbers in *. cbn [map parse_rows]. rewrite X2. cbn [bind]. rewrite IH2. reflexivity.
  - apply Forall_map, Forall_map. eapply Forall_impl; [|exact F]. intros ns Fn. apply Forall_map, Forall_map.
    eapply Forall_impl; [|exact Fn]. intros n (P & _). exact P.
Qed.

(** a gene that is no number *)
Lemma parse_row_bad pre t post : Forall (fun u => parse u <> None) pre -> parse t = None -> parse_row (pre ++ t :: post) = Err ValueError.
Proof.
  induction 1 as [|u pre U _ IH]; intros E; cbn [app parse_row]; [rewrite E; reflexivity|].
  destruct (parse u); [rewrite (IH E); reflexivity|contradiction].
Qed.
Lemma parse_row_cases ts : (exists gs, parse_row ts = Ok gs) \/ parse_row ts = Err ValueError.
Proof.
  induction ts as [|t ts [(gs & IH) | IH]]; [left; eexists; reflexivity| |]; cbn [parse_row]; destruct (parse t); auto.
  - rewrite IH. left. eexists. reflexivity.
  - rewrite IH. auto.
Qed.
Lemma parse_row_in ts t : In t ts -> parse t = None -> parse_row ts = Err ValueError.
Proof.
  intros I E. induction ts as [|u ts IH]; [contradiction|]. cbn [parse_row]. destruct I as [-> | I]; [rewrite E; reflexivity|].
  destruct (parse u); [|reflexivity]. rewrite (IH I). reflexivity.
Qed.
Lemma parse_rows_in rows ts t : In ts rows -> In t ts -> parse t = None -> parse_rows rows = Err ValueError.
Proof.
  intros I J E. induction rows as [|us rows IH]; [contradiction|]. cbn [parse_rows]. destruct I as [-> | I].
  - rewrite (parse_row_in ts t J E). reflexivity.
  - destruct (parse_row_cases us) as [(gs & ->) | ->]; [|reflexivity]. cbn [bind]. rewrite (IH I). reflexivity.
Qed.
Theorem text_genes rep genome g : Forall (Forall (fun g => plain (gene_text show g))) rep -> In genome rep -> In g genome ->
  parse (gene_text show g) = None -> repertoire_init parse (Some (export show rep)) = Err ValueError.
Proof.
  intros P I J E. unfold repertoire_init. rewrite file_rows, read_rows.
  - apply (parse_rows_in _ (map (gene_text show) genome) (gene_text show g)); [apply in_map, I|apply in_map, J|exact E].
  - apply Forall_map. eapply Forall_impl; [|exact P]. intros gs. apply Forall_map.
Qed.

(** ** genes of any kind *)
Definition no_cr (t : text) : Prop := ~ In creturn t.
Lemma universal_no_cr t u : no_cr t -> universal (t ++ u) = t ++ universal u.
Proof.
  induction t as [|c t IH]; intros H; [reflexivity|]. cbn [app universal]. replace (Ascii.eqb c creturn) with false.
  - f_equal. apply IH. intros I. apply H. right. exact I.
  - symmetry. apply Ascii.eqb_neq. intros ->. apply H. left. reflexivity.
Qed.
Lemma doubled_no_cr t : no_cr t -> no_cr (doubled t).
Proof.
  induction t as [|c t IH]; intros H I; [exact I|]. assert (no_cr (doubled t)) as D by (apply IH; intros J; apply H; right; exact J).
  cbn [doubled] in I. destruct (Ascii.eqb c quotechar) eqn:E; cbn [In] in I.
  - destruct I as [I|[I|I]]; [discriminate|discriminate|exact (D I)].
  - destruct I as [I|I]; [apply H; left; exact I|exact (D I)].
Qed.
Lemma write_no_cr t : no_cr t -> no_cr (write_field crlf t).
Proof.
  intros H. unfold write_field. destruct (existsb (special crlf) t); [|exact H]. intros [I|I]; [discriminate|].
  apply in_app_or in I. destruct I as [I|[I|[]]]; [exact (doubled_no_cr t H I)|discriminate].
Qed.
(** a quoted text *)
Lemma nn_doubled numeric row u : forall t cur, nn NQuoted numeric cur row (doubled t ++ quotechar :: u) = nn NQuoteSeen numeric (cur ++ t) row u.
Proof.
  induction t as [|c t IH]; intros cur; [rewrite app_nil_r; reflexivity|]. cbn [doubled].
  replace (cur ++ c :: t) with ((cur ++ [c]) ++ t) by (rewrite <- app_assoc; reflexivity). rewrite <- IH.
  destruct (Ascii.eqb c quotechar) eqn:E; cbn [app].
  - apply Ascii.eqb_eq in E. subst c. reflexivity.
  - cbn [nn_read]. rewrite E. reflexivity.
Qed.
(** what follows a field *)
Definition after (row : list rgene) (g : rgene) (u : text) : result (list (list rgene)) :=
  match u with
  | [] => Ok [row ++ [g]]
  | c :: r => if Ascii.eqb c newline then bind (nn NRow false [] [] r) (fun rows => Ok ((row ++ [g]) :: rows))
              else nn NField false [] (row ++ [g]) r
  end.
Definition ended (u : text) : Prop := u = [] \/ (exists r, u = newline :: r) \/ exists r, u = delimiter :: r.
Lemma comes_back_special t g : comes_back parse t g -> no_cr t ->
  (existsb (special crlf) t = true /\ g = RStr t) \/
  (existsb (special crlf) t = false /\ (t = [] /\ g = RStr [] \/ plain t /\ exists n, parse t = Some n /\ g = RNum n)).
Proof.
  intros B N. destruct B as [|t [I|[I|I]]|t n P E]; [right; auto| | | |].
  1-3: left; split; [|reflexivity]; apply existsb_exists; eexists; split; [exact I|reflexivity].
  right. split; [|right; split; [exact P|exists n; split; [exact E|reflexivity]]].
  destruct (existsb (special crlf) t) eqn:X; [|reflexivity]. apply existsb_exists in X. destruct X as (c & Hc & X).
  destruct (plain_char t c P Hc) as (A & B & C & D). unfold special in X. rewrite A, B in X. cbn [existsb crlf orb] in X. rewrite C, D in X. discriminate.
Qed.
Lemma nn_any s t g row u : comes_back parse t g -> no_cr t -> s = NField \/ s = NRow /\ t <> [] -> ended u ->
  nn s false [] row (write_field crlf t ++ u) = after row g u.
Proof.
  intros B N S U. unfold write_field. destruct (comes_back_special t g B N) as [(-> & ->) | (-> & [(-> & ->) | (P & n & E & ->)])].
  - cbn [app]. rewrite <- app_assoc. cbn [app]. transitivity (nn NQuoted false [] row (doubled t ++ quotechar :: u)).
    { destruct S as [-> | (-> & _)]; reflexivity. }
    rewrite nn_doubled. cbn [app]. destruct U as [-> | [(r & ->) | (r & ->)]]; reflexivity.
  - destruct S as [-> | (_ & S)]; [|contradiction]. destruct U as [-> | [(r & ->) | (r & ->)]]; reflexivity.
  - rewrite nn_field by (try exact P; destruct S as [S | (S & _)]; auto).
    destruct U as [-> | [(r & ->) | (r & ->)]]; cbn [nn_read after]; unfold save_field; rewrite E; reflexivity.
Qed.
(** a row, with or without its line end *)
Definition row_after (row gs : list rgene) (u : text) : result (list (list rgene)) :=
  match u with [] => Ok [row ++ gs] | _ :: r => bind (nn NRow false [] [] r) (fun rows => Ok ((row ++ gs) :: rows)) end.
Lemma nn_any_fields u : u = [] \/ (exists r, u = newline :: r) -> forall ts gs t g s row, comes_back parse t g -> Forall2 (comes_back parse) ts gs ->
  no_cr t -> Forall no_cr ts -> s = NField \/ s = NRow /\ (t <> [] \/ ts <> []) ->
  nn s false [] row (join [delimiter] (map (write_field crlf) (t :: ts)) ++ u) = row_after row (g :: gs) u.
Proof.
  intros U. induction ts as [|t' ts IH]; intros gs t g s row B F N NS S; inversion F; subst.
  - cbn [map join]. rewrite (nn_any s t g); [| exact B | exact N | | destruct U as [-> | (r & ->)]; [left; reflexivity|right; left; eexists; reflexivity]].
    + destruct U as [-> | (r & ->)]; reflexivity.
    + destruct S as [S | (S & [T|T])]; [left; exact S|right; split; assumption|contradiction].
  - change (join [delimiter] (map (write_field crlf) (t :: t' :: ts)))
      with (write_field crlf t ++ [delimiter] ++ join [delimiter] (map (write_field crlf) (t' :: ts))).
    rewrite <- !app_assoc. cbn [app].
    assert (K : forall v, nn s false [] row (write_field crlf t ++ delimiter :: v) = nn NField false [] (row ++ [g]) v).
    { intros v. destruct t as [|c t].
      - inversion B as [|? [I|[I|I]]|? ? P]; subst; try contradiction; [|destruct P as (P & _); contradiction].
        destruct S as [-> | (-> & _)]; reflexivity.
      - rewrite (nn_any s (c :: t) g); [reflexivity|exact B|exact N| |right; right; eexists; reflexivity].
        destruct S as [S | (S & _)]; [left; exact S|right; split; [exact S|discriminate]]. }
    rewrite K. rewrite (IH l' t' y NField (row ++ [g])); try assumption; [| inversion NS; assumption | inversion NS; assumption | left; reflexivity].
    unfold row_after. destruct u; cbn [app]; rewrite <- ?app_assoc; reflexivity.
Qed.
Lemma join_no_cr ts : Forall no_cr ts -> no_cr (join [delimiter] (map (write_field crlf) ts)).
Proof.
  induction 1 as [|t ts N F IH]; [intros I; exact I|]. destruct ts as [|t' ts]; [apply write_no_cr; exact N|].
  change (join [delimiter] (map (write_field crlf) (t :: t' :: ts)))
      with (write_field crlf t ++ [delimiter] ++ join [delimiter] (map (write_field crlf) (t' :: ts))).
  intros I. apply in_app_or in I. destruct I as [I|I]; [exact (write_no_cr t N I)|]. apply in_app_or in I.
  destruct I as [[I|[]]|I]; [discriminate|exact (IH I)].
Qed.
(** a row of a file, its line end and the rest *)
Definition row_body (ts : list text) : text :=
  match ts with [[]] => [quotechar; quotechar] | _ => join [delimiter] (map (write_field crlf) ts) end.
Lemma write_row_body ts : write_row crlf ts = row_body ts ++ crlf.
Proof. destruct ts as [|[|c t] [|t' ts]]; reflexivity. Qed.
Lemma row_body_no_cr ts : Forall no_cr ts -> no_cr (row_body ts).
Proof.
  intros F. destruct ts as [|[|c t] [|t' ts]]; try (apply join_no_cr; exact F).
  intros [I|[I|[]]]; discriminate.
Qed.
Lemma nn_row u ts gs : u = [] \/ (exists r, u = newline :: r) -> ts <> [] -> Forall2 (comes_back parse) ts gs -> Forall no_cr ts ->
  nn NRow false [] [] (row_body ts ++ u) = row_after [] gs u.
Proof.
  intros U NE F N. destruct F as [|t g ts gs B F]; [contradiction|]. inversion N as [|? ? N1 N2]; subst.
  assert (K : t <> [] \/ ts <> [] -> nn NRow false [] [] (row_body (t :: ts) ++ u) = row_after [] (g :: gs) u).
  { intros K. replace (row_body (t :: ts)) with (join [delimiter] (map (write_field crlf) (t :: ts))).
    - apply nn_any_fields; auto.
    - destruct t; [destruct ts; [destruct K; contradiction|]|]; reflexivity. }
  destruct t as [|c t]; [|apply K; left; discriminate]. destruct ts as [|t' ts]; [|apply K; right; discriminate].
  inversion F; subst. inversion B as [|? [I|[I|I]]|? ? P]; subst; try contradiction; [|destruct P as (P & _); contradiction].
  destruct U as [-> | (r & ->)]; reflexivity.
Qed.
Lemma read_any rows gss : Forall2 (Forall2 (comes_back parse)) rows gss -> Forall (Forall no_cr) rows ->
  nn NRow false [] [] (universal (concat (map (write_row crlf) rows))) = Ok gss.
Proof.
  induction 1 as [|ts gs rows gss F _ IH]; intros N; [reflexivity|]. inversion N as [|? ? N1 N2]; subst. cbn [map concat].
  rewrite write_row_body, <- app_assoc, universal_no_cr by (apply row_body_no_cr, N1).
  change (universal (crlf ++ concat (map (write_row crlf) rows))) with (newline :: universal (concat (map (write_row crlf) rows))).
  destruct ts as [|t ts].
  - inversion F; subst. cbn [row_body map join app].
    transitivity (bind (nn NRow false [] [] (universal (concat (map (write_row crlf) rows)))) (fun rs => Ok ([] :: rs))); [reflexivity|].
    rewrite (IH N2). reflexivity.
  - rewrite (nn_row _ _ gs); [| right; eexists; reflexivity | discriminate | exact F | exact N1]. cbn [row_after]. rewrite (IH N2). reflexivity.
Qed.
(** the last row without its line end *)
Lemma read_any_last rows gss ts gs : Forall2 (Forall2 (comes_back parse)) rows gss -> Forall (Forall no_cr) rows ->
  Forall2 (comes_back parse) ts gs -> Forall no_cr ts -> ts <> [] ->
  nn NRow false [] [] (universal (concat (map (write_row crlf) rows) ++ row_body ts)) = Ok (gss ++ [gs]).
Proof.
  intros FF NN F N NE. induction FF as [|ts' gs' rows gss F' _ IH]; cbn [map concat app].
  - replace (universal (row_body ts)) with (row_body ts ++ []); [apply (nn_row [] ts gs); auto|].
    rewrite <- (app_nil_r (row_body ts)) at 2. rewrite universal_no_cr by (apply row_body_no_cr, N). reflexivity.
  - inversion NN as [|? ? N1 N2]; subst.
    rewrite write_row_body, <- !app_assoc, universal_no_cr by (apply row_body_no_cr, N1). cbn [crlf app].
    match goal with |- context [universal (creturn :: newline :: ?v)] =>
      change (universal (creturn :: newline :: v)) with (newline :: universal v) end.
    destruct ts' as [|t' ts'].
    + inversion F'; subst. cbn [row_body map join app].
      transitivity (bind (nn NRow false [] [] (universal (concat (map (write_row crlf) rows) ++ row_body ts))) (fun rs => Ok ([] :: rs))); [reflexivity|].
      rewrite (IH N2). reflexivity.
    + rewrite (nn_row _ _ gs'); [| right; eexists; reflexivity | discriminate | exact F' | exact N1]. cbn [row_after]. rewrite (IH N2). reflexivity.
Qed.
Lemma genes_texts rep rep' : Forall2 (Forall2 (fun g g' => comes_back parse (str_of show g) g')) rep rep' ->
  Forall2 (Forall2 (comes_back parse)) (map (map (gene_text show)) rep) rep'.
Proof.
  induction 1 as [|gs gs' rep rep' H _ IH]; cbn [map]; constructor; [|exact IH]. clear -H.
  induction H as [|g g' gs gs' H _ IH]; cbn [map]; constructor; [destruct g; exact H|exact IH].
Qed.
Lemma genes_no_cr rep : Forall (Forall (fun g => ~ In "013"%char (str_of show g))) rep -> Forall (Forall no_cr) (map (map (gene_text show)) rep).
Proof.
  intros N. apply Forall_map. eapply Forall_impl; [|exact N]. intros gs G. apply Forall_map. eapply Forall_impl; [|exact G].
  intros g K. destruct g; exact K.
Qed.
Theorem any_genes rep rep' : Forall (Forall (fun g => ~ In "013"%char (str_of show g))) rep ->
  Forall2 (Forall2 (fun g g' => comes_back parse (str_of show g) g')) rep rep' ->
  repertoire_init parse (Some (export show rep)) = Ok rep'.
Proof. intros N F. unfold repertoire_init. rewrite file_rows. apply read_any; [apply genes_texts, F|apply genes_no_cr, N]. Qed.
Lemma crlf_end {t t' : text} : t ++ crlf = t' ++ crlf -> t = t'.
Proof. apply app_inv_tail. Qed.
Theorem no_line_end rep rep' t : Forall (Forall (fun g => ~ In "013"%char (str_of show g))) rep ->
  Forall2 (Forall2 (fun g g' => comes_back parse (str_of show g) g')) rep rep' -> (forall pre, rep <> pre ++ [[]]) ->
  t ++ crlf = export show rep -> repertoire_init parse (Some t) = Ok rep'.
Proof.
  intros N F L E. unfold repertoire_init.
  destruct (rep) as [|g0 rep0] eqn:R using rev_ind; [destruct t as [|? [|? ?]]; discriminate E|]. clear IHrep0.
  rewrite file_rows, !map_app, concat_app in E. cbn [map concat] in E. rewrite app_nil_r, write_row_body, app_assoc in E.
  apply crlf_end in E. subst t. apply Forall2_app_inv_l in F. destruct F as (r1 & r2 & F1 & F2 & ->).
  inversion F2 as [|? gs ? ? F3 F4]; subst. inversion F4; subst. apply Forall_app in N. destruct N as (N1 & N2).
  apply genes_no_cr in N1. apply genes_no_cr in N2. apply read_any_last.
  - apply genes_texts, F1.
  - exact N1.
  - assert (K := genes_texts [g0] [gs] F2). inversion K; assumption.
  - inversion N2; assumption.
  - intros K. apply map_eq_nil in K. subst g0. exact (L rep0 eq_refl).
Qed.
End File.

Lemma as_float_trans n x y : as_float n x -> as_float x y -> as_float n y.
Proof. intros (_ & A) (B & C). split; [exact B|]. rewrite C. exact A. Qed.

(** a second round trip: the numbers are still those of the first repertoire *)
Theorem round_trips show parse rep rep1 : Forall (Forall (faithful show parse)) rep ->
  repertoire_init parse (Some (export show (numbers rep))) = Ok (numbers rep1) -> Forall (Forall (faithful show parse)) rep1 ->
  exists rep2, same_numbers rep rep2 /\ repertoire_init parse (Some (export show (numbers rep1))) = Ok (numbers rep2).
Proof.
  intros F E F1. destruct (round_trip show parse rep F) as (rep' & S & E'). rewrite E in E'.
  assert (N : forall a b, numbers a = numbers b -> a = b).
  { unfold numbers. induction a as [|x a IH]; destruct b as [|y b]; intros H; try discriminate; [reflexivity|]. injection H as H1 H2. f_equal; [|auto].
    clear -H1. revert y H1. induction x as [|u x IH]; destruct y as [|v y]; intros H; try discriminate; [reflexivity|]. injection H as -> H. f_equal. auto. }
  injection E' as E'. apply N in E'. subst rep'. destruct (round_trip show parse rep1 F1) as (rep2 & S2 & E2).
  exists rep2. split; [|exact E2]. clear -S S2. revert rep2 S2. induction S as [|ns xs rep rep1 H S IH]; intros rep2 S2; inversion S2; subst; constructor; [|apply IH; assumption].
  match goal with H2 : Forall2 as_float xs ?l |- _ => clear -H H2; revert l H2 end. induction H as [|n x ns xs A H IH]; intros l H2; inversion H2; subst; constructor; [|apply IH; assumption].
  eapply as_float_trans; eassumption.
Qed.

(** on Linux the text is written as it is *)
Lemma text_write_linux t : text_write [newline] t = t.
Proof.
  induction t as [|c t IH]; [reflexivity|]. unfold text_write in *. cbn [flat_map]. rewrite IH. destruct (Ascii.eqb c newline) eqn:E; [|reflexivity].
  apply Ascii.eqb_eq in E. subst. reflexivity.
Qed.
Theorem round_trip_linux show parse rep : Forall (Forall (faithful show parse)) rep ->
  exists rep', same_numbers rep rep' /\ repertoire_init parse (Some (text_write [newline] (export show (numbers rep)))) = Ok (numbers rep').
Proof. rewrite text_write_linux. apply round_trip. Qed.
Theorem round_trips_linux show parse rep rep1 : Forall (Forall (faithful show parse)) rep ->
  repertoire_init parse (Some (text_write [newline] (export show (numbers rep)))) = Ok (numbers rep1) -> Forall (Forall (faithful show parse)) rep1 ->
  exists rep2, same_numbers rep rep2 /\ repertoire_init parse (Some (text_write [newline] (export show (numbers rep1)))) = Ok (numbers rep2).
Proof. rewrite !text_write_linux. apply round_trips. Qed.
Theorem text_genes_linux show parse rep genome g : Forall (Forall (fun g => plain (gene_text show g))) rep -> In genome rep -> In g genome ->
  parse (gene_text show g) = None -> repertoire_init parse (Some (text_write [newline] (export show rep))) = Err ValueError.
Proof. rewrite text_write_linux. apply text_genes. Qed.
Theorem any_genes_linux show parse rep rep' : Forall (Forall (fun g => ~ In "013"%char (str_of show g))) rep ->
  Forall2 (Forall2 (fun g g' => comes_back parse (str_of show g) g')) rep rep' ->
  repertoire_init parse (Some (text_write [newline] (export show rep))) = Ok rep'.
Proof. rewrite text_write_linux. apply any_genes. Qed.
Theorem no_line_end_linux show parse rep rep' t : Forall (Forall (fun g => ~ In "013"%char (str_of show g))) rep ->
  Forall2 (Forall2 (fun g g' => comes_back parse (str_of show g) g')) rep rep' -> (forall pre, rep <> pre ++ [[]]) ->
  t ++ crlf = text_write [newline] (export show rep) -> repertoire_init parse (Some t) = Ok rep'.
Proof. rewrite text_write_linux. apply no_line_end. Qed.

(** ** applying a repertoire *)
Theorem apply_seeds {S G P K R D Q} (algorithm : P -> (nat * S -> result G * (nat * S)) -> nat * S -> K -> R)
    (initialize : S -> result G * S) (rep : list G) (problem : P) (s : S) (kwargs : K) :
  exists init st, apply algorithm initialize rep problem s kwargs = algorithm problem init st kwargs /\
    forall n (decoder : D) (target : Q) fresh s', length fresh = n - length rep -> calls initialize s fresh s' ->
      exists l st', create_population init n decoder target st = (Ok l, st') /\ fresh_population decoder target (firstn n rep ++ fresh) l.
Proof.
  exists (seeded initialize rep), (0, s). split; [reflexivity|]. intros n decoder target fresh s' L C.
  destruct (seeded_population initialize decoder target rep n 0 s fresh s') as (l & E & F); [lia|rewrite Nat.sub_0_r; exact L|exact C|].
  exists l. eexists. split; [exact E|]. exact F.
Qed.
