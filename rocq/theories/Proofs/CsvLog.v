(** Proofs about the logs written through csv.DictWriter. *)
From Coq Require Import Ascii String Lia.
From Verif Require Import Model.Base Model.PyList Model.Scalar Model.Problems Model.CsvProbe Model.Migration Model.CsvLog Spec.CsvLog.
Local Open Scope list_scope.

(** ** reading back *)
Definition sep (c : ascii) : Prop := c = c_comma \/ c = c_cr \/ c = c_lf.
Definition good_term (term : text) : Prop := term = lf \/ term = crlf.

Lemma read_plain : forall f cur row t, Forall (fun c => ~ sep c) f -> read InField cur row (f ++ t) = read InField (cur ++ f) row t.
Proof.
  induction f as [|c f IH]; intros cur row t H; [rewrite app_nil_r; reflexivity|]. inversion H as [|? ? Hc Hf]; subst.
  cbn [app read]. assert (A : Ascii.eqb c c_cr = false) by (apply Ascii.eqb_neq; intros ->; apply Hc; unfold sep; auto).
  assert (B : Ascii.eqb c c_lf = false) by (apply Ascii.eqb_neq; intros ->; apply Hc; unfold sep; auto).
  assert (C : Ascii.eqb c c_comma = false) by (apply Ascii.eqb_neq; intros ->; apply Hc; unfold sep; auto).
  rewrite A, B, C. cbn [orb]. rewrite (IH (cur ++ [c]) row t Hf), <- app_assoc. reflexivity.
Qed.
Lemma read_quoted : forall f cur row t, read InQuotes cur row (doubled f ++ quotechar :: t) = read QuoteSeen (cur ++ f) row t.
Proof.
  induction f as [|c f IH]; intros cur row t; [rewrite app_nil_r; reflexivity|]. cbn [doubled]. destruct (Ascii.eqb c quotechar) eqn:E.
  - apply Ascii.eqb_eq in E. subst c. cbn [app read]. change (Ascii.eqb quotechar c_quote) with true. cbn iota.
    rewrite IH, <- app_assoc. reflexivity.
  - cbn [app read]. change c_quote with quotechar. rewrite E, IH, <- app_assoc. reflexivity.
Qed.
(** at a separator it does not matter how the field was read *)
Lemma sep_quote row cur c t : sep c -> read QuoteSeen cur row (c :: t) = read InField cur row (c :: t).
Proof. intros [-> | [-> | ->]]; reflexivity. Qed.
Lemma sep_empty row c t : sep c -> read FieldStart [] row (c :: t) = read InField [] row (c :: t).
Proof. intros [-> | [-> | ->]]; reflexivity. Qed.

(** the characters of an unquoted field *)
Lemma unquoted_plain term f : good_term term -> (term = crlf \/ no_cr f) -> existsb (special term) f = false -> Forall (fun c => ~ sep c /\ c <> c_quote) f.
Proof.
  intros T N E. apply Forall_forall. intros c Hc. assert (S : special term c = false).
  { destruct (special term c) eqn:S; [|reflexivity]. exfalso. assert (existsb (special term) f = true) by (apply existsb_exists; eauto). congruence. }
  unfold special in S. apply orb_false_elim in S. destruct S as (S & S3). apply orb_false_elim in S. destruct S as (S1 & S2).
  apply Ascii.eqb_neq in S1, S2. split; [|exact S2]. intros [-> | [-> | ->]]; [apply S1; reflexivity| |].
  - destruct T as [-> | ->]; [destruct N as [N | N]; [discriminate|exact (N Hc)]|discriminate].
  - destruct T as [-> | ->]; discriminate.
Qed.
Lemma read_field s term f row c t : s = FieldStart \/ (s = RowStart /\ (f <> [] \/ c = c_comma)) -> good_term term -> (term = crlf \/ no_cr f) -> sep c ->
  read s [] row (write_field term f ++ c :: t) = read InField f row (c :: t).
Proof.
  intros S T N C. unfold write_field. destruct (existsb (special term) f) eqn:E.
  - rewrite <- app_comm_cons. transitivity (read InQuotes [] row ((doubled f ++ [quotechar]) ++ c :: t)).
    { destruct S as [-> | (-> & _)]; reflexivity. }
    rewrite <- app_assoc. cbn [app]. rewrite read_quoted. cbn [app]. apply sep_quote, C.
  - pose proof (unquoted_plain term f T N E) as P. destruct f as [|a f].
    + cbn [app]. destruct S as [-> | (-> & [S | ->])]; [apply sep_empty, C|contradiction|reflexivity].
    + inversion P as [|? ? (Pa & Pq) Pf]; subst. transitivity (read InField [a] row (f ++ c :: t)).
      * assert (A1 : Ascii.eqb a c_cr = false) by (apply Ascii.eqb_neq; intros ->; apply Pa; unfold sep; auto).
        assert (A2 : Ascii.eqb a c_lf = false) by (apply Ascii.eqb_neq; intros ->; apply Pa; unfold sep; auto).
        assert (A3 : Ascii.eqb a c_comma = false) by (apply Ascii.eqb_neq; intros ->; apply Pa; unfold sep; auto).
        assert (A4 : Ascii.eqb a c_quote = false) by (apply Ascii.eqb_neq; exact Pq).
        cbn [app read]. rewrite A1, A2, A3, A4. destruct S as [-> | (-> & _)]; reflexivity.
      * rewrite read_plain; [reflexivity|]. eapply Forall_impl; [|exact Pf]. cbn. tauto.
Qed.
Lemma read_term term f row t : good_term term -> read InField f row (term ++ t) = option_map (cons (row ++ [f])) (read RowStart [] [] t).
Proof. intros [-> | ->]; reflexivity. Qed.
Lemma term_head term : good_term term -> exists c r, term = c :: r /\ sep c.
Proof. intros [-> | ->]; eexists _, _; (split; [reflexivity|]); unfold sep; auto. Qed.

Lemma read_fields term : good_term term -> forall fs f row t, Forall (fun g => term = crlf \/ no_cr g) (f :: fs) ->
  forall s, s = FieldStart \/ (s = RowStart /\ (f <> [] \/ fs <> [])) ->
  read s [] row (join [delimiter] (map (write_field term) (f :: fs)) ++ term ++ t) = option_map (cons (row ++ f :: fs)) (read RowStart [] [] t).
Proof.
  intros T. induction fs as [|g fs IH]; intros f row t F s S; inversion F as [|? ? F1 F2]; subst.
  - cbn [map join]. destruct (term_head term T) as (c & r & E & C). rewrite E. cbn [app]. rewrite read_field; [|destruct S as [-> | (-> & [S | S])]; [left; reflexivity|right; auto|contradiction]|rewrite <- E; exact T|rewrite <- E; exact F1|exact C].
    change (c :: r ++ t) with ((c :: r) ++ t). rewrite <- E. apply read_term, T.
  - change (join [delimiter] (map (write_field term) (f :: g :: fs))) with (write_field term f ++ [delimiter] ++ join [delimiter] (map (write_field term) (g :: fs))).
    rewrite <- app_assoc. cbn [app].
    change (write_field term f ++ delimiter :: join [delimiter] (map (write_field term) (g :: fs)) ++ term ++ t)
      with (write_field term f ++ c_comma :: (join [delimiter] (map (write_field term) (g :: fs)) ++ term ++ t)).
    rewrite read_field; [|destruct S as [-> | (-> & _)]; auto|exact T|exact F1|unfold sep; auto].
    transitivity (read FieldStart [] (row ++ [f]) (join [delimiter] (map (write_field term) (g :: fs)) ++ term ++ t)); [reflexivity|].
    rewrite (IH g (row ++ [f]) t F2 FieldStart (or_introl eq_refl)), <- app_assoc. reflexivity.
Qed.
Lemma read_row term fs t : good_term term -> Forall (fun g => term = crlf \/ no_cr g) fs ->
  read RowStart [] [] (write_row term fs ++ t) = option_map (cons fs) (read RowStart [] [] t).
Proof.
  intros T F. unfold write_row. destruct fs as [|f fs].
  - cbn [map join app]. destruct T as [-> | ->]; reflexivity.
  - destruct f as [|a f], fs as [|g fs].
    + destruct T as [-> | ->]; reflexivity.
    + rewrite <- app_assoc. apply (read_fields term T (g :: fs) [] [] t F). right. split; [reflexivity|right; discriminate].
    + rewrite <- app_assoc. apply (read_fields term T [] (a :: f) [] t F). right. split; [reflexivity|left; discriminate].
    + rewrite <- app_assoc. apply (read_fields term T (g :: fs) (a :: f) [] t F). right. split; [reflexivity|left; discriminate].
Qed.
Theorem read_back term rows : good_term term -> Forall (Forall (fun g => term = crlf \/ no_cr g)) rows ->
  csv_read (concat (map (write_row term) rows)) = Some rows.
Proof.
  intros T F. unfold csv_read. induction F as [|fs rows Ff F IH]; [reflexivity|]. cbn [map concat]. rewrite read_row by assumption. rewrite IH. reflexivity.
Qed.

(** ** dicts *)
Lemma get_keys d : NoDup (map fst d) -> map (dict_get d) (map fst d) = map snd d.
Proof.
  induction d as [|[k v] d IH]; intros H; [reflexivity|]. cbn [map fst snd]. inversion H as [|? ? N H']; subst. f_equal.
  - cbn [dict_get]. destruct (list_eq_dec ascii_dec k k) as [_ | C]; [reflexivity|contradiction].
  - rewrite <- (IH H'). apply map_ext_in. intros k' Hk'. cbn [dict_get]. destruct (list_eq_dec ascii_dec k' k) as [-> | _]; [contradiction|reflexivity].
Qed.
Lemma set_new d k v : ~ In k (map fst d) -> dict_set d k v = d ++ [(k, v)].
Proof.
  induction d as [|[k' v'] d IH]; intros N; [reflexivity|]. cbn [dict_set app]. destruct (list_eq_dec ascii_dec k k') as [-> | _]; [exfalso; apply N; left; reflexivity|].
  rewrite IH by (intros H; apply N; right; exact H). reflexivity.
Qed.
Lemma writerow_ok term d out : NoDup (map fst d) -> dict_writerow term (map fst d) d out = (Ok tt, out ++ write_row term (map snd d)).
Proof.
  intros N. unfold dict_writerow. rewrite (get_keys d N). replace (forallb _ d) with true; [reflexivity|]. symmetry. apply forallb_forall. intros e He.
  apply existsb_exists. exists (fst e). split; [apply in_map, He|]. match goal with |- (if ?b then _ else _) = _ => destruct b as [_ | C]; [reflexivity|contradiction] end.
Qed.

(** ** the migration metric *)
Section MigrationMetric.
Variables (show_int : Z -> text) (show : num -> text) (show_bool : bool -> text) (notes : pydict).
Hypothesis good : good_notes notes.

Lemma std_nodup : NoDup std_names.
Proof. repeat constructor; intros H; vm_compute in H; repeat (destruct H as [H | H]; [discriminate|]); contradiction. Qed.
Lemma metric_row {G} gen (a : @attempt G) out :
  metric_call show_int show show_bool notes gen (m_fit (a_stamped a)) (m_fit (a_contestant a)) (a_success a) (Some out) =
  (Ok tt, Some (out ++ write_row lf (migration_row show_int show show_bool notes gen a))).
Proof.
  destruct good as (N & D). unfold metric_call, migration_row.
  set (d := notes ++ List.combine std_names [show_int gen; show (m_fit (a_stamped a)); show (m_fit (a_contestant a)); show_bool (a_success a)]).
  assert (K : map fst d = metric_fields notes) by (unfold d, metric_fields; rewrite map_app; reflexivity).
  assert (V : map snd d = map snd notes ++ [show_int gen; show (m_fit (a_stamped a)); show (m_fit (a_contestant a)); show_bool (a_success a)]) by (unfold d; rewrite map_app; reflexivity).
  assert (ND : NoDup (map fst d)).
  { rewrite K. unfold metric_fields. change (NoDup (map fst notes ++ std_names)). revert N D. generalize (map fst notes). clear. induction l as [|k l IH]; intros N D; [exact std_nodup|].
    inversion N as [|? ? N1 N2]; subst. cbn [app]. constructor; [|apply IH; [exact N2|intros k' Hk'; apply D; right; exact Hk']].
    intros H. apply in_app_or in H. destruct H as [H | H]; [contradiction|]. apply (D k (or_introl eq_refl) H). }
  assert (E : dict_set (dict_set (dict_set (dict_set notes (lit "generation") (show_int gen)) (lit "migrant_fitness") (show (m_fit (a_stamped a))))
                (lit "contestant_fitness") (show (m_fit (a_contestant a)))) (lit "success") (show_bool (a_success a)) = d).
  { assert (NI : forall k extra, In k std_names -> ~ In k (map fst extra) -> ~ In k (map fst (notes ++ extra))).
    { intros k extra Hs He H. rewrite map_app in H. apply in_app_or in H. destruct H as [H | H]; [exact (D k H Hs)|exact (He H)]. }
    rewrite (set_new notes); [|intros H; apply (D _ H); cbn; auto].
    rewrite (set_new (notes ++ [_])); [|apply NI; [cbn; auto|intros H; vm_compute in H; repeat (destruct H as [H | H]; [discriminate|]); contradiction]]. rewrite <- (app_assoc notes). cbn [app].
    rewrite (set_new (notes ++ [_; _])); [|apply NI; [cbn; auto|intros H; vm_compute in H; repeat (destruct H as [H | H]; [discriminate|]); contradiction]]. rewrite <- (app_assoc notes). cbn [app].
    rewrite (set_new (notes ++ [_; _; _])); [|apply NI; [cbn; auto|intros H; vm_compute in H; repeat (destruct H as [H | H]; [discriminate|]); contradiction]]. rewrite <- (app_assoc notes). reflexivity. }
  rewrite E, <- K, writerow_ok by exact ND. rewrite V. reflexivity.
Qed.
Lemma metric_attempts_rows {G} gen : forall (atts : list (@attempt G)) out,
  metric_attempts show_int show show_bool notes gen atts (Some out) =
  (Ok tt, Some (out ++ concat (map (write_row lf) (map (migration_row show_int show show_bool notes gen) atts)))).
Proof.
  induction atts as [|a atts IH]; intros out; [cbn; rewrite app_nil_r; reflexivity|]. cbn [metric_attempts]. rewrite metric_row, IH. cbn [map concat].
  rewrite <- app_assoc. reflexivity.
Qed.
Lemma metric_history_rows {G} : forall (os : list (@mig_out G)) out,
  metric_history show_int show show_bool notes os (Some out) =
  (Ok tt, Some (out ++ concat (map (write_row lf) (migration_rows show_int show show_bool notes os)))).
Proof.
  unfold migration_rows. induction os as [|o os IH]; intros out; [cbn; rewrite app_nil_r; reflexivity|]. cbn [metric_history]. rewrite metric_attempts_rows, IH. cbn [map concat].
  rewrite map_app, concat_app, <- app_assoc. reflexivity.
Qed.
Theorem migration_log {G} (os : list (@mig_out G)) :
  (forall k v, In (k, v) notes -> no_cr k /\ no_cr v) -> (forall z, no_cr (show_int z)) -> (forall n, no_cr (show n)) -> (forall b, no_cr (show_bool b)) ->
  forall (header : bool) before, Forall (Forall no_cr) before ->
  exists s t, metric_init notes header (Some (concat (map (write_row lf) before))) = Some s /\
    metric_history show_int show show_bool notes os (Some s) = (Ok tt, Some t) /\
    csv_read t = Some (before ++ (if header then [map fst notes ++ std_names] else []) ++ migration_rows show_int show show_bool notes os).
Proof.
  intros HN A B C header before HB. eexists _, _. split; [reflexivity|]. split; [apply metric_history_rows|].
  assert (E : (if header then writeheader lf (metric_fields notes) (concat (map (write_row lf) before)) else concat (map (write_row lf) before))
    = concat (map (write_row lf) (before ++ if header then [map fst notes ++ std_names] else []))).
  { unfold writeheader. destruct header; [|rewrite app_nil_r; reflexivity]. rewrite map_app, concat_app. cbn [map concat]. rewrite app_nil_r. reflexivity. }
  rewrite E, <- concat_app, <- map_app, <- app_assoc.
  apply read_back; [left; reflexivity|]. apply Forall_app. split.
  { eapply Forall_impl; [|exact HB]. intros r Hr. eapply Forall_impl; [|exact Hr]. intros f Hf. right. exact Hf. }
  apply Forall_app. split.
  - destruct header; constructor; [|constructor]. apply Forall_app. split.
    + apply Forall_forall. intros k Hk. right. apply in_map_iff in Hk. destruct Hk as ([k' v] & <- & Hk). apply (HN k' v Hk).
    + repeat (apply Forall_cons; [right; intros H; vm_compute in H; repeat (destruct H as [H | H]; [discriminate|]); contradiction|]); apply Forall_nil.
  - unfold migration_rows. apply Forall_forall. intros row Hr. apply in_concat in Hr. destruct Hr as (l & Hl & Hr). apply in_map_iff in Hl. destruct Hl as (o & <- & _).
    apply in_map_iff in Hr. destruct Hr as (a & <- & _). apply Forall_app. split.
    + apply Forall_forall. intros v Hv. right. apply in_map_iff in Hv. destruct Hv as ([k v'] & <- & Hk). apply (HN k v' Hk).
    + repeat (apply Forall_cons; [right; auto|]); apply Forall_nil.
Qed.
End MigrationMetric.
Lemma no_stream {G} show_int show show_bool notes header (os : list (@mig_out G)) :
  metric_history show_int show show_bool notes os (metric_init notes header None) = (Ok tt, None).
Proof.
  cbn [metric_init]. induction os as [|o os IH]; [reflexivity|]. cbn [metric_history].
  replace (metric_attempts show_int show show_bool notes (o_gen o) (o_attempts o) None) with (Ok tt, @None text); [exact IH|].
  induction (o_attempts o) as [|a l IHl]; [reflexivity|]. cbn [metric_attempts metric_call]. exact IHl.
Qed.

(** ** attributes *)
Lemma read_attributes_ok ind : forall names, (exists vs, has_values names ind vs /\ read_attributes names ind = Ok (List.combine names vs) /\ map fst (List.combine names vs) = names /\ map snd (List.combine names vs) = vs) \/
  ((exists n, In n names /\ ind n = None) /\ read_attributes names ind = Err AttributeError).
Proof.
  induction names as [|n names IH]; [left; exists []; repeat split; constructor|]. cbn [read_attributes]. destruct (ind n) as [v|] eqn:E.
  - destruct IH as [(vs & H & R & K & V) | ((m & I & Em) & R)]; rewrite R.
    + left. exists (v :: vs). cbn. repeat split; [constructor; assumption|congruence|congruence].
    + right. split; [exists m; cbn; auto|reflexivity].
  - right. split; [exists n; cbn; auto|reflexivity].
Qed.
Lemma has_values_fun names ind vs vs' : has_values names ind vs -> has_values names ind vs' -> vs = vs'.
Proof. intros H. revert vs'. induction H; intros vs' H'; inversion H'; subst; [reflexivity|]. f_equal; [congruence|auto]. Qed.
Lemma worker_nodup : NoDup worker_fields.
Proof. repeat constructor; intros H; vm_compute in H; repeat (destruct H as [H | H]; [discriminate|]); contradiction. Qed.
Lemma pop_nodup : NoDup pop_fields.
Proof. repeat constructor; intros H; vm_compute in H; repeat (destruct H as [H | H]; [discriminate|]); contradiction. Qed.
Lemma worker_row ind vs out : has_values worker_fields ind vs -> worker_call ind out = (Ok tt, out ++ write_row crlf vs).
Proof.
  intros H. unfold worker_call. destruct (read_attributes_ok ind worker_fields) as [(vs' & H' & R & K & V) | ((n & I & N) & R)]; rewrite R.
  - rewrite (has_values_fun _ _ _ _ H H'). rewrite <- K at 1. rewrite writerow_ok by (rewrite K; exact worker_nodup). rewrite V. reflexivity.
  - exfalso. clear R. induction H as [|a v l vs' E H IH]; [contradiction|]. destruct I as [-> | I]; [congruence|]. auto.
Qed.
Lemma worker_missing ind n out : In n worker_fields -> ind n = None -> worker_call ind out = (Err AttributeError, out).
Proof.
  intros I N. unfold worker_call. destruct (read_attributes_ok ind worker_fields) as [(vs' & H' & _) | (_ & R)]; [|rewrite R; reflexivity].
  exfalso. clear out. induction H' as [|a v l vs' E H IH]; [contradiction|]. destruct I as [-> | I]; [congruence|]. auto.
Qed.
Lemma crlf_readable (rows : list (list text)) : Forall (Forall (fun g => crlf = crlf \/ no_cr g)) rows.
Proof. apply Forall_forall. intros r _. apply Forall_forall. intros f _. left. reflexivity. Qed.
Lemma header_rows term (header : bool) fields before :
  (if header then writeheader term fields (concat (map (write_row term) before)) else concat (map (write_row term) before))
  = concat (map (write_row term) (before ++ if header then [fields] else [])).
Proof. unfold writeheader. destruct header; [|rewrite app_nil_r; reflexivity]. rewrite map_app, concat_app. cbn [map concat]. rewrite app_nil_r. reflexivity. Qed.
Theorem worker_log (header : bool) before inds vss : Forall2 (has_values worker_columns) inds vss ->
  exists t, worker_run inds (worker_init header (concat (map (write_row crlf) before))) = (map (fun _ => Ok tt) inds, t) /\
    csv_read t = Some (before ++ (if header then [worker_columns] else []) ++ vss).
Proof.
  intros F. assert (R : forall out, worker_run inds out = (map (fun _ => Ok tt) inds, out ++ concat (map (write_row crlf) vss))).
  { induction F as [|i vs inds vss H F IH]; intros out; [cbn; rewrite app_nil_r; reflexivity|]. cbn [worker_run]. rewrite (worker_row i vs out H), IH. cbn [map concat].
    rewrite <- app_assoc. reflexivity. }
  rewrite R. eexists. split; [reflexivity|]. unfold worker_init. rewrite header_rows, <- concat_app, <- map_app, <- app_assoc.
  apply read_back; [right; reflexivity|apply crlf_readable].
Qed.

(** ** DictWriter.writerow on any dictionary *)
Lemma dict_get_is d f : dict_value d f (dict_get d f).
Proof.
  induction d as [|[k v] d IH]; [right; split; [intros []|reflexivity]|]. cbn [dict_get]. destruct (list_eq_dec ascii_dec f k) as [-> | N].
  - left. exists [], d. split; [reflexivity|intros []].
  - destruct IH as [(pre & post & E & H) | (H & E)].
    + left. exists ((k, v) :: pre), post. rewrite E at 1. split; [reflexivity|]. intros [E' | H']; [apply N; symmetry; exact E'|contradiction].
    + right. split; [|exact E]. intros [E' | H']; [apply N; symmetry; exact E'|contradiction].
Qed.
Lemma dict_check fields (d : pydict) :
  forallb (fun e => existsb (fun f => if list_eq_dec ascii_dec (fst e) f then true else false) fields) d = true <-> (forall e, In e d -> In (fst e) fields).
Proof.
  rewrite forallb_forall. split; intros H e He; specialize (H e He).
  - apply existsb_exists in H. destruct H as (f & Hf & E). cbv beta in E. match type of E with context [if ?c then _ else _] => destruct c as [Ef | Ef] end; [exact (eq_ind_r (fun t => In t fields) Hf Ef)|discriminate E].
  - apply existsb_exists. exists (fst e). split; [exact H|]. match goal with |- context [if ?c then _ else _] => destruct c as [Ef | Ef] end; [reflexivity|exfalso; apply Ef; reflexivity].
Qed.
Theorem dict_writer term fields d out :
  ((forall e, In e d -> In (fst e) fields) ->
     exists vs, Forall2 (dict_value d) fields vs /\ dict_writerow term fields d out = (Ok tt, out ++ write_row term vs)) /\
  (forall e, In e d -> ~ In (fst e) fields -> dict_writerow term fields d out = (Err ValueError, out)).
Proof.
  split.
  - intros H. exists (map (dict_get d) fields). split.
    + clear H. induction fields as [|f fields IH]; constructor; [apply dict_get_is|exact IH].
    + unfold dict_writerow. apply dict_check in H. rewrite H. reflexivity.
  - intros e He N. unfold dict_writerow. match goal with |- context [if ?c then _ else _] => destruct c eqn:E end; [|reflexivity]. exfalso. apply N. exact (proj1 (dict_check fields d) E e He).
Qed.

(** ** snapshots *)
Section LogPop.
Variables (show_int : Z -> text) (u : Z).
Hypothesis u_ok : u <> 0%Z.
Lemma pop_row_ok k i vs out : has_values pop_attributes i vs ->
  exists d, read_attributes pop_attributes i = Ok d /\ dict_writerow crlf pop_fields ((lit "interval", show_int k) :: d) out = (Ok tt, out ++ write_row crlf (show_int k :: vs)).
Proof.
  intros H. destruct (read_attributes_ok i pop_attributes) as [(vs' & H' & R & K & V) | ((n & I & N) & R)].
  - exists (List.combine pop_attributes vs'). split; [exact R|]. rewrite (has_values_fun _ _ _ _ H H').
    assert (K' : map fst ((lit "interval", show_int k) :: List.combine pop_attributes vs') = pop_fields) by (cbn [map fst]; rewrite K; reflexivity).
    rewrite <- K' at 1. rewrite writerow_ok by (rewrite K'; exact pop_nodup). cbn [map snd]. rewrite V. reflexivity.
  - exfalso. clear R. induction H as [|a v l vs' E H IH]; [contradiction|]. destruct I as [-> | I]; [congruence|]. auto.
Qed.
Lemma pop_rows_ok k : forall p vss, Forall2 (has_values pop_attributes) p vss -> forall out,
  pop_rows show_int k p out = (Ok tt, out ++ concat (map (write_row crlf) (map (cons (show_int k)) vss))).
Proof.
  intros p vss F. induction F as [|i vs p vss H F IH]; intros out; [cbn; rewrite app_nil_r; reflexivity|]. cbn [pop_rows].
  destruct (pop_row_ok k i vs out H) as (d & R & W). rewrite R, W, IH. cbn [map concat]. rewrite <- app_assoc. reflexivity.
Qed.
Lemma pop_run_ok : forall k pops rows, snapshots show_int u k pops rows -> forall out,
  pop_run show_int u pops (k, out) = (map (fun _ => Ok tt) pops, ((k + Z.of_nat (length pops))%Z, out ++ concat (map (write_row crlf) rows))).
Proof.
  intros k pops rows H. apply Z.eqb_neq in u_ok. induction H as [k|k p r rows N H IH|k p r vss rows N F H IH]; intros out.
  - cbn. rewrite Z.add_0_r, app_nil_r. reflexivity.
  - cbn [pop_run pop_call]. rewrite u_ok. apply Z.eqb_neq in N. rewrite N, IH. cbn [map length]. replace (k + Z.of_nat (S (length r)))%Z with (k + 1 + Z.of_nat (length r))%Z by lia. reflexivity.
  - cbn [pop_run pop_call]. rewrite u_ok, N. cbn [Z.eqb]. rewrite (pop_rows_ok k p vss F), IH. cbn [map length].
    rewrite map_app, concat_app, <- app_assoc. replace (k + Z.of_nat (S (length r)))%Z with (k + 1 + Z.of_nat (length r))%Z by lia. reflexivity.
Qed.
Theorem pop_log header before pops rows : snapshots show_int u 0 pops rows ->
  exists t, pop_run show_int u pops (pop_init header (concat (map (write_row crlf) before))) = (map (fun _ => Ok tt) pops, (Z.of_nat (length pops), t)) /\
    csv_read t = Some (before ++ (if header then [lit "interval" :: pop_columns] else []) ++ rows).
Proof.
  intros H. unfold pop_init. rewrite (pop_run_ok 0 pops rows H). eexists. split; [reflexivity|].
  rewrite header_rows, <- concat_app, <- map_app, <- app_assoc. apply read_back; [right; reflexivity|apply crlf_readable].
Qed.
Lemma snapshots_exist : forall pops k, (forall p i n, In p pops -> In i p -> In n pop_attributes -> i n <> None) -> exists rows, snapshots show_int u k pops rows.
Proof.
  induction pops as [|p pops IH]; intros k H; [exists []; constructor|]. destruct (IH (k + 1)%Z) as (rows & R); [intros p' i n Hp; apply H; right; exact Hp|].
  destruct (Z.eq_dec (k mod u) 0) as [E | E]; [|exists rows; constructor; assumption].
  assert (F : exists vss, Forall2 (has_values pop_attributes) p vss).
  { assert (H' : forall i n, In i p -> In n pop_attributes -> i n <> None) by (intros i n; apply (H p i n); left; reflexivity). clear - H'.
    induction p as [|i p IHp]; [exists []; constructor|]. destruct IHp as (vss & F); [intros j n Hj; apply H'; right; exact Hj|].
    destruct (read_attributes_ok i pop_attributes) as [(vs & V & _) | ((n & I & N) & _)]; [exists (vs :: vss); constructor; assumption|].
    exfalso. apply (H' i n (or_introl eq_refl) I N). }
  destruct F as (vss & F). eexists. apply (snap_take show_int u k p pops vss rows E F R).
Qed.
(** a member without an attribute: those before it are written, and the interval stays *)
Lemma pop_interrupted k pre vss i n post out : (k mod u = 0)%Z -> Forall2 (has_values pop_attributes) pre vss -> In n pop_attributes -> i n = None ->
  pop_call show_int u (pre ++ i :: post) (k, out) =
  (Err AttributeError, (k, out ++ concat (map (write_row crlf) (map (cons (show_int k)) vss)))).
Proof.
  intros K F I N. unfold pop_call. apply Z.eqb_neq in u_ok. rewrite u_ok, K. cbn [Z.eqb].
  assert (W : forall out, pop_rows show_int k (pre ++ i :: post) out = (Err AttributeError, out ++ concat (map (write_row crlf) (map (cons (show_int k)) vss)))).
  { induction F as [|j vs pre vss H F IH]; intros o.
    - cbn [app pop_rows map concat]. rewrite app_nil_r. destruct (read_attributes_ok i pop_attributes) as [(vs' & H' & _) | (_ & R)]; [|rewrite R; reflexivity].
      exfalso. clear - H' I N. induction H' as [|a v l vs' E H IH]; [contradiction|]. destruct I as [-> | I]; [congruence|]. auto.
    - cbn [app pop_rows]. destruct (pop_row_ok k j vs o H) as (d & R & W). rewrite R, W, IH. cbn [map concat]. rewrite <- app_assoc. reflexivity. }
  rewrite W. reflexivity.
Qed.
End LogPop.
Lemma pop_zero show_int : forall pops st, pop_run show_int 0 pops st = (map (fun _ => Err ZeroDivisionError) pops, st).
Proof. induction pops as [|p r IH]; intros [k out]; [reflexivity|]. cbn [pop_run pop_call Z.eqb]. rewrite IH. reflexivity. Qed.

(** ** cooperative evaluation *)
Section CoopLog.
Context {G : Type}.
Variable sel : nat -> nat -> list (cind G) -> nat -> result (cind G).
Variables (generation subpopulation : text) (show_int : Z -> text) (show : num -> text) (show_genome : list G -> text)
  (own_fitness : cind G -> text).
Let rows_of := trial_rows generation subpopulation show_int show show_genome own_fitness.

Lemma coop_nodup : NoDup coop_fields.
Proof. repeat constructor; intros H; vm_compute in H; repeat (destruct H as [H | H]; [discriminate|]); contradiction. Qed.
Lemma coop_row_ok kind collab genome fitness out :
  dict_writerow crlf coop_fields (coop_row generation subpopulation kind collab genome fitness) out =
  (Ok tt, out ++ write_row crlf [generation; subpopulation; kind; collab; genome; fitness]).
Proof.
  change coop_fields with (map fst (coop_row generation subpopulation kind collab genome fitness)). rewrite writerow_ok; [reflexivity|]. exact coop_nodup.
Qed.
Lemma log_collaborators_ok : forall cs i out, log_collaborators generation subpopulation show_int show_genome own_fitness i cs out =
  (Ok tt, out ++ concat (map (write_row crlf) (map (fun p => [generation; subpopulation; lit "Collaborator"; show_int (Z.of_nat (fst p)); show_genome (c_genome (snd p)); own_fitness (snd p)])
      (List.combine (seq i (length cs)) cs)))).
Proof.
  induction cs as [|c cs IH]; intros i out; [cbn; rewrite app_nil_r; reflexivity|]. cbn [log_collaborators]. rewrite coop_row_ok, IH. cbn [length seq List.combine map concat fst snd].
  rewrite <- app_assoc. reflexivity.
Qed.
Lemma log_trial_ok cs f out : log_trial generation subpopulation show_int show show_genome own_fitness cs (concat (map c_genome cs)) f out =
  (Ok tt, out ++ concat (map (write_row crlf) (rows_of cs f))).
Proof.
  unfold log_trial. rewrite log_collaborators_ok, coop_row_ok. unfold rows_of, trial_rows. rewrite map_app, concat_app, <- app_assoc. cbn [map concat]. rewrite app_nil_r. reflexivity.
Qed.
Lemma logged_trials_ok x current subpops : forall n t out fs, trials n t (coop_op_trial sel concat_combine_score x current subpops) = Ok fs ->
  exists css, length css = n /\ length fs = n /\
    (forall k cs, nth_error css k = Some cs -> choose x current 0 subpops (fun i pop => sel 0 i pop (t + k)) = Ok cs /\ exists f, nth_error fs k = Some f /\ concat_combine_score cs = Ok f) /\
    logged_trials sel generation subpopulation show_int show show_genome own_fitness n t x current subpops out =
    (Ok fs, out ++ concat (map (write_row crlf) (concat (map (fun p => rows_of (fst p) (snd p)) (List.combine css fs))))).
Proof.
  induction n as [|n IH]; intros t out fs E; cbn [trials] in E.
  - injection E as <-. exists []. split; [reflexivity|]. split; [reflexivity|]. split; [intros [|k] c0 [=]|]. cbn. rewrite app_nil_r. reflexivity.
  - unfold coop_op_trial in E at 1. destruct (choose x current 0 subpops (fun i pop => sel 0 i pop t)) as [cs|e] eqn:Ec; [|discriminate]. cbn [bind] in E.
    destruct (concat_combine_score cs) as [f|e] eqn:Ef; [|discriminate]. cbn [bind] in E.
    destruct (trials n (S t) _) as [fs'|e] eqn:Et; [|discriminate]. cbn [bind] in E. injection E as <-.
    destruct (IH (S t) (out ++ concat (map (write_row crlf) (rows_of cs f))) fs' Et) as (css & L1 & L2 & K & W).
    exists (cs :: css). split; [cbn; congruence|]. split; [cbn; congruence|]. split.
    + intros [|k] c Hk.
      * injection Hk as <-. rewrite Nat.add_0_r. split; [exact Ec|]. exists f. auto.
      * replace (t + S k) with (S t + k) by lia. apply (K k c Hk).
    + cbn [logged_trials]. rewrite Ec, Ef, log_trial_ok, W. cbn [bind List.combine map concat fst snd]. rewrite map_app, concat_app, <- app_assoc. reflexivity.
Qed.
Theorem coop_log before n x current subpops v : coop_op sel concat_combine_score n x current subpops = Ok v ->
  exists css fs t, length css = n /\ length fs = n /\ v = np_mean fs /\
    (forall k cs, nth_error css k = Some cs -> choose x current 0 subpops (fun i pop => sel 0 i pop k) = Ok cs /\ exists f, nth_error fs k = Some f /\ concat_combine_score cs = Ok f) /\
    coop_op_logged sel generation subpopulation show_int show show_genome own_fitness n x current subpops (coop_log_init (concat (map (write_row crlf) before))) = (Ok v, t) /\
    csv_read t = Some (before ++ coop_columns :: concat (map (fun p => rows_of (fst p) (snd p)) (List.combine css fs))).
Proof.
  intros E. unfold coop_op in E. destruct (trials n 0 _) as [fs|e] eqn:Et; [|discriminate]. cbn [bind] in E.
  destruct (logged_trials_ok x current subpops n 0 (coop_log_init (concat (map (write_row crlf) before))) fs Et) as (css & L1 & L2 & K & W).
  destruct fs as [|f fs]; [discriminate|]. injection E as <-. exists css, (f :: fs). eexists. split; [exact L1|]. split; [exact L2|]. split; [reflexivity|]. split; [exact K|].
  unfold coop_op_logged. rewrite W. split; [reflexivity|]. unfold coop_log_init. rewrite (header_rows crlf true), <- concat_app, <- map_app, <- app_assoc.
  apply read_back; [right; reflexivity|apply crlf_readable].
Qed.
(** the number of rows *)
Lemma choose_len (x : cind G) current pick : forall subpops i cs, choose x current i subpops pick = Ok cs -> length cs = length subpops.
Proof.
  induction subpops as [|p r IH]; intros i cs E; cbn [choose] in E; [injection E as <-; reflexivity|].
  destruct (if i =? current then Ok x else pick i p) as [y|e]; [|discriminate]. cbn [bind] in E.
  destruct (choose x current (S i) r pick) as [ys|e] eqn:Er; [|discriminate]. cbn [bind] in E. injection E as <-. cbn. f_equal. apply (IH (S i)), Er.
Qed.
Lemma trial_rows_len cs f : length (rows_of cs f) = S (length cs).
Proof. unfold rows_of, trial_rows. rewrite app_length, map_length, combine_length, seq_length. cbn. lia. Qed.
Theorem coop_log_size before n x current subpops v t : coop_op sel concat_combine_score n x current subpops = Ok v ->
  coop_op_logged sel generation subpopulation show_int show show_genome own_fitness n x current subpops (coop_log_init (concat (map (write_row crlf) before))) = (Ok v, t) ->
  exists rows, csv_read t = Some (before ++ coop_columns :: rows) /\ length rows = n * (length subpops + 1).
Proof.
  intros E E'. destruct (coop_log before n x current subpops v E) as (css & fs & t' & L1 & L2 & _ & K & W & R). rewrite W in E'. injection E' as <-.
  eexists. split; [exact R|].
  assert (A : forall css fs n, length css = n -> length fs = n -> (forall cs, In cs css -> length cs = length subpops) ->
    length (concat (map (fun p => rows_of (fst p) (snd p)) (List.combine css fs))) = n * (length subpops + 1)).
  { clear. induction css as [|c css IH]; intros [|f fs] [|n] A B C; try discriminate; [reflexivity|]. cbn [List.combine map concat fst snd]. rewrite app_length, trial_rows_len.
    rewrite (C c (or_introl eq_refl)). rewrite (IH fs n) by (try (cbn in *; lia); intros cs Hc; apply C; right; exact Hc). cbn. lia. }
  apply (A css fs n L1 L2). intros cs Hc. apply In_nth_error in Hc. destruct Hc as (k & Hk). destruct (K k cs Hk) as (Ck & _). apply (choose_len _ _ _ _ _ _ Ck).
Qed.
End CoopLog.
