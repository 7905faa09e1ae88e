(** C33-C35: Pareto comparison and non-dominated sorting. *)
From Verif Require Import Model.Base Model.Pareto Spec.Order Spec.Pareto Proofs.Pareto Proofs.RankOrdinal Proofs.ParetoProps.
Open Scope nat_scope.

(** C33: [a < b] is "b dominates a", [a > b] is "a dominates b", [a == b] is "neither". *)
Theorem C33_comparison_is_dominance :
  forall mx a b,
  (mo_lt mx a b = true <-> dominates mx (o_fit b) (o_fit a)) /\
  (mo_gt mx a b = true <-> dominates mx (o_fit a) (o_fit b)) /\
  (mo_gt mx a b = mo_lt mx b a) /\
  (mo_eq mx a b = true <-> ~ dominates mx (o_fit a) (o_fit b) /\ ~ dominates mx (o_fit b) (o_fit a)).
Proof. exact comparison_is_dominance. Qed.
Print Assumptions C33_comparison_is_dominance.

(** C33: a strict partial order. *)
Theorem C33_strict_partial_order :
  forall mx,
  (forall a, mo_lt mx a a = false) /\
  (forall a b, mo_lt mx a b = true -> mo_lt mx b a = false) /\
  (forall a b c, length (o_fit a) = length mx -> length (o_fit b) = length mx -> length (o_fit c) = length mx ->
     mo_lt mx a b = true -> mo_lt mx b c = true -> mo_lt mx a c = true).
Proof. exact strict_partial_order. Qed.
Print Assumptions C33_strict_partial_order.

(** C33: [a <= b] is "a does not dominate b", [a >= b] is "b does not dominate a". *)
Theorem C33_le_and_ge :
  forall mx a b,
  (mo_le mx a b = true <-> ~ dominates mx (o_fit a) (o_fit b)) /\
  (mo_ge mx a b = true <-> ~ dominates mx (o_fit b) (o_fit a)).
Proof. exact le_and_ge. Qed.
Print Assumptions C33_le_and_ge.
Example C33_le_and_ge_example :
  let a := mk_mo 0 [NInt 1; NInt 4] in let b := mk_mo 1 [NInt 2; NInt 4] in let c := mk_mo 3 [NInt 5; NInt 9] in
  map (fun '(x, y) => (mo_le [true; false] x y, mo_ge [true; false] x y)) [(a, b); (b, a); (a, c); (c, a)] =
  [(true, false); (false, true); (true, true); (true, true)].
Proof. reflexivity. Qed.

(** Observation: [==] between multi-objective individuals is not transitive (so it is no equality). *)
Theorem C33_equality_is_transitive_refuted :
  exists mx a b c, length (o_fit a) = length mx /\ length (o_fit b) = length mx /\ length (o_fit c) = length mx /\
    mo_eq mx a b = true /\ mo_eq mx b c = true /\ mo_eq mx a c = false.
Proof.
  exists [true; true], (mk_mo 0 [NInt 1; NInt 1]), (mk_mo 1 [NInt 0; NInt 5]), (mk_mo 2 [NInt 2; NInt 2]).
  vm_compute. auto 10.
Qed.
Print Assumptions C33_equality_is_transitive_refuted.

(** maximise the first, minimise the second objective *)
Example C33_example :
  mo_lt [true; false] (mk_mo 0 [NInt 1; NInt 4]) (mk_mo 1 [NInt 2; NInt 4]) = true /\
  mo_lt [true; false] (mk_mo 1 [NInt 2; NInt 4]) (mk_mo 2 [NInt 2; NInt 3]) = true /\
  mo_lt [true; false] (mk_mo 0 [NInt 1; NInt 4]) (mk_mo 2 [NInt 2; NInt 3]) = true /\
  mo_eq [true; false] (mk_mo 0 [NInt 1; NInt 4]) (mk_mo 3 [NInt 5; NInt 9]) = true.
Proof. vm_compute. auto. Qed.

(** C34: for a population (with the parents appended, if given) of pairwise different objects the
    sort ends, returns exactly the combined population and leaves the true front numbers in [rank],
    whatever the attributes were before. *)
Theorem C34_fast_sort_assigns_front_numbers :
  forall mx population parents before fuel,
  let working := match parents with Some ps => population ++ ps | None => population end in
  population <> [] -> NoDup (map o_id working) -> vectors_ok mx working -> length working < fuel ->
  exists st, fast_nondominated_sort (mo_gt mx) fuel population parents before = Some (Ok (working, st)) /\
    front_numbers (fun y x => dominates mx (o_fit y) (o_fit x)) working (fun x => f_rank st (o_id x)).
Proof. exact fast_sort_correct. Qed.
Print Assumptions C34_fast_sort_assigns_front_numbers.

(** C34: front numbers are unique, so the specification leaves nothing open; rank 1 is exactly "not
    dominated". *)
Theorem C34_front_numbers_are_determined :
  forall A (dom : A -> A -> Prop) pop r1 r2, front_numbers dom pop r1 ->
  (forall x, In x pop -> (r1 x = 1 <-> forall y, In y pop -> ~ dom y x)) /\
  (front_numbers dom pop r2 -> forall x, In x pop -> r1 x = r2 x).
Proof. exact (fun A => @front_numbers_determined A). Qed.
Print Assumptions C34_front_numbers_are_determined.

(** Finding: with the same object twice in the population an individual can be left with rank 0. *)
Theorem C34_repeated_object_refuted :
  exists mx population before fuel st, vectors_ok mx population /\
    fast_nondominated_sort (mo_gt mx) fuel population None before = Some (Ok (population, st)) /\
    ~ front_numbers (fun y x => dominates mx (o_fit y) (o_fit x)) population (fun x => f_rank st (o_id x)).
Proof. exact repeated_object. Qed.
Print Assumptions C34_repeated_object_refuted.

Definition C34_population : list mo :=
  [mk_mo 0 [NInt 1; NInt 5]; mk_mo 1 [NInt 3; NInt 3]; mk_mo 2 [NInt 3; NInt 3]; mk_mo 3 [NInt 1; NInt 6];
   mk_mo 4 [NInt 0; NInt 7]].
Definition C34_before : fns := mk_fns (fun _ => []) (fun _ => 9%Z) (fun _ => 4).

Example C34_example :
  match fast_nondominated_sort (mo_gt [true; false]) 9 C34_population (Some [mk_mo 5 [NInt 2; NInt 4]]) C34_before with
  | Some (Ok (w, st)) => map (fun x => f_rank st (o_id x)) w = [3; 1; 1; 4; 5; 2]
  | _ => False
  end.
Proof. vm_compute. reflexivity. Qed.

(** C35: rank_ordinal_sort assigns the true front numbers (here the same object may occur twice);
    fitness vectors without NaN, at least one objective. *)
Theorem C35_rank_ordinal_assigns_front_numbers :
  forall mx population parents before,
  let working := match parents with Some ps => population ++ ps | None => population end in
  mx <> [] -> working <> [] -> (forall x y, In x working -> In y working -> o_id x = o_id y -> x = y) ->
  numeric_vectors mx working ->
  exists rank, rank_ordinal_sort mx population parents before = Ok (working, rank) /\
    front_numbers (fun y x => dominates mx (o_fit y) (o_fit x)) working (fun x => rank (o_id x)).
Proof. exact rank_ordinal_correct. Qed.
Print Assumptions C35_rank_ordinal_assigns_front_numbers.

(** C35: hence the two sorts agree. *)
Theorem C35_sorts_agree :
  forall mx population parents before before' fuel,
  let working := match parents with Some ps => population ++ ps | None => population end in
  mx <> [] -> population <> [] -> NoDup (map o_id working) -> numeric_vectors mx working -> length working < fuel ->
  exists st rank,
    fast_nondominated_sort (mo_gt mx) fuel population parents before = Some (Ok (working, st)) /\
    rank_ordinal_sort mx population parents before' = Ok (working, rank) /\
    forall x, In x working -> f_rank st (o_id x) = rank (o_id x).
Proof. exact sorts_agree. Qed.
Print Assumptions C35_sorts_agree.

Example C35_example :
  match rank_ordinal_sort [true; false] C34_population (Some [mk_mo 5 [NInt 2; NInt 4]]) (fun _ => 7) with
  | Ok (w, rank) => map (fun x => rank (o_id x)) w = [3; 1; 1; 4; 5; 2]
  | _ => False
  end.
Proof. vm_compute. reflexivity. Qed.

Example C35_example_hypotheses :
  NoDup (map o_id (C34_population ++ [mk_mo 5 [NInt 2; NInt 4]])) /\
  numeric_vectors [true; false] (C34_population ++ [mk_mo 5 [NInt 2; NInt 4]]).
Proof.
  split; [repeat constructor; simpl; intuition discriminate|].
  intros x Hx. simpl in Hx.
  repeat (destruct Hx as [<-|Hx]; [split; [reflexivity|repeat constructor; discriminate]|]). destruct Hx.
Qed.
