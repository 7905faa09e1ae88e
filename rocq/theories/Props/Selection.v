(** C09, C10, C13-C15: truncation, elitism, tournament, insertion and cyclic selection. *)
From Verif Require Import Model.Base Model.PyList Model.Scalar Model.Selection
  Spec.Order Spec.Selection Proofs.ScalarSel Proofs.Cyclic.

(** C09. *)
Theorem C09_truncation_keeps_best :
  forall mx coin offspring size parents,
  let pool := offspring ++ match parents with Some ps => ps | None => [] end in
  sharp (map si_fit pool) ->
  best_selection (fun x y => ~ better mx (si_fit x) (si_fit y)) size pool
    (truncation_selection (ind_lt mx coin) (ind_gt mx coin) ind_eq offspring size parents).
Proof. exact truncation_best. Qed.
Print Assumptions C09_truncation_keeps_best.

Theorem C09_truncation_ties_to_earlier :
  forall mx coin offspring size parents,
  let pool := offspring ++ match parents with Some ps => ps | None => [] end in
  sharp (map si_fit pool) -> Forall (fun x => viable (si_fit x)) pool ->
  ties_favor_earlier (fun x y => same_value mx (si_fit x) (si_fit y)) pool
    (truncation_selection (ind_lt mx coin) (ind_gt mx coin) ind_eq offspring size parents).
Proof. exact truncation_ties. Qed.
Print Assumptions C09_truncation_ties_to_earlier.

(** With a [key] function whose keys are compared by any strict weak order. *)
Theorem C09_truncation_with_key :
  forall (A K : Type) (key : A -> K) (ltk eqk : K -> K -> bool) offspring size parents,
  (forall x, ltk x x = false) ->
  (forall x y z, ltk x y = true -> ltk y z = true -> ltk x z = true) ->
  (forall x y z, ltk x z = true -> ltk x y = true \/ ltk y z = true) ->
  (forall x y, eqk x y = true -> ltk x y = false /\ ltk y x = false) ->
  let lt := fun a b => ltk (key a) (key b) in
  let pool := offspring ++ match parents with Some ps => ps | None => [] end in
  let r := truncation_selection lt (fun a b => lt b a) (fun a b => eqk (key a) (key b))
             offspring size parents in
  best_selection (fun x y => ltk (key y) (key x) = false) size pool r /\
  ties_favor_earlier (fun x y => ltk (key x) (key y) = false /\ ltk (key y) (key x) = false) pool r.
Proof. exact @truncation_key. Qed.
Print Assumptions C09_truncation_with_key.

(** The sharpness hypothesis cannot be dropped: with floats closer than the tolerance a strictly
    better individual is left out. *)
Theorem C09_near_ties_refuted :
  exists mx coin offspring size dropped kept,
    In dropped offspring /\
    ~ In dropped (truncation_selection (ind_lt mx coin) (ind_gt mx coin) ind_eq offspring size None) /\
    In kept (truncation_selection (ind_lt mx coin) (ind_gt mx coin) ind_eq offspring size None) /\
    better mx (si_fit dropped) (si_fit kept).
Proof.
  exists true, (fun _ _ => false),
    [mk_sind 0 (NFlt true (Fin 1)); mk_sind 1 (NFlt true (Fin (10000000001 # 10000000000)));
     mk_sind 2 (NFlt true (Fin 2))], 2,
    (mk_sind 1 (NFlt true (Fin (10000000001 # 10000000000)))), (mk_sind 0 (NFlt true (Fin 1))).
  vm_compute. repeat split; auto. intros [H|[H|[]]]; discriminate.
Qed.
Print Assumptions C09_near_ties_refuted.

Example C09_example :
  let i n f := mk_sind n (NInt f) in
  sharp (map si_fit [i 0 1%Z; i 1 3%Z; i 2 3%Z; i 3 3%Z; i 4 9%Z]) /\
  truncation_selection (ind_lt true (fun _ _ => false)) (ind_gt true (fun _ _ => false)) ind_eq
    [i 0 1%Z; i 1 3%Z; i 2 3%Z] 3 (Some [i 3 3%Z; i 4 9%Z]) = [i 4 9%Z; i 1 3%Z; i 2 3%Z].
Proof.
  split; [|vm_compute; reflexivity].
  intros f g mx Hf _ (P1 & _). destruct P1 as [e ->].
  simpl in Hf. repeat (destruct Hf as [Hf|Hf]; [discriminate|]). destruct Hf.
Qed.

(** C10. *)
Theorem C10_elitist_survival :
  forall mx coin offspring parents k,
  sharp (map si_fit (offspring ++ parents)) ->
  let nb := fun x y => ~ better mx (si_fit x) (si_fit y) in
  exists elites,
    best_selection nb k parents elites /\
    best_selection nb (length offspring) (offspring ++ elites)
      (fst (elitist_survival (ind_lt mx coin) (ind_gt mx coin) ind_eq offspring parents k)) /\
    snd (elitist_survival (ind_lt mx coin) (ind_gt mx coin) ind_eq offspring parents k)
      = offspring ++ elites.
Proof. exact elitist_spec. Qed.
Print Assumptions C10_elitist_survival.

Theorem C10_elitism_never_loses_the_best :
  forall mx coin offspring parents k,
  sharp (map si_fit (offspring ++ parents)) -> 1 <= k -> offspring <> [] ->
  let survivors :=
    fst (elitist_survival (ind_lt mx coin) (ind_gt mx coin) ind_eq offspring parents k) in
  length survivors = length offspring /\
  incl survivors (offspring ++ parents) /\
  forall x, In x (offspring ++ parents) ->
    exists y, In y survivors /\ ~ better mx (si_fit x) (si_fit y).
Proof. exact elitist_keeps_best. Qed.
Print Assumptions C10_elitism_never_loses_the_best.

Example C10_example :
  let i n f := mk_sind n (NInt f) in
  fst (elitist_survival (ind_lt true (fun _ _ => false)) (ind_gt true (fun _ _ => false)) ind_eq
    [i 0 1%Z; i 1 3%Z; i 2 2%Z] [i 3 0%Z; i 4 9%Z] 1) = [i 4 9%Z; i 1 3%Z; i 2 2%Z].
Proof. vm_compute. reflexivity. Qed.

(** C13. *)
Theorem C13_tournament :
  forall mx coin population select_worst choices indices,
  choices <> [] -> Forall (fun i => i < length population) choices ->
  exists i x,
    tournament_turn (ind_lt mx coin) (ind_gt mx coin) population select_worst choices indices
      = Ok (x, match indices with None => None | Some _ => Some [i] end) /\
    In i choices /\ nth_error population i = Some x /\
    forall j y, In j choices -> nth_error population j = Some y ->
      if select_worst then ~ better mx (si_fit x) (si_fit y)
      else (better mx (si_fit y) (si_fit x) -> within_rel tol (si_fit y) (si_fit x)) /\
           (sharp (map si_fit population) -> ~ better mx (si_fit y) (si_fit x)).
Proof. exact tournament_spec. Qed.
Print Assumptions C13_tournament.

(** random_selection returns the individual at the drawn position and reports that position. *)
Theorem C13_random_selection :
  forall (A : Type) (population : list A) i indices, i < length population ->
  exists x, nth_error population i = Some x /\
    random_turn population i indices
      = Ok (x, match indices with None => None | Some _ => Some [i] end).
Proof. exact @random_turn_spec. Qed.
Print Assumptions C13_random_selection.

Example C13_example :
  let i n f := mk_sind n (NInt f) in
  tournament_turn (ind_lt true (fun _ _ => false)) (ind_gt true (fun _ _ => false))
    [i 0 4%Z; i 1 6%Z; i 2 1%Z; i 3 6%Z] false [2; 3; 0; 1] (Some [7; 7])
  = Ok (i 3 6%Z, Some [3]).
Proof. vm_compute. reflexivity. Qed.

(** C14 is false as stated: the [return] inside the loop stops after the first child. *)
Theorem C14_every_offspring_competes_refuted :
  exists mx coin offspring parents draws r,
    length draws = length offspring /\ Forall (fun i => i < length parents) draws /\
    sharp (map si_fit (offspring ++ parents)) /\
    Forall (fun x => viable (si_fit x)) (offspring ++ parents) /\
    insertion_selection (ind_gt mx coin) offspring parents draws = Ok r /\
    ~ each_competes (fun x y => ~ better mx (si_fit x) (si_fit y)) offspring draws parents r.
Proof.
  pose (i := fun n f => mk_sind n (NInt f)).
  exists true, (fun _ _ => false), [i 2 5%Z; i 3 6%Z], [i 0 1%Z; i 1 1%Z], [0; 1],
    [i 2 5%Z; i 1 1%Z].
  split; [reflexivity|]. split; [repeat constructor|]. split.
  { intros f g mx Hf _ (P1 & _). destruct P1 as [e ->].
    simpl in Hf. repeat (destruct Hf as [Hf|Hf]; [discriminate|]). destruct Hf. }
  split; [repeat constructor; discriminate|]. split; [reflexivity|].
  intros H. inversion H as [|c cs ii ds ms inc ms' rr Hn Hy Hno Hrest]; subst.
  inversion Hrest as [|c2 cs2 ii2 ds2 ms2 inc2 ms2' rr2 Hn2 Hy2 Hno2 Hrest2]; subst.
  inversion Hrest2; subst.
  simpl in Hn. injection Hn as <-.
  destruct Hy as (l1 & o & l2 & E1 & E2 & E3); [vm_compute; discriminate|].
  destruct l1; [|discriminate]. simpl in *. injection E1 as <- <-. subst ms'.
  simpl in Hn2. injection Hn2 as <-.
  destruct Hy2 as (m1 & o2 & m2 & F1 & F2 & F3); [vm_compute; discriminate|].
  destruct m1 as [|z m1]; [discriminate|]. destruct m1; [|discriminate].
  simpl in *. injection F1 as <- _ <-. discriminate.
Qed.
Print Assumptions C14_every_offspring_competes_refuted.

(** C14, the part that holds: exactly the first child competes, correctly (missing: the others). *)
Theorem C14_first_offspring_competes_partial :
  forall mx coin child rest parents i draws,
  viable (si_fit child) -> i < length parents -> sharp (map si_fit (child :: parents)) ->
  exists r, insertion_selection (ind_gt mx coin) (child :: rest) parents (i :: draws) = Ok r /\
    each_competes (fun x y => ~ better mx (si_fit x) (si_fit y)) [child] [i] parents r.
Proof. exact insertion_first. Qed.
Print Assumptions C14_first_offspring_competes_partial.

Theorem C14_no_slot_gets_worse_partial :
  forall mx coin offspring parents draws r,
  insertion_selection (ind_gt mx coin) offspring parents draws = Ok r ->
  length r = length parents /\
  forall j x y, nth_error parents j = Some x -> nth_error r j = Some y ->
    better mx (si_fit x) (si_fit y) -> within_rel tol (si_fit x) (si_fit y).
Proof. exact insertion_slots. Qed.
Print Assumptions C14_no_slot_gets_worse_partial.

Example C14_example :
  let i n f := mk_sind n (NInt f) in
  insertion_selection (ind_gt true (fun _ _ => false)) [i 2 5%Z] [i 0 1%Z; i 1 7%Z; i 3 5%Z] [2]
  = Ok [i 0 1%Z; i 1 7%Z; i 2 5%Z].
Proof. vm_compute. reflexivity. Qed.

(** C15. *)
Theorem C15_naive_cyclic_order :
  forall (A : Type) (pop : list A) indices t, pop <> [] ->
  Forall2 (fun i d => nth_error pop (i mod length pop) = Some (fst d) /\
             snd d = match indices with None => None | Some _ => Some [i mod length pop] end)
    (seq 0 t) (naive_cyclic_draws pop indices t 0).
Proof.
  exact (fun A pop ix t => match pop with
    | [] => fun H => False_ind _ (H eq_refl)
    | x :: r => fun _ => naive_from (x :: r) ix t 0 (Nat.lt_0_succ _) end).
Qed.
Print Assumptions C15_naive_cyclic_order.

Theorem C15_naive_cyclic_tours :
  forall (A : Type) (pop : list A) indices m,
  complete_tours m pop (map fst (naive_cyclic_draws pop indices (m * length pop) 0)).
Proof. exact @naive_complete_tours. Qed.
Print Assumptions C15_naive_cyclic_tours.

Theorem C15_naive_cyclic_balanced :
  forall (A : Type) (eq_dec : forall x y : A, {x = y} + {x <> y}) pop indices t x y,
  NoDup pop -> In x pop -> In y pop ->
  count_occ eq_dec (map fst (naive_cyclic_draws pop indices t 0)) x <=
  S (count_occ eq_dec (map fst (naive_cyclic_draws pop indices t 0)) y).
Proof. exact @naive_balanced. Qed.
Print Assumptions C15_naive_cyclic_balanced.

Theorem C15_cyclic_tours :
  forall (A : Type) (shuffle : nat -> list A -> list A),
  (forall c l, Permutation l (shuffle c l)) ->
  forall pop m, complete_tours m pop (cyclic_draws shuffle (m * length pop) (cyclic_init pop)).
Proof. exact @cyclic_tours. Qed.
Print Assumptions C15_cyclic_tours.

Theorem C15_cyclic_first_tour_in_order :
  forall (A : Type) (shuffle : nat -> list A -> list A) pop,
  cyclic_draws shuffle (length pop) (cyclic_init pop) = pop.
Proof. exact @cyclic_first. Qed.
Print Assumptions C15_cyclic_first_tour_in_order.

Theorem C15_cyclic_balanced :
  forall (A : Type) (shuffle : nat -> list A -> list A),
  (forall c l, Permutation l (shuffle c l)) ->
  forall (eq_dec : forall x y : A, {x = y} + {x <> y}) pop t x y,
  NoDup pop -> In x pop -> In y pop ->
  count_occ eq_dec (cyclic_draws shuffle t (cyclic_init pop)) x <=
  S (count_occ eq_dec (cyclic_draws shuffle t (cyclic_init pop)) y).
Proof. exact @cyclic_balanced. Qed.
Print Assumptions C15_cyclic_balanced.

Example C15_example :
  (forall (c : nat) (l : list nat), Permutation l (rev l)) /\
  cyclic_draws (fun _ l => rev l) 8 (cyclic_init [1; 2; 3]) = [1; 2; 3; 3; 2; 1; 1; 2] /\
  map fst (naive_cyclic_draws [1; 2; 3] None 5 0) = [1; 2; 3; 1; 2].
Proof. split; [intros; apply Permutation_rev|vm_compute; auto]. Qed.
