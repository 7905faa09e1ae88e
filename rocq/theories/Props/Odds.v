(** C94: exact odds of tournaments and of uniform crossover. *)
From Verif Require Import Model.Base Model.Scalar Model.Selection Model.Variation
  Spec.Order Spec.Odds Proofs.Odds.

(** There are n^k equally likely draws ... *)
Theorem C94_draws :
  forall n k, (exists l, all_draws n k l) /\ forall l, all_draws n k l -> length l = n ^ k.
Proof. exact (fun n k => conj (draws_exist n k) (draws_total n k)). Qed.
Print Assumptions C94_draws.

(** ... the winner is no better than f in exactly m^k of them, m members being no better than f ... *)
Theorem C94_at_most :
  forall mx coin population f k l m indices,
  sharp (map si_fit population) -> 1 <= k -> all_draws (length population) k l ->
  counts (fun x => ~ better mx (si_fit x) f) population m ->
  counts (fun d => exists w r,
      tournament_turn (ind_lt mx coin) (ind_gt mx coin) population false d indices = Ok (w, r) /\
      ~ better mx (si_fit w) f) l (m ^ k).
Proof. exact best_at_most. Qed.
Print Assumptions C94_at_most.

(** ... and in a tournament for the worst, no worse than f in m^k. *)
Theorem C94_at_least :
  forall mx coin population f k l m indices,
  1 <= k -> all_draws (length population) k l ->
  counts (fun x => ~ better mx f (si_fit x)) population m ->
  counts (fun d => exists w r,
      tournament_turn (ind_lt mx coin) (ind_gt mx coin) population true d indices = Ok (w, r) /\
      ~ better mx f (si_fit w)) l (m ^ k).
Proof. exact worst_at_least. Qed.
Print Assumptions C94_at_least.

(** An untied member that is preferred to m others wins (m+1)^k - m^k of the draws. *)
Theorem C94_wins :
  forall mx coin population select_worst i x k l m old,
  sharp (map si_fit population) \/ select_worst = true -> 1 <= k -> all_draws (length population) k l ->
  nth_error population i = Some x ->
  (forall j y, nth_error population j = Some y -> j <> i -> beats mx select_worst x y \/ beats mx select_worst y x) ->
  counts (fun y => beats mx select_worst x y) population m ->
  counts (fun d => tournament_turn (ind_lt mx coin) (ind_gt mx coin) population select_worst d (Some old)
                     = Ok (x, Some [i])) l (S m ^ k - m ^ k).
Proof. exact exact_wins. Qed.
Print Assumptions C94_wins.

(** Selection pressure: the preferred of two untied members wins at least as often, and strictly more often
    when the tournament has two or more entries. *)
Theorem C94_pressure :
  forall mx coin population select_worst i x j y k l ci cj old,
  sharp (map si_fit population) \/ select_worst = true -> 1 <= k -> all_draws (length population) k l ->
  nth_error population i = Some x -> nth_error population j = Some y ->
  (forall a z, nth_error population a = Some z -> a <> i -> beats mx select_worst x z \/ beats mx select_worst z x) ->
  (forall a z, nth_error population a = Some z -> a <> j -> beats mx select_worst y z \/ beats mx select_worst z y) ->
  beats mx select_worst x y ->
  counts (fun d => tournament_turn (ind_lt mx coin) (ind_gt mx coin) population select_worst d (Some old)
                     = Ok (x, Some [i])) l ci ->
  counts (fun d => tournament_turn (ind_lt mx coin) (ind_gt mx coin) population select_worst d (Some old)
                     = Ok (y, Some [j])) l cj ->
  cj <= ci /\ (2 <= k -> cj < ci).
Proof. exact pressure. Qed.
Print Assumptions C94_pressure.

(** Tied members win equally often, wherever they stand in the population. *)
Theorem C94_ties :
  forall mx coin population i j x y,
  sharp (map si_fit population) -> Forall (fun z => viable (si_fit z)) population ->
  nth_error population i = Some x -> nth_error population j = Some y -> same_value mx (si_fit x) (si_fit y) ->
  forall select_worst k l ci cj old, all_draws (length population) k l ->
  counts (fun d => tournament_turn (ind_lt mx coin) (ind_gt mx coin) population select_worst d (Some old)
                     = Ok (x, Some [i])) l ci ->
  counts (fun d => tournament_turn (ind_lt mx coin) (ind_gt mx coin) population select_worst d (Some old)
                     = Ok (y, Some [j])) l cj ->
  ci = cj.
Proof. exact ties_share. Qed.
Print Assumptions C94_ties.

(** Uniform crossover: the chances of the masks add up to 1 ... *)
Theorem C94_masks :
  forall p n l, all_masks n l -> (qsum (map (mask_chance p) l) == 1)%Q.
Proof. exact masks_total. Qed.
Print Assumptions C94_masks.

(** ... and the chance of a child is the product of the chances of its genes. *)
Theorem C94_uniform_crossover :
  forall G (eq_dec : forall x y : G, {x = y} + {x <> y}) p (a b c : list G) l,
  length b = length a -> length c = length a -> all_masks (length a) l ->
  chance_of (mask_chance p) (fun mask => exists c', uniform_recombine mask a b = Ok (c, c')) l
    (qprod (map (gene_chance eq_dec p) (combine (combine a b) c))).
Proof. exact uniform_odds. Qed.
Print Assumptions C94_uniform_crossover.

(** Example: the two best of four share 12 of the 16 draws, the third wins 3 and the last 1. *)
Example C94_example :
  all_draws 4 2 ex_draws2 /\
  map (fun i => length (filter (fun d =>
        match tournament_turn (ind_lt true (fun _ _ => false)) (ind_gt true (fun _ _ => false)) ex_field false d (Some []) with
        | Ok (_, Some [j]) => Nat.eqb i j | _ => false end) ex_draws2)) [0; 1; 2; 3] = [3; 6; 1; 6].
Proof.
  split; [|vm_compute; reflexivity]. split.
  - apply (NoDup_count_occ (list_eq_dec Nat.eq_dec)). intros d.
    destruct (in_dec (list_eq_dec Nat.eq_dec) d ex_draws2) as [H|H].
    + cbn in H. repeat (destruct H as [<-|H]; [vm_compute; repeat constructor|]). destruct H.
    + rewrite (proj1 (count_occ_not_In _ _ _) H). auto.
  - intros d. split.
    + intros H. cbn in H. repeat (destruct H as [<-|H]; [split; [reflexivity|repeat constructor; cbn; auto 9]|]). destruct H.
    + intros [H1 H2]. destruct d as [|a [|b [|]]]; try discriminate H1. inversion H2 as [|? ? Ha H3]; subst.
      inversion H3 as [|? ? Hb _]; subst.
      do 4 (destruct a as [|a]; [do 4 (destruct b as [|b]; [cbn; tauto|]); cbn in Hb; repeat apply le_S_n in Hb; inversion Hb|]).
      repeat apply le_S_n in Ha. inversion Ha.
Qed.

Example C94_crossover_ex :
  (qprod (map (gene_chance Z.eq_dec (1 # 5)) (combine (combine [1; 2; 3; 4]%Z [5; 2; 7; 8]%Z) [5; 2; 3; 4]%Z)) == 16 # 125)%Q.
Proof. vm_compute. reflexivity. Qed.
