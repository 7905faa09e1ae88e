(** C36: objectives that are NaN. *)
From Verif Require Import Model.Base Model.Pareto Model.Crowding Spec.Crowding Proofs.CrowdingNan.
Local Open Scope nat_scope.
Local Open Scope list_scope.

(** if the objective is NaN for everybody, whoever is listed first or last gets infinity, all others NaN *)
Theorem C36_nan_objective :
  forall mk rank r pop d, pop <> [] -> NoDup (map o_id pop) -> (forall x, In x pop -> rank (o_id x) = r) ->
  (forall x, In x pop -> nth_error (o_fit x) 0 = Some NNan) ->
  exists d', crowding_distance_calc [mk] rank pop d = Ok (pop, d') /\
    forall x, In x pop -> (at_end pop x -> d' (o_id x) = Some PInf) /\ (~ at_end pop x -> d' (o_id x) = None).
Proof. exact nan_objective. Qed.
Print Assumptions C36_nan_objective.

(** if all the values that are not NaN are the same number, NaN counts for nothing: all distances are 0 *)
Theorem C36_nan_left_out :
  forall mk rank r pop d q, (forall x, In x pop -> rank (o_id x) = r) ->
  (forall x, In x pop -> nth_error (o_fit x) 0 = Some NNan \/
     exists v p, nth_error (o_fit x) 0 = Some v /\ num_val v = Some (Fin p) /\ (p == q)%Q) ->
  (exists x, In x pop /\ exists v p, nth_error (o_fit x) 0 = Some v /\ num_val v = Some (Fin p) /\ (p == q)%Q) ->
  exists d', crowding_distance_calc [mk] rank pop d = Ok ([], d') /\ forall x, In x pop -> d' (o_id x) = Some (Fin 0%Q).
Proof. exact nan_left_out. Qed.
Print Assumptions C36_nan_left_out.

Example C36_nan_example :
  match crowding_distance_calc [false] (fun _ => 1) [mk_mo 4 [NNan]; mk_mo 7 [NNan]; mk_mo 5 [NNan]] (fun _ => None),
        crowding_distance_calc [true] (fun _ => 1) [mk_mo 4 [NInt 3]; mk_mo 7 [NNan]; mk_mo 5 [NFlt true (Fin (6 # 2))]] (fun _ => None) with
  | Ok (out, d), Ok (out', d') => map (fun x => d (o_id x)) out = [Some PInf; None; Some PInf] /\ out' = [] /\
      map d' [4; 7; 5] = [Some (Fin 0); Some (Fin 0); Some (Fin 0)]%Q
  | _, _ => False
  end.
Proof. vm_compute. auto. Qed.
