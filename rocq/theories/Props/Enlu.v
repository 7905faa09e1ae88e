(** C38, C39: incremental layers and the bounded population of asynchronous NSGA-II. *)
From Coq Require Import Permutation.
From Verif Require Import Model.Base Model.Pareto Model.Crowding Model.Enlu
  Spec.Order Spec.Pareto Spec.Crowding Proofs.Crowding Proofs.Enlu Proofs.EnluInserter Proofs.EnluProps.
Open Scope nat_scope.

(** C38, the part that holds for every number of objectives: the layers contain exactly the inserted
    individuals, none is empty, and the rank attribute is the number of the layer. *)
Theorem C38_contents :
  forall mx inds rank0,
  NoDup (map o_id inds) ->
  exists layers rank, enlu_all mx inds [] rank0 = Some (layers, rank) /\
    Permutation inds (concat layers) /\
    (forall l, In l layers -> l <> []) /\
    (forall k l x, nth_error layers k = Some l -> In x l -> rank (o_id x) = S k).
Proof. exact contents. Qed.
Print Assumptions C38_contents.

(** C38 for one and two objectives: the layers are the true fronts.  Missing: three or more objectives,
    where the statement is false. *)
Theorem C38_true_layers_partial :
  forall mx inds rank0,
  length mx <= 2 -> NoDup (map o_id inds) ->
  (forall x, In x inds -> length (o_fit x) = length mx /\ Forall viable (o_fit x)) ->
  exists layers rank, enlu_all mx inds [] rank0 = Some (layers, rank) /\
    Permutation inds (concat layers) /\
    (forall k l x, nth_error layers k = Some l -> In x l -> rank (o_id x) = S k) /\
    front_numbers (fun y x => dominates mx (o_fit y) (o_fit x)) inds (fun x => rank (o_id x)).
Proof. exact true_layers_two. Qed.
Print Assumptions C38_true_layers_partial.

(** C38 is false for three objectives: the zenith of two points can dominate a point that neither
    dominates, and when it dominates a whole layer the layer is pushed down unchecked. *)
Theorem C38_true_layers_refuted :
  exists mx inds rank0 layers rank,
    NoDup (map o_id inds) /\
    (forall x, In x inds -> length (o_fit x) = length mx /\ Forall viable (o_fit x)) /\
    enlu_all mx inds [] rank0 = Some (layers, rank) /\
    ~ front_numbers (fun y x => dominates mx (o_fit y) (o_fit x)) inds (fun x => rank (o_id x)).
Proof. exact three_objectives. Qed.
Print Assumptions C38_true_layers_refuted.

Example C38_example :
  let v i a b := mk_mo i [NInt a; NInt b] in
  match enlu_all [true; false] [v 0 1%Z 1%Z; v 1 2%Z 2%Z; v 2 3%Z 0%Z; v 3 0%Z 5%Z; v 4 2%Z 1%Z] [] (fun _ => 0) with
  | Some (layers, rank) => map (map o_id) layers = [[2]; [4]; [0; 1]; [3]] /\ map rank [0; 1; 2; 3; 4] = [3; 3; 1; 4; 2]
  | None => False
  end.
Proof. vm_compute. auto. Qed.

(** C39: after any history from the empty population the size is the smaller of the number of
    insertions and the capacity; everything inserted is there or was dropped; layers are not empty and
    carry their number as rank and a crowding distance computed within the layer. *)
Theorem C39_capacity :
  forall mx pop_size a inds,
  NoDup (map o_id inds) -> finite_vectors mx inds ->
  exists ds st, insert_all mx pop_size inds (empty_inserter a) = Some (ds, st) /\
    length ds = length inds /\
    Permutation inds (dropped_list ds ++ concat (ins_layers st)) /\
    length (concat (ins_layers st)) = Nat.min pop_size (length inds) /\
    (forall l, In l (ins_layers st) -> l <> []) /\
    (forall k l x, nth_error (ins_layers st) k = Some l -> In x l -> at_rank (ins_attrs st) (o_id x) = S k) /\
    (forall l, In l (ins_layers st) -> crowding fval (length mx) l (fun x => at_dist (ins_attrs st) (o_id x))).
Proof. exact capacity_history. Qed.
Print Assumptions C39_capacity.

(** C39: the insertion after any history drops nobody while there is room; otherwise it drops one
    individual, of smallest crowding distance in the last of the layers formed with the new one. *)
Theorem C39_dropped :
  forall mx pop_size a inds x,
  NoDup (map o_id (inds ++ [x])) -> finite_vectors mx (inds ++ [x]) ->
  exists ds st dropped st' layers rank se dist,
    insert_all mx pop_size inds (empty_inserter a) = Some (ds, st) /\
    inserter_call mx pop_size x st = Some (dropped, st') /\
    enlu_inds_rank mx x (ins_layers st) (at_rank (ins_attrs st)) = Some (layers, rank, se) /\
    Permutation (x :: concat (ins_layers st)) (concat layers) /\
    (forall l, In l layers -> crowding fval (length mx) l (fun y => dist (o_id y))) /\
    match dropped with
    | None => length inds < pop_size /\
              Permutation (x :: concat (ins_layers st)) (concat (ins_layers st'))
    | Some z => pop_size <= length inds /\
              Permutation (x :: concat (ins_layers st)) (z :: concat (ins_layers st')) /\
              In z (last layers []) /\
              forall y, In y (last layers []) ->
                exists e f, dist (o_id z) = Some e /\ dist (o_id y) = Some f /\ ~ ext_lt f e
    end.
Proof. exact next_insertion. Qed.
Print Assumptions C39_dropped.

(** C39 with one or two objectives: the dropped individual is in the worst true front of the
    population together with the new one, has a smallest crowding distance in it, and the ranks of
    those who stay are the true ones. *)
Theorem C39_dropped_worst_front :
  forall mx pop_size a inds x,
  length mx <= 2 ->
  NoDup (map o_id (inds ++ [x])) -> finite_vectors mx (inds ++ [x]) ->
  exists ds st dropped st' rank dist,
    insert_all mx pop_size inds (empty_inserter a) = Some (ds, st) /\
    inserter_call mx pop_size x st = Some (dropped, st') /\
    front_numbers (fun v u => dominates mx (o_fit v) (o_fit u)) (concat (ins_layers st'))
      (fun u => at_rank (ins_attrs st') (o_id u)) /\
    let pool := x :: concat (ins_layers st) in
    front_numbers (fun v u => dominates mx (o_fit v) (o_fit u)) pool rank /\
    match dropped with
    | None => Permutation pool (concat (ins_layers st'))
    | Some z =>
        Permutation pool (z :: concat (ins_layers st')) /\
        (forall y, In y pool -> rank y <= rank z) /\
        exists worst, (forall y, In y worst <-> In y pool /\ rank y = rank z) /\
          crowding fval (length mx) worst dist /\
          forall y, In y worst -> exists e f, dist z = Some e /\ dist y = Some f /\ ~ ext_lt f e
    end.
Proof. exact two_objectives. Qed.
Print Assumptions C39_dropped_worst_front.

(** four points of one front into a population of three: the inner one with the smaller gap goes *)
Example C39_example :
  let v i a b := mk_mo i [NInt a; NInt b] in
  let inds := [v 0 0%Z 10%Z; v 1 10%Z 0%Z; v 2 1%Z 9%Z; v 3 5%Z 4%Z] in
  match insert_all [true; true] 3 inds (empty_inserter (mk_attrs (fun _ => 0) (fun _ => None))) with
  | Some (ds, st) => map (option_map o_id) ds = [None; None; None; Some 2] /\
                     map (map o_id) (ins_layers st) = [[0; 1; 3]]
  | None => False
  end.
Proof. vm_compute. auto. Qed.

Example C39_example_hypotheses :
  let v i a b := mk_mo i [NInt a; NInt b] in
  let inds := [v 0 0%Z 10%Z; v 1 10%Z 0%Z; v 2 1%Z 9%Z; v 3 5%Z 4%Z] in
  NoDup (map o_id inds) /\ finite_vectors [true; true] inds.
Proof. exact example_points. Qed.
