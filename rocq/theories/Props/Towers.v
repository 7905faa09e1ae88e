(** Properties of towers of wrapped problems. *)
From Verif Require Import Model.Base Model.RealProblems Model.Towers Spec.Problems Spec.RealProblems Spec.Towers Proofs.RealProblems Proofs.Towers.

(** C92: which towers can be built: exactly those in which every wrapper finds what it asks for in what is below it *)
Theorem C92_buildable base ws :
  (exists o, build base ws = Ok o) <-> forall inner w outer, ws = inner ++ w :: outer -> allowed base inner w.
Proof. exact (build_ok base ws). Qed.
Print Assumptions C92_buildable.

(** C92: a tower that cannot be built is refused at the first wrapper that is not allowed, with an exception that tells why *)
Theorem C92_refusal base ws e : build base ws = Err e ->
  exists inner w outer, ws = inner ++ w :: outer /\ (exists p, build base inner = Ok p) /\ ~ allowed base inner w /\
    refused_with base inner w e.
Proof. exact (build_err base ws e). Qed.
Print Assumptions C92_refusal.

(** C92: the direction of a tower is that of the outermost wrapper that was told one, else that of the base *)
Theorem C92_direction base ws o : honest base -> build base ws = Ok o ->
  (Forall (fun w => told w = None) ws -> o_direction o = o_direction base) /\
  (forall inner w outer m, ws = inner ++ w :: outer -> told w = Some m -> Forall (fun u => told u = None) outer -> o_direction o = m).
Proof. exact (build_direction base ws o). Qed.
Print Assumptions C92_direction.

(** C92: the bounds of a tower: those of the outermost rescaling, else those of the base; an average has none, and nothing
    above it can be a rescaling *)
Theorem C92_bounds base ws o : build base ws = Ok o ->
  (Forall keeps_bounds ws -> o_bounds o = o_bounds base) /\
  (forall inner nb m outer, ws = inner ++ Scale nb m :: outer -> Forall keeps_bounds outer -> o_bounds o = Some nb) /\
  (forall inner n outer, ws = inner ++ Average n :: outer -> o_bounds o = None /\ Forall (fun w => ~ rescales w) outer).
Proof. exact (build_declares base ws o). Qed.
Print Assumptions C92_bounds.

(** C92: the fitness of a point is the base's fitness at the point that arrives there, plus the offsets; one point arrives *)
Theorem C92_value n base ws o f : build base ws = Ok o -> Forall (fits n) ws -> computes n base f ->
  forall x, length x = n ->
  (exists y, arrives n (o_bounds base) ws x y) /\
  forall y, arrives n (o_bounds base) ws x y -> exists v, o_evaluate o true x = Ok v /\ (v == f y + total ws)%Q.
Proof. exact (tower_value n base ws o f). Qed.
Print Assumptions C92_value.

(** C92: an optimum of the base has a point that arrives there, and that point is an optimum of the tower *)
Theorem C92_optimum n base ws o f : build base ws = Ok o -> Forall (fits n) ws -> Forall (rigid n) ws -> proper (o_bounds base) ->
  computes n base f ->
  forall best, length best = n -> (forall y, length y = n -> ~ beats (o_direction o) (f y) (f best)) ->
  exists x top, length x = n /\ arrives n (o_bounds base) ws x best /\ o_evaluate o true x = Ok top /\ (top == f best + total ws)%Q /\
    forall x' v, length x' = n -> o_evaluate o true x' = Ok v -> ~ beats (o_direction o) v top.
Proof. exact (tower_optimum n base ws o f). Qed.
Print Assumptions C92_optimum.

(** C92: with rescalings and offsets only, the points within the declared bounds are exactly those that arrive within the
    base's bounds *)
Theorem C92_box n base ws o b b' : build base ws = Ok o -> Forall (fits n) ws -> Forall straight ws ->
  o_bounds base = Some b -> (fst b < snd b)%Q -> o_bounds o = Some b' ->
  forall x y, length x = n -> arrives n (o_bounds base) ws x y -> (in_box b' x <-> in_box b y).
Proof. exact (tower_box n ws base o b b'). Qed.
Print Assumptions C92_box.

(** C92: a translation keeps the wrapped bounds: the only optimum may lie outside the bounds the problem declares *)
Theorem C92_translated_bounds_refuted :
  ~ (forall base ws o f b best, honest base -> build base ws = Ok o -> Forall (fits 1) ws -> computes 1 base f -> o_bounds base = Some b ->
     length best = 1 -> in_box b best -> (forall y, length y = 1 -> ~ beats (o_direction o) (f y) (f best)) ->
     exists b' x top, o_bounds o = Some b' /\ in_box b' x /\ length x = 1 /\ o_evaluate o true x = Ok top /\
       forall x' v, length x' = 1 -> o_evaluate o true x' = Ok v -> ~ beats (o_direction o) v top).
Proof. exact translated_bounds. Qed.
Print Assumptions C92_translated_bounds_refuted.

(** C92: a Python list instead of an array: refused with ValueError if the first wrapper that touches the point is a
    translation or a rescaling, the same as an array if it is a matrix *)
Theorem C92_lists base ws o x inner w outer : build base ws = Ok o -> ws = inner ++ w :: outer -> Forall keeps_point outer ->
  (rescales w \/ (exists of m, w = Translate of m /\ length of = length x) -> o_evaluate o false x = Err ValueError) /\
  ((exists mat m, w = Matrix mat m) -> o_evaluate o false x = o_evaluate o true x).
Proof. exact (tower_lists base ws o x inner w outer). Qed.
Print Assumptions C92_lists.

Example C92_example :
  bind (build sphere tall_tower) (fun o => Ok (o_bounds o, o_maximize o, o_direction o)) = Ok (None, None, false) /\
  bind (build sphere tall_tower) (fun o => bind (o_evaluate o true [3; -(3)]%Q) (fun v => Ok (Qred v))) = Ok (36511 # 1250)%Q /\
  bind (build sphere tall_tower) (fun o => bind (o_evaluate o false [3; -(3)]%Q) (fun v => Ok (Qred v))) = Ok (36511 # 1250)%Q /\
  build sphere (tall_tower ++ [Translate [1; 1]%Q None]) = Err AttributeError /\
  build sphere (tall_tower ++ [Scale (0, 1)%Q (Some true)]) = Err ValueError /\
  build sphere [Matrix [[1; 2]]%Q None] = Err AssertionError /\ build sphere [Average 0] = Err AssertionError.
Proof.
  split; [reflexivity|]. split; [vm_compute; reflexivity|]. split; [vm_compute; reflexivity|].
  split; [reflexivity|]. split; [reflexivity|]. split; reflexivity.
Qed.
Example C92_hypotheses : honest sphere /\ Forall (fits 2) tall_tower /\ Forall (rigid 2) tall_tower /\ proper (o_bounds sphere) /\
  computes 2 sphere sq_length /\ (forall y, length y = 2 -> ~ beats false (sq_length y) (sq_length [0; 0]%Q)).
Proof. exact tall_tower_fits. Qed.
Example C92_straight : Forall (fits 2) straight_tower /\ Forall straight straight_tower /\
  bind (build sphere straight_tower) (fun o => Ok (o_bounds o, o_direction o)) = Ok (Some (10, 20)%Q, true) /\
  bind (build sphere straight_tower) (fun o => bind (o_evaluate o true [10; 20]%Q) (fun v => Ok (Qred v))) = Ok (Qred (2 * ((512#100) * (512#100)) + 2)%Q).
Proof.
  split; [repeat constructor|]. split; [|split; [reflexivity|vm_compute; reflexivity]].
  constructor; [right; do 2 eexists; reflexivity|]. constructor; [left; right; do 2 eexists; reflexivity|].
  constructor; [right; do 2 eexists; reflexivity|constructor].
Qed.
