(** What whole runs on segmented genomes should keep. *)
From Verif Require Import Model.Base Model.Segmented Model.SegMutate Model.SegRun.
From Verif Require Model.Scalar.

Section Spec.
Context {G : Type}.

(** two individuals have no array in common *)
Definition apart (x y : sind) : Prop := forall a, In a (sg_genome x) -> ~ In a (sg_genome y).

(** the operator makes only segments of the kind [D], from segments of the kind [D] *)
Definition stays_in (D : list G -> Prop) (op : seg_op G) : Prop :=
  match op with
  | AddSeg _ _ init _ _ => D init
  | Mutate mutator _ => forall p k g g', D g -> mutator p k g = Ok g' -> D g'
  | MutateEach ms => forall m, In m ms -> forall g w r, D g -> m g = (w, r) -> D w /\ (forall h, r = Ok (Some h) -> D h)
  | _ => True
  end.

(** the operator brings in no array of its own: it is neither add_segment nor a mutator returning a new array *)
Definition in_place (op : seg_op G) : Prop :=
  match op with
  | AddSeg _ _ _ _ _ => False
  | MutateEach ms => forall m, In m ms -> forall g w h, m g <> (w, Ok (Some h))
  | _ => True
  end.

Definition is_copy (op : seg_op G) : bool := match op with CopySeg _ _ _ _ _ => true | _ => false end.

(** all operator calls of a generation *)
Definition ops_of (b : breeding G) : list (seg_op G) :=
  match b with
  | Singly plans => flat_map pl_ops plans
  | InPairs _ plans => flat_map (fun p => pp_ops1 p ++ match pp_ops2 p with Some l => l | None => [] end) plans
  end.
Definition with_crossover (b : breeding G) : bool := match b with Singly _ => false | InPairs _ _ => true end.
Definition offspring_count (b : breeding G) : nat :=
  match b with
  | Singly plans => length plans
  | InPairs _ plans => list_sum (map (fun p => match pp_ops2 p with Some _ => 2 | None => 1 end) plans)
  end.

(** at most [n] different segments *)
Definition kinds_of_segments (n : nat) (segments : list (list G)) : Prop :=
  exists l, length l <= n /\ incl segments l.

(** the operator cannot fail on genomes with at least one segment *)
Definition never_raises (op : seg_op G) : Prop :=
  match op with
  | Mutate mutator _ => forall p k g, exists g', mutator p k g = Ok g'
  | MutateEach _ => False
  | _ => True
  end.

(** a run without crossover whose operators cannot fail and whose selections pick from populations of the right
    sizes, [n] being the size of the first *)
Fixpoint sound_gens (n : nat) (gens : list (breeding G)) : Prop :=
  match gens with
  | [] => True
  | Singly plans :: r =>
      Forall (fun p => pl_pick p < n /\ Forall never_raises (pl_ops p)) plans /\ sound_gens (length plans) r
  | InPairs _ _ :: _ => False
  end.
End Spec.

(** *** data for the examples: segments are lists of numbers, the fitness is their sum *)
Definition sum_score (gs : list (list nat)) : result num := Ok (NInt (Z.of_nat (list_sum (map list_sum gs)))).
(** writes into the first segment only; adds one to every gene of every segment *)
Definition bump_first (_ : Q) (k : nat) (g : list nat) : result (list nat) := Ok (if k =? 0 then map S g else g).
Definition bump (_ : Q) (_ : nat) (g : list nat) : result (list nat) := Ok (map S g).
Definition empty_store : store nat := mk_store (fun _ => []) 0.
Definition no_coin (_ : nat) (_ _ : Scalar.sind) : bool := false.
(** two founders; one generation of copying, then two of mutation *)
Definition copying_run : list (breeding nat) :=
  [Singly [mk_plan 0 [CopySeg 1 (1 # 4) true 0 0]; mk_plan 1 []];
   Singly [mk_plan 1 [Mutate bump_first 1]; mk_plan 0 [RemoveSeg 1 (1 # 4) 1]]].
Definition founders : list (list (list nat)) := [[[1]]; [[5]; [6]]].
(** the same with crossover in the second generation *)
Definition crossing_run : list (breeding nat) :=
  [Singly [mk_plan 0 [CopySeg 1 (1 # 4) true 0 0]; mk_plan 1 []];
   InPairs 1 [mk_pair 0 1 (Some [1]) [Mutate bump 1] (Some [Mutate bump 1])]].
(** crossover of founders with as many segments each, then mutation and a new segment *)
Definition mixing_run : list (breeding nat) :=
  [InPairs 1 [mk_pair 0 1 (Some [1]) [Mutate bump 1] (Some [AddSeg 1 (1 # 4) [9] false 1])]].
