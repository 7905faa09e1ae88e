(** Which exceptions the parts of a run may raise. *)
From Verif Require Import Model.Base Model.Pipeline Model.Segmented Model.SegMutate Model.SegRun.
From Verif Require Model.Migration.

Section Raising.
(** the exceptions allowed *)
Variable E : exn -> Prop.

(** only allowed exceptions *)
Definition raises_only {A} (r : result A) : Prop := forall e, r = Err e -> E e.

(** the same inside a generator, where Python turns StopIteration into RuntimeError (PEP 479) *)
Definition passes (e : exn) : Prop := match e with StopIteration => E RuntimeError | _ => E e end.
Definition passes_only {A} (r : result A) : Prop := forall e, r = Err e -> passes e.

(** the variation operators of a pipeline *)
Definition op_raises {G} (o : op G) : Prop :=
  match o with
  | OpMutate f _ => forall k g, passes_only (f k g)
  | OpXover _ f _ => forall k a b, passes_only (f k a b)
  | _ => True
  end.

(** operators on segmented genomes, with the exceptions of their own: copying from or mutating a genome without
    segments, a wrong number of mutators *)
Definition seg_op_raises {G} (o : seg_op G) : Prop :=
  match o with
  | CopySeg _ _ _ _ _ => E ValueError
  | Mutate m _ => E ZeroDivisionError /\ forall p k g, passes_only (m p k g)
  | MutateEach ms => E NameError /\ forall m g, In m ms -> passes_only (snd (m g))
  | _ => True
  end.

(** recombination needs as many segments as points *)
Definition seg_gen_raises {G} (b : breeding G) : Prop :=
  match b with
  | Singly plans => forall p, In p plans -> Forall seg_op_raises (pl_ops p)
  | InPairs _ plans => forall p, In p plans -> (pp_points p = None \/ E RuntimeError) /\ Forall seg_op_raises (pp_ops1 p) /\
      forall l, pp_ops2 p = Some l -> Forall seg_op_raises l
  end.

(** every selection picks somebody, [n] being the size of the first population *)
Fixpoint picks_within {G} (n : nat) (gens : list (breeding G)) : Prop :=
  match gens with
  | [] => True
  | Singly plans :: r => (forall p, In p plans -> pl_pick p < n) /\ picks_within (length plans) r
  | InPairs _ plans :: r => (forall p, In p plans -> pp_first p < n /\ pp_second p < n) /\
      picks_within (list_sum (map (fun p => match pp_ops2 p with Some _ => 2 | None => 1 end) plans)) r
  end.

(** the selectors of a call of migrate *)
Definition call_raises {G} (c : Migration.mig_call G) : Prop :=
  (forall i pop, raises_only (Migration.c_replace c i pop)) /\ (forall pop, raises_only (Migration.c_sponsor c pop)).
End Raising.

(** a call of migrate on one of [n] islands that has a neighbour, with a replacement selector that tells whom it chose *)
Definition indices_fit {G} (neighbors : nat -> list nat) (n : nat) (c : Migration.mig_call G) : Prop :=
  Migration.c_island c < n /\ Migration.c_dest c < length (neighbors (Migration.c_island c)) /\
  (forall j, In j (neighbors (Migration.c_island c)) -> j < n) /\
  forall i pop x ix, Migration.c_replace c i pop = Ok (x, ix) -> exists k r, ix = k :: r /\ k < length pop.

(** ** data for the examples *)
(** a bit-string problem that gives up on two or more ones *)
Definition fussy_problem (_ : nat) (v : Heap.phen_value Z unit) : result num :=
  match v with
  | Heap.VArr g => if Nat.ltb 1 (length (filter (Z.eqb 1) g)) then Err (UserError 7) else Ok (NInt 0)
  | Heap.VVal _ => Err TypeError
  end.
(** a mutator whose source of numbers dries up *)
Definition dry_op : op Z := OpMutate (fun k g => if Nat.ltb k 1 then Ok (g, None) else Err StopIteration) false.
(** a call of migrate with nobody waiting *)
Definition idle_call : Migration.mig_call nat :=
  Migration.mk_call 0 0 [] (fun _ x => x) (Migration.replace_random (fun _ => 0)) (fun _ => true)
    (fun _ => Ok (Migration.mk_mind 0 0 true (NInt 0))) 0.
