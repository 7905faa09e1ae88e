(** What can go wrong, in the words of the caller, continued. *)
From Verif Require Import Model.Base Model.Rules Model.RealProblems Model.Pipeline.
Local Open Scope nat_scope.
Local Open Scope list_scope.

(** a rule that has a condition for every input and every memory register *)
Definition reads_all (inputs memory : nat) (r : rule) : Prop := inputs + memory <= length (conditions r).

(** samples of the input space for one rule: as many lower ends as the space has entries, and as many upper ends *)
Definition fits_space (inputs : nat) (s : list (list gene) * list (list gene) * gene) : Prop :=
  let '(low, high, _) := s in Forall2 (fun l h => length l = length h) low high /\ length (concat low) = inputs.

(** the arguments of one basin: square matrices of one size, the first diagonal up to 1e-8 *)
Definition is_square (m : list (list Q)) : Prop := forall row, In row m -> length row = length m.
Definition nearly_diagonal (m : list (list Q)) : Prop :=
  forall i j, i < length m -> j < length m -> i <> j -> (Qabs.Qabs (nth j (nth i m []) 0) <= 1 # 100000000)%Q.
Definition basin_fine (dr : list (list Q) * list (list Q)) : Prop :=
  is_square (fst dr) /\ is_square (snd dr) /\ length (fst dr) = length (snd dr) /\ nearly_diagonal (fst dr).
Definition basin_bad (dr : list (list Q) * list (list Q)) (e : exn) : Prop :=
  let shaped := is_square (fst dr) /\ is_square (snd dr) /\ length (fst dr) = length (snd dr) in
  ~ shaped /\ e = ValueError \/ shaped /\ ~ nearly_diagonal (fst dr) /\ e = AssertionError.

(** a point at which a basin can be evaluated *)
Definition point_fine (is_array : bool) (n : nat) (b : basin) : Prop :=
  n = length (ba_offset b) /\ is_array = true /\ n = length (ba_matrix b).
Definition point_bad (is_array : bool) (n : nat) (b : basin) (e : exn) : Prop :=
  n <> length (ba_offset b) /\ e = AssertionError \/
  n = length (ba_offset b) /\ is_array = false /\ e = ValueError \/
  n = length (ba_offset b) /\ is_array = true /\ n <> length (ba_matrix b) /\ e = ValueError.

(** an operator that takes individuals from the operator before it *)
Definition downstream {G} (o : op G) : Prop :=
  match o with OpIter _ | OpSelect _ _ => False | _ => True end.
(** a mutation operator that lets the end of its source through *)
Definition lets_through {G} (o : op G) : bool := match o with OpMutate _ true => true | _ => false end.
