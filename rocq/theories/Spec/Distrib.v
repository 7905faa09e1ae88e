(** What distributed evaluation should do, independent of the code. *)
From Verif Require Import Model.Base Model.Scalar Model.Distrib Spec.Order.

(** d is the result of evaluating t locally: same individual, fitness of the problem, failures marked *)
Definition evaluated_as {G} (outcome : G -> result num) (t : task G) (d : dind G) : Prop :=
  si_id (d_ind d) = t_id t /\ d_genome d = t_genome t /\
  match outcome (t_genome t) with
  | Ok f => si_fit (d_ind d) = f /\ d_viable d = true
  | Err _ => si_fit (d_ind d) = NNan /\ d_viable d = false
  end.

Definition failures {G} (l : list (dind G)) : nat := length (filter (fun d => negb (d_viable d)) l).

(** What one arrival may do to a bounded population: fill a free place, or take at most one slot, and
    that only from an incumbent that is not viable or strictly worse (a NaN fitness returned by a
    successful evaluation gives way to another NaN at random). *)
Definition arrival {G} (mx : bool) (pop_size : nat) (pop : list (dind G)) (x : dind G) (pop' : list (dind G)) : Prop :=
  (length pop < pop_size /\ pop' = pop ++ [x]) \/
  (pop_size <= length pop /\
   (pop' = pop \/
    exists l1 old l2, pop = l1 ++ old :: l2 /\ pop' = l1 ++ x :: l2 /\
      (d_viable old = false \/ better mx (si_fit (d_ind x)) (si_fit (d_ind old)) \/
       (~ viable (si_fit (d_ind x)) /\ ~ viable (si_fit (d_ind old)))))).

(** every viable fitness of the first population is matched or improved in the second *)
Definition no_worse {G} (mx : bool) (pop pop' : list (dind G)) : Prop :=
  forall y, In y pop -> viable (si_fit (d_ind y)) ->
  exists z, In z pop' /\ ~ better mx (si_fit (d_ind y)) (si_fit (d_ind z)).

(** Interleavings of counter updates: every write follows a read of the same worker. *)
Definition reads_first (l : list action) : Prop :=
  forall l1 w l2, l = l1 ++ WriteCounter w :: l2 -> In (ReadCounter w) l1.
Definition writes (l : list action) : nat :=
  length (filter (fun a => match a with WriteCounter _ => true | _ => false end) l).
