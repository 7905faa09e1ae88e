(** How long a search waits for a level, over all the ways it can turn out. *)
From Verif Require Import Model.Base Model.Counters Model.Heap Model.Variation Model.Problems Spec.Heap Spec.Odds Spec.Search.
Local Open Scope nat_scope.
Local Open Scope list_scope.

(** A run that ends, and whose last population holds a genome of level [m] or more. *)
Definition reaches {G P} (level : list G -> nat) (m : nat)
    (run : option (result (list nat * world G P num * list (list nat)) * gen_counter)) : Prop :=
  exists final w' earlier gc', run = Some (Ok (final, w', earlier), gc') /\
  exists y, In y final /\ m <= level (genes w' y).

(** [wait] is the number of generations after which the search with the draws [t] has reached its aim, or the length
    of [t] if it has not done so before the last of its generations; [reached T t]: it has after [T] generations with
    the draws [t]. *)
Definition waiting_time {X} (reached : nat -> list X -> Prop) (t : list X) (wait : nat) : Prop :=
  wait <= length t /\ forall T, T < length t -> (reached T (firstn T t) <-> wait <= T).

(** K/s_i + K/s_(i+1) + ... + K/s_(m-1) *)
Definition level_sum (K : nat) (s : nat -> nat) (i m : nat) : Q :=
  qsum (map (fun j => inject_Z (Z.of_nat K) / inject_Z (Z.of_nat (s j)))%Q (seq i (m - i))).

(** [f] relates each entry of [l] to a number; the mean of the numbers is at most [q]. *)
Definition mean_at_most {A} (f : A -> nat -> Prop) (l : list A) (q : Q) : Prop :=
  exists ns, Forall2 f l ns /\
    (inject_Z (Z.of_nat (fold_right Nat.add 0%nat ns)) <= inject_Z (Z.of_nat (length l)) * q)%Q.

(** the number of leading ones *)
Fixpoint leads (g : list Z) : nat :=
  match g with
  | x :: r => if Z.eqb x 1 then S (leads r) else 0
  | [] => 0
  end.

(** LeadingOnes with its default target as a problem on genome arrays *)
Definition leading_ones_problem (_ : nat) (v : phen_value Z unit) : result num :=
  match v with VArr g => bind (leading_ones None (BArr g)) (fun z => Ok (NInt z)) | VVal _ => Err TypeError end.

(** 1 + 1/2 + ... + 1/k *)
Definition harmonic (k : nat) : Q := qsum (map (fun j => 1 / inject_Z (Z.of_nat j))%Q (seq 1 k)).
