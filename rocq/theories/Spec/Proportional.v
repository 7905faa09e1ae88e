(** Shares for proportional selection, independent of the algorithms. *)
From Verif Require Import Model.Base.
From Coq Require Export Qround.
From Coq Require Import Sorted.

Definition total (values : list Q) : Q := fold_right Qplus 0%Q values.

(** n times the fraction individual k has of the total *)
Definition expected_copies (n : nat) (values : list Q) (k : nat) : Q :=
  (inject_Z (Z.of_nat n) * (nth k values 0 / total values))%Q.

(** how often k occurs *)
Definition copies (k : nat) (idxs : list nat) : Z := Z.of_nat (count_occ Nat.eq_dec idxs k).

(** One pass of n selections, given by positions: in population order, every individual its share
    rounded down or up, and zero-valued ones never. *)
Definition fair_pass (n : nat) (values : list Q) (idxs : list nat) : Prop :=
  length idxs = n /\ StronglySorted le idxs /\
  forall k, k < length values ->
    (copies k idxs = Qfloor (expected_copies n values k) \/
     copies k idxs = Qceiling (expected_copies n values k)) /\
    ((nth k values 0 == 0)%Q -> copies k idxs = 0%Z).

(** the individuals at the given positions *)
Definition at_positions {A} (population : list A) (idxs : list nat) (out : list A) : Prop :=
  Forall2 (fun i x => nth_error population i = Some x) idxs out.

(** the shares alone, in any order *)
Definition fair_counts (n : nat) (values : list Q) (idxs : list nat) : Prop :=
  length idxs = n /\
  forall k, k < length values ->
    (copies k idxs = Qfloor (expected_copies n values k) \/
     copies k idxs = Qceiling (expected_copies n values k)) /\
    ((nth k values 0 == 0)%Q -> copies k idxs = 0%Z).

(** the last individual, and then a fair pass without its last selection, which would have been the
    last individual of positive value *)
Definition last_first (n : nat) (values : list Q) (idxs : list nat) : Prop :=
  exists (idxs' : list nat) (k : nat), idxs = (length values - 1) :: idxs' /\ (0 < nth k values 0)%Q /\ (forall j : nat, k < j /\ j < length values -> (nth j values 0 == 0)%Q) /\ fair_pass n values (idxs' ++ [k]).

(** the random start of each pass: drawn anew by its first pull, or kept *)
Definition starts_used (shuffle : bool) (start : Q) (passes : list (list Q)) : list Q :=
  match passes with
  | [] => []
  | _ :: ps => start :: (if shuffle then map (hd 0%Q) ps else map (fun _ => start) ps)
  end.
