(** Counting the draws of crossover points. *)
From Verif Require Import Model.Base Spec.Odds.
Local Open Scope nat_scope.
Local Open Scope list_scope.

(** [l] lists, each once, the possible results of drawing [k] different numbers below [n], in order. *)
Definition all_distinct_draws (n k : nat) (l : list (list nat)) : Prop :=
  NoDup l /\ forall d, In d l <-> length d = k /\ NoDup d /\ Forall (fun i => i < n) d.

(** a (a-1) ... (a-k+1) *)
Fixpoint falling (a k : nat) : nat := match k with 0 => 1 | S k' => a * falling (a - 1) k' end.

(** binomial coefficients by Pascal's rule *)
Fixpoint binom (n k : nat) : nat :=
  match n, k with
  | _, 0 => 1
  | 0, S _ => 0
  | S n', S k' => binom n' k' + binom n' k
  end.

(** the number of ways to draw n numbers in order, k of them from s given ones, the others from r others *)
Definition ways (n k s r : nat) : nat := binom n k * (falling s k * falling r (n - k)).
(** ... any odd number of them from the s given ones *)
Definition odd_ways (n s r : nat) : nat := list_sum (map (fun k => ways n k s r) (filter Nat.odd (seq 0 (S n)))).

(** [c] has, at positions i and j, genes of different ones of [a] and [b] *)
Definition parted {G} (i j : nat) (a b c : list G) : Prop :=
  nth_error c i = nth_error a i /\ nth_error c j = nth_error b j \/
  nth_error c i = nth_error b i /\ nth_error c j = nth_error a j.
