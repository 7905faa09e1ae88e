(** Hand-out discipline of a shared crossover operator. *)
From Verif Require Import Model.Base Model.Crossover.

(** Only the most recently created generator is ever pulled; [n] generators exist so far. *)
Fixpoint latest_only (n : nat) (es : list event) : Prop :=
  match es with
  | [] => True
  | New _ :: r => latest_only (S n) r
  | Next k :: r => S k = n /\ latest_only n r
  end.

(** the children handed out, in order; exceptions hand out nothing *)
Definition handed_out (os : list outcome) : list (option nat) :=
  flat_map (fun o => match o with Yield c => [c] | Raise _ => [] end) os.

Definition waiting (second : option nat) : list nat :=
  match second with Some c => [c] | None => [] end.

(** the children of consecutive pairs, in order *)
Fixpoint children_of (breed : nat -> nat -> nat * nat) (up : list nat) : list nat :=
  match up with
  | a :: b :: r => fst (breed a b) :: snd (breed a b) :: children_of breed r
  | _ => []
  end.
