(** Chances of single operator calls, with uniform draws from the unit interval or a fine grid of it. *)
From Verif Require Import Model.Base.

(** In the unit interval the draws for which [P] holds are exactly those of the interval from [a] up to, not
    including, [b]; it lies inside the unit interval, so the chance is its length [b - a]. *)
Definition exactly_between (P : Q -> Prop) (a b : Q) : Prop :=
  (0 <= a)%Q /\ (a <= b)%Q /\ (b <= 1)%Q /\ forall u, (0 <= u < 1)%Q -> (P u <-> (a <= u < b)%Q).

(** The draws 0/N, 1/N ... (N-1)/N numbered by [d]. *)
Definition grid (N : nat) (d : list nat) : list Q := map (fun k => inject_Z (Z.of_nat k) / inject_Z (Z.of_nat N))%Q d.

(** In how many places two genomes differ. *)
Definition differences (g h : list Z) : nat := length (filter (fun xy => negb (Z.eqb (fst xy) (snd xy))) (combine g h)).

(** [f] relates each entry of [l] to a number; the numbers add up to [total]. *)
Definition adds_up {A} (f : A -> nat -> Prop) (l : list A) (total : nat) : Prop :=
  exists ns, Forall2 f l ns /\ fold_right Nat.add 0 ns = total.

(** the grid draws of two positions with three points each *)
Definition ex_pairs3 : list (list nat) := [[0;0];[0;1];[0;2];[1;0];[1;1];[1;2];[2;0];[2;1];[2;2]].
