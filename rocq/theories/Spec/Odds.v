(** Exact odds: how many of the equally likely draws lead to an outcome. *)
From Verif Require Import Model.Base Model.Scalar Spec.Order.

(** [l] lists, each once, the possible results of drawing [k] positions out of [n] with replacement. *)
Definition all_draws (n k : nat) (l : list (list nat)) : Prop :=
  NoDup l /\ forall d, In d l <-> length d = k /\ Forall (fun i => i < n) d.

(** [l] lists, each once, the possible bit masks of [n] bits. *)
Definition all_masks (n : nat) (l : list (list bool)) : Prop :=
  NoDup l /\ forall m, In m l <-> length m = n.

(** Exactly [c] entries of [l] satisfy [P]. *)
Definition counts {A} (P : A -> Prop) (l : list A) (c : nat) : Prop :=
  exists b, (forall a, In a l -> (b a = true <-> P a)) /\ length (filter b l) = c.

(** The individual that a tournament for the best (or, with [select_worst], the worst) prefers. *)
Definition beats (mx select_worst : bool) (x y : sind) : Prop :=
  if select_worst then better mx (si_fit y) (si_fit x) else better mx (si_fit x) (si_fit y).

(** example: four individuals, the best two tied *)
Definition ex_field : list sind := [mk_sind 0 (NInt 4); mk_sind 1 (NInt 6); mk_sind 2 (NInt 1); mk_sind 3 (NInt 6)].
(** the sixteen draws of two out of four, last draw varying slowest *)
Definition ex_draws2 : list (list nat) :=
  [[0;0];[1;0];[2;0];[3;0];[0;1];[1;1];[2;1];[3;1];[0;2];[1;2];[2;2];[3;2];[0;3];[1;3];[2;3];[3;3]].

(** Sum and product of rationals. *)
Definition qsum (l : list Q) : Q := fold_right Qplus 0%Q l.
Definition qprod (l : list Q) : Q := fold_right Qmult 1%Q l.

(** The probability of a mask whose bits are set independently, each with probability [p]. *)
Definition mask_chance (p : Q) (mask : list bool) : Q := qprod (map (fun b : bool => if b then p else 1 - p)%Q mask).

(** The weights [w] of the entries of [l] that satisfy [P] add up to [q]. *)
Definition chance_of {A} (w : A -> Q) (P : A -> Prop) (l : list A) (q : Q) : Prop :=
  exists b, (forall a, In a l -> (b a = true <-> P a)) /\ (qsum (map w (filter b l)) == q)%Q.

(** What the genes say about the chance of child [c] of [a] and [b] when each position takes the gene of [b]
    with probability [p]: certain where the parents agree. *)
Definition gene_chance {G} (eq_dec : forall x y : G, {x = y} + {x <> y}) (p : Q) (g : (G * G) * G) : Q :=
  let '((x, y), z) := g in
  if eq_dec x y then (if eq_dec z x then 1 else 0)%Q
  else if eq_dec z y then p else if eq_dec z x then (1 - p)%Q else 0%Q.
