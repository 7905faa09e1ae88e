(** What variation operators may do to genomes, position by position. *)
From Verif Require Import Model.Base Model.Variation.

(** At every position the children hold the parents' two genes of that position, exchanged exactly
    where [sw] says; nothing else. *)
Definition exchanged {G} (sw : nat -> bool) (a b a' b' : list G) : Prop :=
  length a' = length a /\ length b' = length b /\
  forall i x y, nth_error a i = Some x -> nth_error b i = Some y ->
    nth_error a' i = Some (if sw i then y else x) /\ nth_error b' i = Some (if sw i then x else y).

(** How many of the cut points lie at or before position [i]. *)
Definition cuts_upto (points : list nat) (i : nat) : nat := length (filter (fun p => p <=? i) points).

(** How often neighbouring positions among the first [n] get their genes from different parents. *)
Definition source_changes (sw : nat -> bool) (n : nat) : nat :=
  length (filter (fun i => xorb (sw i) (sw (S i))) (seq 0 (n - 1))).

(** [g'] differs from [g] only where [sel] holds, and there the new gene is related to the old by [R]. *)
Definition changed_where {G H} (sel : nat -> Prop) (R : nat -> G -> H -> Prop) (keep : nat -> G -> H -> Prop)
    (g : list G) (g' : list H) : Prop :=
  length g' = length g /\
  forall i x, nth_error g i = Some x ->
    exists x', nth_error g' i = Some x' /\ (sel i -> R i x x') /\ (~ sel i -> keep i x x').

(** Position [i] is selected when its draw is below the mutation probability. *)
Definition drawn (us : list Q) (p : Q) (i : nat) : Prop :=
  exists u, nth_error us i = Some u /\ (u < p)%Q.

(** draws of np.random.rand *)
Definition unit_draws (us : list Q) : Prop := Forall (fun u => 0 <= u /\ u < 1)%Q us.

Definition binary (g : list Z) : Prop := Forall (fun z => z = 0 \/ z = 1)%Z g.

(** The per-gene mutation probability asked for: given directly or as an expected number per genome. *)
Definition rate_is (expected probability : option Q) (len : nat) (p : Q) : Prop :=
  (expected = None /\ probability = Some p) \/
  (exists e, expected = Some e /\ probability = None /\ len <> 0 /\ (p * inject_Z (Z.of_nat len) == e)%Q).

(** order of extended numbers *)
Definition ext_le (a b : ext) : Prop :=
  match a, b with
  | MInf, _ => True
  | _, PInf => True
  | Fin x, Fin y => (x <= y)%Q
  | _, _ => False
  end.

(** bounds of gene [i] *)
Definition bound_at {N} (b : bounds N) (i : nat) : option (N * N) :=
  match b with BScalar low high => Some (low, high) | BEach bs => nth_error bs i end.
Definition bounds_fit {N} (b : bounds N) (n : nat) : Prop :=
  match b with BScalar _ _ => True | BEach bs => length bs = n end.

(** How many positions before [i] are selected: the draws for selected genes are used up in order. *)
Definition selected_before (us : list Q) (p : Q) (i : nat) : nat :=
  length (filter (fun u => if Qlt_le_dec u p then true else false) (firstn i us)).
(** standard deviation used for gene [i]: one for all or one per gene *)
Definition std_at (stds : Q + list Q) (i : nat) : option Q :=
  match stds with inl s => Some s | inr l => nth_error l i end.
(** Moving [v] to the nearest point of [low, high]. *)
Definition clamped (low v high v' : ext) : Prop :=
  (~ ext_le low v -> v' = low) /\ (~ ext_le v high -> v' = high) /\
  (ext_le low v -> ext_le v high -> v' = v).
Definition Z_clamped (low v high v' : Z) : Prop :=
  ((v <= low -> v' = low) /\ (high <= v -> v' = high) /\ (low <= v <= high -> v' = v))%Z.

(** every gene lies within its own bounds *)
Definition in_bounds {N} (le : N -> N -> Prop) (b : bounds N) (g : list N) : Prop :=
  forall i x, nth_error g i = Some x ->
    exists low high, bound_at b i = Some (low, high) /\ le low x /\ le x high.
