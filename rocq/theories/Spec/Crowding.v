(** Crowding distance (Deb et al. 2002), independent of any algorithm: individuals have finite values
    [value k x] in the objectives k = 0 .. m-1. *)
From Coq Require Import Permutation Sorted.
From Verif Require Import Model.Base.

Section Crowding.
Context {A : Type}.
Variable value : nat -> A -> Q.

(** objective k does not have the same value everywhere *)
Definition varies (k : nat) (l : list A) : Prop :=
  exists x y, In x l /\ In y l /\ ~ (value k x == value k y)%Q.

(** w is the difference of the largest and the smallest value *)
Definition width (k : nat) (l : list A) (w : Q) : Prop :=
  exists lo hi, In lo l /\ In hi l /\
    (forall z, In z l -> (value k lo <= value k z <= value k hi)%Q) /\ (w == value k hi - value k lo)%Q.

(** the members listed by objective k, in one direction or the other *)
Definition arrangement (k : nat) (l s : list A) : Prop :=
  Permutation l s /\
  (StronglySorted (fun x y => (value k x <= value k y)%Q) s \/
   StronglySorted (fun x y => (value k y <= value k x)%Q) s).

Definition at_end (s : list A) (x : A) : Prop := exists r, s = x :: r \/ s = r ++ [x].

(** g is the distance between x's two neighbours in s, relative to the width *)
Definition gap (k : nat) (l s : list A) (x : A) (g : Q) : Prop :=
  exists l1 p n l2 w, s = l1 ++ p :: x :: n :: l2 /\ width k l w /\
    (g == Qabs (value k n - value k p) / w)%Q.

Fixpoint total (c : nat -> Q) (m : nat) : Q :=
  match m with 0 => 0%Q | S m' => (total c m' + c m')%Q end.

(** [dist] is a crowding distance of the members of [l]: for each objective that varies there is an
    arrangement; being at an end of one of them gives infinity, otherwise the gaps are added up. *)
Definition crowding (m : nat) (l : list A) (dist : A -> option ext) : Prop :=
  exists arr : nat -> list A,
    (forall k, k < m -> varies k l -> arrangement k l (arr k)) /\
    forall x, In x l ->
      ((exists k, k < m /\ varies k l /\ at_end (arr k) x) -> dist x = Some PInf) /\
      ((forall k, k < m -> varies k l -> ~ at_end (arr k) x) ->
         exists q c, dist x = Some (Fin q) /\ (q == total c m)%Q /\
           (forall k, k < m -> varies k l -> gap k l (arr k) x (c k)) /\
           (forall k, k < m -> ~ varies k l -> (c k == 0)%Q)).
End Crowding.

(** NSGA-II's crowded comparison: lower rank first, then larger distance. *)
Definition crowded_better {A} (rank : A -> nat) (dist : A -> option ext) (lt : ext -> ext -> Prop) (x y : A) : Prop :=
  rank x < rank y \/
  (rank x = rank y /\ match dist x, dist y with Some e, Some f => lt f e | _, _ => False end).
