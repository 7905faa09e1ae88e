(** Specifications for the statistical helpers *)
From Verif Require Import Model.Base Model.Stats.
From Coq Require Import Sorted.

(** a dict has no key twice *)
Definition dict (d : list (Z * Q)) : Prop := NoDup (map fst d).
(** the amount counted for a key; 0 when the key is missing *)
Definition amount (d : list (Z * Q)) (k : Z) (v : Q) : Prop :=
  In (k, v) d \/ (~ In k (map fst d) /\ v = 0%Q).
Definition in_either (d1 d2 : list (Z * Q)) (k : Z) : Prop := In k (map fst d1) \/ In k (map fst d2).
(** [ks]: all keys of both dicts, ascending *)
Definition all_keys (d1 d2 : list (Z * Q)) (ks : list Z) : Prop :=
  StronglySorted Z.lt ks /\ forall k, In k ks <-> in_either d1 d2 k.
(** [d'] is [d] with explicit zeros for the other keys of [ks] *)
Definition padded (d d' : list (Z * Q)) (ks : list Z) : Prop :=
  dict d' /\ (forall k, In k (map fst d') <-> In k ks) /\ forall k v, In (k, v) d' -> amount d k v.
Fixpoint sumQ (l : list Q) : Q := match l with [] => 0 | x :: r => x + sumQ r end%Q.

(** the value of a float *)
Definition is_value (x : num) (q : Q) : Prop := exists q', num_val x = Some (Fin q') /\ (q' == q)%Q.
(** what is needed of the tail of the chi-squared distribution: certain at 0, impossible at infinity, NaN of NaN *)
Definition chi_tail_ok (tail : Z -> num -> num) : Prop :=
  (forall k x, (0 <= k)%Z -> is_value x 0 -> is_value (tail k x) 1) /\
  (forall k b, (1 <= k)%Z -> is_value (tail k (NFlt b PInf)) 0) /\
  (forall k, tail k NNan = NNan).

(** pearson's statistic for amounts over cells *)
Definition pearson (os es : list Q) : Q := sumQ (map (fun c => (fst c - snd c) * (fst c - snd c) / snd c)%Q (combine os es)).

(** examples *)
Definition ex_tail (k : Z) (x : num) : num :=
  match num_val x with
  | None => NNan
  | Some (Fin q) => NFlt false (Fin (1 / (1 + q * q))%Q)
  | Some _ => NFlt false (Fin 0%Q)
  end.
Definition ex_observed : list (Z * Q) := [(0, 10%Q); (1, 10%Q)]%Z.
Definition ex_first : list (Z * Q) := [(0, 10%Q); (1, 5%Q); (2, 5%Q)]%Z.
Definition ex_second : list (Z * Q) := [(0, 10%Q); (3, 10%Q)]%Z.
