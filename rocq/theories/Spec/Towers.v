(** Specifications for towers of wrapped problems.  A tower is the list of its wrappers, innermost first. *)
From Verif Require Import Model.Base Model.Towers Spec.Problems Spec.RealProblems.

Definition bounds := (Q * Q)%type.

(** the direction a wrapper was told to go by, if it was told any *)
Definition told (w : wrapper) : option bool :=
  match w with
  | Translate _ m | Scale _ m | Matrix _ m | AddOffset _ m => m
  | Average _ => None
  end.
Definition averages (w : wrapper) : Prop := exists n, w = Average n.
Definition rescales (w : wrapper) : Prop := exists nb m, w = Scale nb m.
(** changes neither the declared bounds nor drops them *)
Definition keeps_bounds (w : wrapper) : Prop := ~ averages w /\ ~ rescales w.
(** hands the point on as it is *)
Definition keeps_point (w : wrapper) : Prop := averages w \/ exists v m, w = AddOffset v m.
(** keeps the axes: neither moves nor turns the space *)
Definition straight (w : wrapper) : Prop := keeps_point w \/ rescales w.

(** the bounds a tower over a problem with bounds [b] declares *)
Fixpoint declared (b : option bounds) (ws : list wrapper) : option bounds :=
  match ws with
  | [] => b
  | Scale nb _ :: outer => declared (Some nb) outer
  | Average _ :: outer => declared None outer
  | _ :: outer => declared b outer
  end.

(** the object below a wrapper says whether it maximises: it does unless it averages *)
Definition says (base : object) (inner : list wrapper) : Prop :=
  match rev inner with
  | [] => o_maximize base <> None
  | w :: _ => ~ averages w
  end.

(** a wrapper that may be put on top of [inner] *)
Definition allowed (base : object) (inner : list wrapper) (w : wrapper) : Prop :=
  match w with
  | Average n => 0 < n
  | Scale _ m => (m <> None \/ says base inner) /\ declared (o_bounds base) inner <> None
  | Matrix mat m => (m <> None \/ says base inner) /\ mat <> [] /\ is_square (length mat) mat
  | Translate _ m | AddOffset _ m => m <> None \/ says base inner
  end.

(** the exception with which a wrapper that is not allowed is refused *)
Definition refused_with (base : object) (inner : list wrapper) (w : wrapper) (e : exn) : Prop :=
  match w with
  | Average _ => e = AssertionError
  | Translate _ _ | AddOffset _ _ => e = AttributeError
  | Scale _ m => e = AttributeError /\ m = None /\ ~ says base inner \/ e = ValueError /\ declared (o_bounds base) inner = None
  | Matrix mat m =>
      e = AttributeError /\ m = None /\ ~ says base inner \/ e = IndexError /\ mat = [] \/
      e = AssertionError /\ length mat <> length (hd [] mat) \/
      e = ValueError /\ exists r, In r mat /\ length r <> length (hd [] mat)
  end.

(** the wrappers fit a problem in n dimensions *)
Definition fits (n : nat) (w : wrapper) : Prop :=
  match w with
  | Translate o _ => length o = n
  | Scale nb _ => (fst nb < snd nb)%Q
  | Matrix m _ => is_square n m
  | _ => True
  end.
(** and a matrix turns the space without distorting it *)
Definition rigid (n : nat) (w : wrapper) : Prop :=
  match w with Matrix m _ => orthonormal_rows n m | _ => True end.

(** where one wrapper, around a tower with bounds [b], sends the point it is given *)
Definition sends (n : nat) (b : option bounds) (w : wrapper) (x y : list Q) : Prop :=
  length y = n /\
  forall i, i < n ->
  match w with
  | Translate o _ => (at_ y i == at_ x i - at_ o i)%Q
  | Scale nb _ => exists old, b = Some old /\
      ((at_ y i - fst old) * (snd nb - fst nb) == (at_ x i - fst nb) * (snd old - fst old))%Q
  | Matrix m _ => (at_ y i == image n m x i)%Q
  | _ => (at_ y i == at_ x i)%Q
  end.
(** the point [x] given to the tower arrives at the problem inside as [y] *)
Fixpoint arrives (n : nat) (b : option bounds) (ws : list wrapper) (x y : list Q) : Prop :=
  match ws with
  | [] => length y = n /\ same_point x y
  | w :: outer => exists z, arrives n (declared b [w]) outer x z /\ sends n b w z y
  end.

(** what a tower adds to every fitness *)
Definition shift (w : wrapper) : Q := match w with AddOffset v _ => v | _ => 0%Q end.
Definition total (ws : list wrapper) : Q := Qsum (map shift ws).

(** on arrays of n numbers the problem computes the function f of the point *)
Definition computes (n : nat) (p : object) (f : list Q -> Q) : Prop :=
  (forall x, length x = n -> exists v, o_evaluate p true x = Ok v /\ (v == f x)%Q) /\
  (forall x y, length x = n -> same_point x y -> (f x == f y)%Q).

(** the attribute maximize, where there is one, is the direction of the comparison: any ScalarProblem *)
Definition honest (p : object) : Prop := forall m, o_maximize p = Some m -> o_direction p = m.

(** fitness a is better than fitness b *)
Definition beats (maximize : bool) (a b : Q) : Prop := if maximize then (b < a)%Q else (a < b)%Q.
Definition proper (b : option bounds) : Prop := forall lo_hi, b = Some lo_hi -> (fst lo_hi < snd lo_hi)%Q.
Definition in_box (b : bounds) (x : list Q) : Prop := Forall (fun v => fst b <= v <= snd b)%Q x.

(** an example: the sphere with its bounds, moved, stretched and turned *)
Definition sphere : object :=
  mk_object (fun _ x => Ok (sq_length x)) (Some false) false (Some (-(512#100), 512#100)%Q).
Definition quarter_turn : list (list Q) := [[0; -(1)]; [1; 0]]%Q.
Definition tall_tower : list wrapper :=
  [Translate [1; 2]%Q None; AddOffset (7#2) None; Scale (0, 1024#100)%Q None; Matrix quarter_turn None; AddOffset (-(1)) None; Average 3].
Definition straight_tower : list wrapper := [Scale (0, 1)%Q None; AddOffset 2 (Some true); Scale (10, 20)%Q None].
