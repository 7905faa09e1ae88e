(** Specification of "better" for scalar fitness, independent of the code's comparison functions. *)
From Verif Require Import Model.Base.

(** Numeric order on rationals extended with infinities. *)
Definition ext_lt (a b : ext) : Prop :=
  match a, b with
  | MInf, MInf => False
  | MInf, _ => True
  | _, MInf => False
  | Fin x, Fin y => (x < y)%Q
  | Fin _, PInf => True
  | PInf, _ => False
  end.

Definition ext_le (a b : ext) : Prop := ~ ext_lt b a.

(** [viable f]: the fitness is a number. *)
Definition viable (f : num) : Prop := num_val f <> None.

(** [better mx f g]: f is a strictly better fitness than g.  NaN is worse than any number. *)
Definition better (mx : bool) (f g : num) : Prop :=
  match num_val f, num_val g with
  | Some x, Some y => if mx then ext_lt y x else ext_lt x y
  | Some _, None => True
  | None, _ => False
  end.

Definition not_better (mx : bool) (f g : num) : Prop := ~ better mx f g.

(** [within_rel t f g]: the two numbers differ by at most [t] times the larger magnitude (exactly
    equal values always do; an infinity only from itself). *)
Definition within_rel (t : Q) (f g : num) : Prop :=
  match num_val f, num_val g with
  | Some (Fin x), Some (Fin y) => (Qabs (x - y) <= t * Qmax (Qabs x) (Qabs y))%Q
  | Some a, Some b => ~ ext_lt a b /\ ~ ext_lt b a
  | _, _ => False
  end.

(** The documented relative tolerance of [math.isclose]. *)
Definition tol : Q := (1 # 1000000000)%Q.

(** The tolerance applies only between two values of Python's built-in float type. *)
Definition pyfloat_num (f : num) : Prop := exists e, f = NFlt true e.

(** f and g are floats that the tolerance identifies. *)
Definition blurred (f g : num) : Prop :=
  pyfloat_num f /\ pyfloat_num g /\ within_rel tol f g.

(** f is better than g by more than what the tolerance forgives. *)
Definition clearly_better (mx : bool) (f g : num) : Prop :=
  better mx f g /\ ~ blurred f g.

(** No two different values of the list are float values that the tolerance identifies. *)
Definition sharp (fs : list num) : Prop :=
  forall f g mx, In f fs -> In g fs -> blurred f g -> ~ better mx f g.

(** Neither value is better. *)
Definition same_value (mx : bool) (f g : num) : Prop := ~ better mx f g /\ ~ better mx g f.

(** A strict weak order on the elements satisfying [D]. *)
Definition strict_weak_order_on {A} (D : A -> Prop) (lt : A -> A -> bool) : Prop :=
  (forall x, D x -> lt x x = false) /\
  (forall x y, D x -> D y -> lt x y = true -> lt y x = false) /\
  (forall x y z, D x -> D y -> D z -> lt x y = true -> lt y z = true -> lt x z = true) /\
  (forall x y z, D x -> D y -> D z ->
     lt x y = false -> lt y x = false -> lt y z = false -> lt z y = false ->
     lt x z = false /\ lt z x = false).
