(** Positional value of bit strings, consecutive segments, distance of bit strings. *)
From Coq Require Export List ZArith QArith.
Export ListNotations.
Global Close Scope Q_scope.
Local Open Scope Z_scope.

Definition bits (l : list Z) : Prop := Forall (fun z => z = 0 \/ z = 1) l.

(** most significant bit first *)
Definition big_endian (l : list Z) : Z := fold_left (fun v b => 2 * v + b) l 0.

(** [parts] are consecutive pieces of [g] with the given lengths *)
Inductive pieces : list nat -> list Z -> list (list Z) -> Prop :=
| pieces_nil g : pieces [] g []
| pieces_cons d ds p g ps : length p = d -> pieces ds g ps -> pieces (d :: ds) (p ++ g) (p :: ps).

(** the number of positions where two lists of the same length differ *)
Definition distance (a b : list Z) : nat :=
  length (filter (fun xy => negb (fst xy =? snd xy)) (combine a b)).

(** value of a Gray code word: every bit is xor-ed with all more significant ones *)
Fixpoint gray_bits (above : Z) (l : list Z) : list Z :=
  match l with
  | [] => []
  | b :: r => let x := (above + b) mod 2 in x :: gray_bits x r
  end.
Definition gray_value (l : list Z) : Z := big_endian (gray_bits 0 l).

(** [value] maps the bit strings of length [n] one-to-one onto [0, 2^n - 1] *)
Definition injective_onto (value : list Z -> Z) (n : nat) : Prop :=
  (forall l, bits l -> length l = n -> 0 <= value l < 2 ^ Z.of_nat n) /\
  (forall a b, bits a -> bits b -> length a = n -> length b = n -> value a = value b -> a = b) /\
  (forall v, 0 <= v < 2 ^ Z.of_nat n -> exists l, bits l /\ length l = n /\ value l = v).

