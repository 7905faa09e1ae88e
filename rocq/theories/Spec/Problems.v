(** Means, rotations, cooperative combinations and bit-string optima, stated without the code. *)
From Verif Require Import Model.Base Model.Problems.

Definition Qsum (l : list Q) : Q := fold_right Qplus 0%Q l.

(** [f] is the arithmetic mean of the values [vs]. *)
Definition has (v : option ext) (vs : list num) : Prop := exists x, In x vs /\ num_val x = v.
Definition mean_of (vs : list num) (f : num) : Prop :=
  (has None vs \/ (has (Some PInf) vs /\ has (Some MInf) vs) -> num_val f = None) /\
  (~ has None vs -> has (Some PInf) vs -> ~ has (Some MInf) vs -> num_val f = Some PInf) /\
  (~ has None vs -> has (Some MInf) vs -> ~ has (Some PInf) vs -> num_val f = Some MInf) /\
  (forall qs, vs <> [] -> Forall2 (fun x q => num_val x = Some (Fin q)) vs qs ->
     exists m, num_val f = Some (Fin m) /\ (m * inject_Z (Z.of_nat (length vs)) == Qsum qs)%Q).

(** Taking turns: which of [count] players is active after [step] steps, and for how many steps it has
    been, if every turn lasts [m] steps. *)
Fixpoint turn (count m step : nat) : nat * nat :=
  match step with
  | 0 => (0, 0)
  | S s => let '(k, j) := turn count m s in
           if S j <? m then (k, S j) else (if S k <? count then S k else 0, 0)
  end.

(** One contribution per subpopulation, in order: the current one's is [x], the others' come from
    members of the corresponding subpopulation. *)
Definition combination {G} (subpops : list (list (cind G))) (current : nat) (x : cind G) (cs : list (cind G)) : Prop :=
  length cs = length subpops /\
  forall i c, nth_error cs i = Some c ->
    (i = current -> c = x) /\
    (i <> current -> exists pop, nth_error subpops i = Some pop /\ In c pop).

(** selectors that return only members of the population they select from *)
Definition members {G} (sel : nat -> nat -> list (cind G) -> nat -> result (cind G)) : Prop :=
  forall t i pop k z, sel t i pop k = Ok z -> In z pop.

(** number of positions where two lists agree *)
Fixpoint agreements (a b : list Z) : nat :=
  match a, b with
  | x :: a', y :: b' => (if Z.eq_dec x y then 1 else 0) + agreements a' b'
  | _, _ => 0
  end.
Definition ones (l : list Z) : nat := count_occ Z.eq_dec l 1%Z.
Definition bits (l : list Z) : Prop := Forall (fun x => x = 0 \/ x = 1)%Z l.
Definition complement (l : list Z) : list Z := map (fun x => 1 - x)%Z l.
(** [n] is the length of the longest common prefix *)
Definition common_prefix (a b : list Z) (n : nat) : Prop :=
  n <= length a /\ n <= length b /\ firstn n a = firstn n b /\
  forall x y, nth_error a n = Some x -> nth_error b n = Some y -> x <> y.
(** the string to be found: the given one, or all ones *)
Definition target_of (target : option (list Z)) (l : list Z) : list Z :=
  match target with Some t => t | None => repeat 1%Z (length l) end.
