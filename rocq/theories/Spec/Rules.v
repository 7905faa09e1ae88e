(** Distances of a point to boxes, and the layout of a rule in a genome. *)
From Coq Require Import Qabs Qround.
From Verif Require Import Model.Base Model.Rules.

(** [d] is the distance of [x] from the interval [low, high]; an empty interval (low > high) is matched
    by everything. *)
Definition gap (low high x d : Q) : Prop :=
  (high < low -> d == 0)%Q /\
  (low <= high ->
     (exists y, low <= y /\ y <= high /\ d == Qabs (x - y)) /\
     (forall y, low <= y -> y <= high -> d <= Qabs (x - y)))%Q.
(** [D] is the squared distance of the point [xs] from the box [box]. *)
Inductive box_distance : list (Q * Q) -> list Q -> Q -> Prop :=
| bd_nil : forall box D, (D == 0)%Q -> box_distance box [] D
| bd_cons : forall low high box x xs d D E, gap low high x d -> box_distance box xs D ->
    (E == d * d + D)%Q -> box_distance ((low, high) :: box) (x :: xs) E.

(** [z] is [q] rounded to the nearest integer, to the even one of two. *)
Definition rounded (q : Q) (z : Z) : Prop :=
  (Qabs (q - inject_Z z) <= 1 # 2)%Q /\ ((Qabs (q - inject_Z z) == 1 # 2)%Q -> Z.Even z).

Definition in_bounds (q : Q) (b : ext * ext) : Prop :=
  match fst b with MInf => True | Fin l => (l <= q)%Q | PInf => False end /\
  match snd b with PInf => True | Fin h => (q <= h)%Q | MInf => False end.

(** what an executable returns for the (rounded) actions of a rule *)
Definition real_pair (p : Q * Q) : option Q * option Q := (Some (fst p), Some (snd p)).
Definition small (q : Q) : Prop := (inject_Z (- 2 ^ 63) <= q /\ q <= inject_Z (2 ^ 63 - 1))%Q.

(** [out] is what is returned for the actions [acts]: the rounded numbers, a bare one if there is only one *)
Definition presents (acts : list gene) (out : output) : Prop :=
  forall qs, acts = map Some qs -> Forall small qs ->
  exists zs, Forall2 rounded qs zs /\ ((1 < length zs /\ out = Many zs) \/ exists z, zs = [z] /\ out = One z).

(** [rules] as boxes, for inputs with [n] entries and [k] actions each *)
Definition boxes_of (n k : nat) (rules : list rule) (boxes : list (list (Q * Q))) : Prop :=
  Forall2 (fun rl box => conditions rl = map real_pair box /\ n <= length box /\ length (actions rl) = k) rules boxes.
(** Rule [w] is nearest to the point [xs]. *)
Definition nearest (boxes : list (list (Q * Q))) (xs : list Q) (w : nat) (D : Q) : Prop :=
  (exists box, nth_error boxes w = Some box /\ box_distance box xs D) /\
  forall i box E, nth_error boxes i = Some box -> box_distance box xs E -> (D <= E)%Q.

(** The genes of a rule with [n] conditions: low, high, low, high, ... and then the actions. *)
Definition lays_out (n : nat) (seg : list gene) (rl : rule) : Prop :=
  length (conditions rl) = n /\ length seg = n * 2 + length (actions rl) /\
  (forall j low high, nth_error (conditions rl) j = Some (low, high) ->
     nth_error seg (2 * j) = Some low /\ nth_error seg (2 * j + 1) = Some high) /\
  (forall j, nth_error (actions rl) j = nth_error seg (n * 2 + j)).
Definition gene_in (g : gene) (b : ext * ext) : Prop := exists q, g = Some q /\ in_bounds q b.
(** a sample of a one-dimensional Box *)
Definition sample_of (bs : list (ext * ext)) (s : list (list gene)) : Prop := Forall2 (fun b row => exists g, row = [g] /\ gene_in g b) bs s.

(** ** NaN among the genes or in the input
    What a rule makes of one input, [None] being NaN: an empty interval still matches everything; a NaN upper end leaves
    the distance from the lower end; a NaN lower end, or a NaN input, makes the distance NaN. *)
Inductive hears : gene * gene -> gene -> gene -> Prop :=
| hears_empty : forall low high x d, (high < low)%Q -> (d == 0)%Q -> hears (Some low, Some high) x (Some d)
| hears_interval : forall low high x d, (low <= high)%Q -> gap low high x d -> hears (Some low, Some high) (Some x) (Some d)
| hears_low : forall low x d, (d == Qabs (x - low))%Q -> hears (Some low, None) (Some x) (Some d)
| hears_no_low : forall high x, hears (None, high) x None
| hears_no_input : forall low high, (forall h, high = Some h -> low <= h)%Q -> hears (Some low, high) None None.
(** the squared distance of the input from a rule's conditions: NaN if one of the distances is *)
Inductive reading : list (gene * gene) -> list gene -> gene -> Prop :=
| reading_nil : forall cs D, (D == 0)%Q -> reading cs [] (Some D)
| reading_cons : forall c cs x xs d D E, hears c x (Some d) -> reading cs xs (Some D) -> (E == d * d + D)%Q -> reading (c :: cs) (x :: xs) (Some E)
| reading_nan : forall c cs x xs d D, hears c x d -> reading cs xs D -> d = None \/ D = None -> reading (c :: cs) (x :: xs) None.
(** rule number [i] is at squared distance [D] *)
Definition rule_reads (rules : list rule) (xs : list gene) (i : nat) (D : gene) : Prop :=
  exists rl, nth_error rules i = Some rl /\ reading (conditions rl) xs D.
