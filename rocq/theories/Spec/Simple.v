(** Specification of ea_solve *)
From Verif Require Import Model.Base Model.Scalar Model.Probe Model.Simple Spec.Order.
From Coq Require Import Sorted.

(** the fitness of a genome: what the function says, NaN when it raises *)
Definition scored (f : list Q -> result num) (g : list Q) (v : num) : Prop :=
  f g = Ok v \/ ((exists e, f g = Err e) /\ v = NNan).

(** the random draws a generation gets, for [pop] individuals of [n] genes *)
Definition good_draws (n pop : nat) (d : gen_draws) : Prop :=
  forall j, gd_choices d j <> [] /\ Forall (fun c => c < pop) (gd_choices d j) /\
    length (gd_us d j) = n /\ Forall (fun u => 0 <= u /\ u < 1)%Q (gd_us d j) /\
    length (gd_noise d j) = n /\ length (gd_mask d j) = n.

(** a call of ea_solve that makes sense *)
Record good_call (bounds : list (Q * Q)) (std : Q + list Q) (pop : nat) (us : list (list Q)) (ds : list gen_draws) : Prop := {
  gc_bounds : Forall (fun b => fst b <= snd b)%Q bounds;
  gc_std : match std with inl s => (0 <= s)%Q | inr l => length l = length bounds end;
  gc_us_len : length us = pop;
  gc_us : Forall (fun u => length u = length bounds /\ Forall (fun x => 0 <= x /\ x < 1)%Q u) us;
  gc_ds : Forall (good_draws (length bounds) pop) ds }.

(** a point of the box *)
Definition in_box (bounds : list (Q * Q)) (g : list Q) : Prop :=
  Forall2 (fun b x => fst b <= x /\ x <= snd b)%Q bounds g.

(** [c] is [v], moved to the nearest bound when bounds are hard *)
Definition moved (hard : bool) (b : Q * Q) (v c : Q) : Prop :=
  if hard then (v < fst b -> c == fst b)%Q /\ (snd b < v -> c == snd b)%Q /\ (fst b <= v -> v <= snd b -> c == v)%Q
  else (c == v)%Q.

(** individuals numbered from [start] on, with the given genomes *)
Definition numbered (f : list Q -> result num) (start : nat) (gs : list (list Q)) (xs : list sind) : Prop :=
  length xs = length gs /\
  forall j g x, nth_error gs j = Some g -> nth_error xs j = Some x -> si_id x = start + j /\ scored f g (si_fit x).

(** individual [x] has genome [g], an element of the list of all genomes *)
Definition genome_of (genomes : list (list Q)) (x : sind) (g : list Q) : Prop := nth_error genomes (si_id x) = Some g.

(** [p] is a winner of the tournament between the individuals of [pop] at the positions [choices] *)
Definition wins (mx : bool) (pop : list sind) (choices : list nat) (p : sind) : Prop :=
  (exists c, In c choices /\ nth_error pop c = Some p) /\
  forall c y, In c choices -> nth_error pop c = Some y -> better mx (si_fit y) (si_fit p) -> within_rel tol (si_fit y) (si_fit p).

(** Gene [i] of child [j] of a generation: the children come in pairs and a pair has two parents.  The first child has the
    first parent's gene and the second child the second's, the other way round where the mask says so; the gene is the
    parent's plus noise. *)
Definition inherits (mx hard : bool) (bounds : list (Q * Q)) (stds : nat -> option Q) (d : gen_draws)
    (genomes : list (list Q)) (pop : list sind) (j i : nat) (c : Q) : Prop :=
  let pair := Nat.div2 j in
  let turn := if Bool.eqb (Nat.odd j) (nth i (gd_mask d pair) false) then 2 * pair else S (2 * pair) in
  exists p g b x z s, wins mx pop (gd_choices d turn) p /\ genome_of genomes p g /\
    nth_error bounds i = Some b /\ nth_error g i = Some x /\ nth_error (gd_noise d turn) i = Some z /\ stds i = Some s /\
    moved hard b (x + z * s)%Q c.

(** One generation: [before] are the genomes evaluated until then, [cs] the genomes of the children *)
Definition generation_ok (f : list Q -> result num) (mx hard : bool) (bounds : list (Q * Q)) (stds : nat -> option Q) (size : nat)
    (d : gen_draws) (before : list (list Q)) (pop : list sind) (cs : list (list Q)) (pop' : list sind) : Prop :=
  length pop = size /\ length cs = size /\ length pop' = size /\
  Forall (fun x => exists g, genome_of before x g /\ scored f g (si_fit x)) pop /\
  (forall j g, nth_error cs j = Some g -> length g = length bounds /\
     forall i c, nth_error g i = Some c -> inherits mx hard bounds stds d before pop j i c) /\
  exists children, numbered f (length before) cs children /\ incl pop' (children ++ pop) /\
    (sharp (map si_fit (children ++ pop)) -> forall y, In y (children ++ pop) -> exists x, In x pop' /\ ~ better mx (si_fit y) (si_fit x)).

(** example: minimise x^2 on [-2, 2]; every generation adds [noise] to the winner *)
Definition ex_square (g : list Q) : result num := match g with [x] => Ok (NFlt true (Fin (x * x)%Q)) | _ => Err ValueError end.
Definition ex_draws (noise : nat -> Q) : gen_draws :=
  mk_draws (fun _ => [0; 1]) (fun _ _ _ => false) (fun _ => [1 # 2]%Q) (fun j => [noise j]) (fun _ => [false]) (fun _ _ => false) (fun _ _ => false).
Definition ex_noise (j : nat) : Q := if Nat.even j then -1 else 3.
