(** Parsimony keys and diversity metrics: leap_ec/parsimony.py, leap_ec/probe.py:691-754.
    Arithmetic is exact. *)
From Coq Require Import Qabs.
From Verif Require Import Model.Base Model.Problems.

(** ** parsimony *)
(** leap_ec/parsimony.py:13-48 *)
Definition num_neg (f : num) : num :=
  match f with
  | NInt z => NInt (- z)
  | NFlt b MInf => NFlt b PInf
  | NFlt b (Fin q) => NFlt b (Fin (- q))
  | NFlt b PInf => NFlt b MInf
  | NNan => NNan
  end.
(** leap_ec/parsimony.py:14-48 lexical_parsimony; [len] is len(ind.genome) *)
Definition lexical_key (maximize : bool) (fitness : num) (len : nat) : num * Z :=
  (if maximize then fitness else num_neg fitness, (- Z.of_nat len)%Z).
(** Python's < and == of such tuples: the first components that differ decide (NaN differs from
    everything; that tuples treat the identical NaN object as equal is not modelled) *)
(** the keys of leap_ec/parsimony.py:13-48, compared by the selection operators *)
Definition pair_ltb (a b : num * Z) : bool :=
  if num_eqb (fst a) (fst b) then (snd a <? snd b)%Z else num_ltb (fst a) (fst b).
(** the keys of leap_ec/parsimony.py:13-48, compared by the selection operators *)
Definition pair_eqb (a b : num * Z) : bool := num_eqb (fst a) (fst b) && (snd a =? snd b)%Z.
(** leap_ec/parsimony.py:51-94 koza_parsimony, finite penalty *)
Definition koza_key (maximize : bool) (penalty : Q) (fitness : num) (len : nat) : num :=
  num_add (if maximize then fitness else num_neg fitness) (NFlt true (Fin (- (penalty * inject_Z (Z.of_nat len))))).

(** ** diversity; a population is the list of its genomes *)

(** numpy.stack: at least one array, all of the same shape *)
(** leap_ec/probe.py:691-754 *)
Definition np_stack (gs : list (list Q)) : result (list (list Q)) :=
  match gs with
  | [] => Err ValueError
  | g :: r => if forallb (fun h => length h =? length g) r then Ok gs else Err ValueError
  end.
(** leap_ec/probe.py:691-754 *)
Definition q_sum (l : list Q) : Q := fold_left Qplus l 0%Q.
(** leap_ec/probe.py:691-754 *)
Definition q_mean (l : list Q) : Q := (q_sum l / inject_Z (Z.of_nat (length l)))%Q.
(** leap_ec/probe.py:691-754 *)
Definition column (gs : list (list Q)) (j : nat) : list Q := map (fun g => nth j g 0%Q) gs.
(** leap_ec/probe.py:691-754 *)
Definition width (gs : list (list Q)) : nat := match gs with [] => 0 | g :: _ => length g end.
(** numpy.mean(matrix, axis=0) *)
(** leap_ec/probe.py:691-711 *)
Definition centroid (gs : list (list Q)) : list Q := map (fun j => q_mean (column gs j)) (seq 0 (width gs)).
(** leap_ec/probe.py:691-711 *)
Fixpoint sub_rows (a b : list Q) : list Q :=
  match a, b with x :: a', y :: b' => (x - y)%Q :: sub_rows a' b' | _, _ => [] end.
(** leap_ec/probe.py:691-711 pairwise_squared_distance_metric; the square of the norm is the sum of squares *)
Definition pairwise_squared_distance (gs : list (list Q)) : result Q :=
  bind (np_stack gs) (fun m =>
  let c := centroid m in
  let sq_norms := map (fun g => q_sum (map (fun d => d * d)%Q (sub_rows g c))) m in
  Ok (inject_Z (2 * Z.of_nat (length gs)) * q_sum sq_norms)%Q).
(** numpy.std(column)**2 *)
(** leap_ec/probe.py:717-734 *)
Definition variance (xs : list Q) : Q := q_mean (map (fun x => (x - q_mean xs) * (x - q_mean xs))%Q xs).
(** leap_ec/probe.py:717-734 sum_of_variances_metric *)
Definition sum_of_variances (gs : list (list Q)) : result Q :=
  bind (np_stack gs) (fun m => Ok (q_sum (map (fun j => variance (column m j)) (seq 0 (width m))))).
(** leap_ec/probe.py:740-754 num_fixated_metric; numpy.isclose(v, 0): |v| <= 1e-8 *)
Definition num_fixated (gs : list (list Q)) : result nat :=
  bind (np_stack gs) (fun m =>
  Ok (length (filter (fun j => Qle_bool (Qabs (variance (column m j))) (1 # 100000000)) (seq 0 (width m))))).
