(** leap_ec/statistical_helpers.py.  A dict is the list of its items in insertion order, without repeated keys; keys are
    integers.  Counts and probabilities are exact rationals; NaN and infinities are those of [num].  The tails of the
    chi-squared and t distributions are arguments. *)
From Verif Require Import Model.Base Model.Scalar.

(** dict.get, leap_ec/statistical_helpers.py:19 *)
Fixpoint dget (d : list (Z * Q)) (k : Z) : option Q :=
  match d with
  | [] => None
  | (k', v) :: r => if Z.eqb k' k then Some v else dget r k
  end.
(** d[k] = v, leap_ec/statistical_helpers.py:19, 34 *)
Fixpoint dset (d : list (Z * Q)) (k : Z) (v : Q) : list (Z * Q) :=
  match d with
  | [] => [(k, v)]
  | (k', v') :: r => if Z.eqb k' k then (k', v) :: r else (k', v') :: dset r k v
  end.
(** leap_ec/statistical_helpers.py:32, 38 *)
Definition dkeys (d : list (Z * Q)) : list Z := map fst d.
(** leap_ec/statistical_helpers.py:77 *)
Definition dvalues (d : list (Z * Q)) : list Q := map snd d.

(** leap_ec/statistical_helpers.py:11-21 collect_distribution; the function has hidden state and may raise *)
Fixpoint collect {S : Type} (function : S -> result Z * S) (samples : nat) (outputs : list (Z * Q)) (s : S) : result (list (Z * Q)) * S :=
  match samples with
  | 0 => (Ok outputs, s)
  | Datatypes.S n =>
      match function s with
      | (Err e, s') => (Err e, s')
      | (Ok o, s') => collect function n (dset outputs o ((match dget outputs o with Some c => c | None => 0 end) + 1)%Q) s'
      end
  end.
(** leap_ec/statistical_helpers.py:11-21 *)
Definition collect_distribution {S : Type} (function : S -> result Z * S) (samples : nat) (s : S) : result (list (Z * Q)) * S :=
  collect function samples [] s.

(** leap_ec/statistical_helpers.py:30-34: keys of dist1 that dist2 lacks *)
Fixpoint add_keys_from (ks : list Z) (dist2 : list (Z * Q)) : list (Z * Q) :=
  match ks with
  | [] => dist2
  | k :: r => add_keys_from r (match dget dist2 k with None => dset dist2 k 0 | Some _ => dist2 end)
  end.

(** sorted(), leap_ec/statistical_helpers.py:38 *)
Fixpoint insert_key (k : Z) (l : list Z) : list Z :=
  match l with
  | [] => [k]
  | x :: r => if Z.leb k x then k :: l else x :: insert_key k r
  end.
(** leap_ec/statistical_helpers.py:38 *)
Fixpoint sort_keys (l : list Z) : list Z :=
  match l with
  | [] => []
  | x :: r => insert_key x (sort_keys r)
  end.
(** leap_ec/statistical_helpers.py:36-38; a missing key cannot happen as the keys are those of the dict *)
Definition values_sorted_by_key (dist : list (Z * Q)) : result (list Q) :=
  fold_right (fun k acc => bind acc (fun l => match dget dist k with Some v => Ok (v :: l) | None => Err KeyError end))
    (Ok []) (sort_keys (dkeys dist)).

(** leap_ec/statistical_helpers.py:27-46 _normalize_dicts; also returns the two dicts, which are changed in place *)
Definition normalize_dicts (dict1 dict2 : list (Z * Q)) : result (list Q * list Q) * (list (Z * Q) * list (Z * Q)) :=
  let dict2' := add_keys_from (dkeys dict1) dict2 in
  let dict1' := add_keys_from (dkeys dict2') dict1 in
  (bind (values_sorted_by_key dict1') (fun v1 => bind (values_sorted_by_key dict2') (fun v2 => Ok (v1, v2))), (dict1', dict2')).

(** (o - e)**2 / e in numpy floats, called at leap_ec/statistical_helpers.py:81 *)
Definition chi_term (o e : Q) : num :=
  if Qeq_bool e 0 then (if Qeq_bool o 0 then NNan else NFlt false PInf)
  else NFlt false (Fin ((o - e) * (o - e) / e)%Q).
(** addition of floats; infinities of both signs do not meet here.  leap_ec/statistical_helpers.py:81 *)
Definition num_add (a b : num) : num :=
  match num_val a, num_val b with
  | Some (Fin x), Some (Fin y) => NFlt false (Fin (x + y)%Q)
  | Some PInf, Some MInf => NNan
  | Some MInf, Some PInf => NNan
  | Some (Fin _), Some e => NFlt false e
  | Some e, Some _ => NFlt false e
  | _, _ => NNan
  end.
(** the statistic of scipy.stats.chisquare, called at leap_ec/statistical_helpers.py:81 *)
Fixpoint chi_statistic (observed expected : list Q) : num :=
  match observed, expected with
  | o :: os, e :: es => num_add (chi_term o e) (chi_statistic os es)
  | _, _ => NFlt false (Fin 0%Q)
  end.

(** sum(), leap_ec/statistical_helpers.py:77 *)
Definition total (l : list Q) : Q := fold_left Qplus l 0%Q.

Section Tests.
(** p-value of a chi-squared statistic, by degrees of freedom; scipy.stats.chisquare at leap_ec/statistical_helpers.py:81 *)
Variable chi_tail : Z -> num -> num.

(** leap_ec/statistical_helpers.py:52-82 stochastic_chisquare; with the dicts it leaves behind, expected first *)
Definition stochastic_chisquare (expected distribution : list (Z * Q)) : result num * (list (Z * Q) * list (Z * Q)) :=
  if Qeq_bool (total (dvalues expected)) (total (dvalues distribution)) then
    let '(r, (d', e')) := normalize_dicts distribution expected in
    (bind r (fun '(values, expected_values) =>
       Ok (chi_tail (Z.of_nat (length values) - 1) (chi_statistic values expected_values))), (e', d'))
  else (Err AssertionError, (expected, distribution)).

(** == of lists of numbers, leap_ec/statistical_helpers.py:125 *)
Fixpoint same_values (a b : list Q) : bool :=
  match a, b with
  | [], [] => true
  | x :: a', y :: b' => Qeq_bool x y && same_values a' b'
  | _, _ => false
  end.

(** leap_ec/statistical_helpers.py:88-139 stochastic_equals; with the dicts it leaves behind, expected first *)
Definition stochastic_equals (expected observed : list (Z * Q)) (p : Q) : result bool * (list (Z * Q) * list (Z * Q)) :=
  let '(r, (o', e')) := normalize_dicts observed expected in
  match r with
  | Err e => (Err e, (e', o'))
  | Ok (values, expected_values) =>
      if length values =? 1 then (Ok (same_values values expected_values), (e', o'))
      else
        let '(r2, ds) := stochastic_chisquare e' o' in
        (bind r2 (fun p_value =>
           let reject_equality := num_ltb p_value (NFlt true (Fin p)) in Ok (negb reject_equality)), ds)
  end.

(** leap_ec/statistical_helpers.py:145-168 equals_uniform; with the observed dict it leaves behind *)
Definition equals_uniform (observed : list (Z * Q)) (p : Q) : result bool * list (Z * Q) :=
  let n := total (dvalues observed) in
  let num_keys := length (dkeys observed) in
  let expected := map (fun k => (k, n / inject_Z (Z.of_nat num_keys))%Q) (dkeys observed) in
  let '(r, (_, o')) := stochastic_equals expected observed p in (r, o').

(** p-value of the t test from two means, variances (squared standard deviations) and sample sizes;
    scipy.stats.ttest_ind_from_stats at leap_ec/statistical_helpers.py:186-187 *)
Variable t_tail : Q -> Q -> nat -> Q -> Q -> nat -> num.

(** np.mean; leap_ec/statistical_helpers.py:185 *)
Definition sample_mean (l : list Q) : Q := (total l / inject_Z (Z.of_nat (length l)))%Q.
(** np.std squared: the mean squared deviation; leap_ec/statistical_helpers.py:185 *)
Definition sample_var (l : list Q) : Q := sample_mean (map (fun x => (x - sample_mean l) * (x - sample_mean l))%Q l).
(** leap_ec/statistical_helpers.py:174-189 equals_gaussian of a non-empty sample *)
Definition equals_gaussian (observed : list Q) (reference_mean reference_std : Q) (reference_n : nat) (p : Q) : bool :=
  num_ltb (NFlt true (Fin p))
    (t_tail (sample_mean observed) (sample_var observed) (length observed) reference_mean (reference_std * reference_std)%Q reference_n).
End Tests.
