(** What measures of curves and tables of averages are. *)
From Coq Require Import Permutation Sorted.
From Verif Require Import Model.Base Model.PyList Model.Analysis Model.CsvProbe Spec.Problems Spec.Metrics Spec.CsvProbe.

(** ** curves *)
Definition curve := list (Z * Q).
(** as a data frame without missing values *)
Definition complete (c : curve) : list sample := map (fun p => (Some (fst p), Some (snd p))) c.
(** the order of sort_values: by time, missing times last *)
Definition not_later (a b : sample) : Prop :=
  match fst a, fst b with
  | Some x, Some y => (x <= y)%Z
  | None, Some _ => False
  | _, None => True
  end.
(** a sort by time, which may order equal times as it likes *)
Definition sorts_by_time (srt : list sample -> list sample) : Prop :=
  forall df, Permutation df (srt df) /\ StronglySorted not_later (srt df).

(** The unit of time ending at [x] is credited with the next recorded value. *)
Definition credited (c : curve) (x : Z) (v : Q) : Prop :=
  exists t, In (t, v) c /\ (x <= t)%Z /\ forall t' v', In (t', v') c -> (x <= t')%Z -> (t <= t')%Z.
(** first and last time of a curve *)
Definition spans (c : curve) (first last : Z) : Prop :=
  In first (map fst c) /\ In last (map fst c) /\ forall t, In t (map fst c) -> (first <= t <= last)%Z.

(** ** tables *)
(** the row's key columns have these values, none missing *)
Definition has_key {R} (cells : R -> list (option Z)) (r : R) (k : list Z) : Prop := cells r = map Some k.
(** the order of keys *)
Inductive key_lt : list Z -> list Z -> Prop :=
| key_lt_nil y b : key_lt [] (y :: b)
| key_lt_head x y a b : (x < y)%Z -> key_lt (x :: a) (y :: b)
| key_lt_tail x a b : key_lt a b -> key_lt (x :: a) (x :: b).
(** one group for each key that occurs, in order; the group has the rows with the key, as they stood *)
Definition grouped {R} (cells : R -> list (option Z)) (rows : list R) (gs : list (list Z * list R)) : Prop :=
  StronglySorted key_lt (map fst gs) /\
  (forall k, In k (map fst gs) <-> exists r, In r rows /\ has_key cells r k) /\
  (forall k g, In (k, g) gs -> exists b, (forall r, In r rows -> (b r = true <-> has_key cells r k)) /\ g = filter b rows).

(** the values there are *)
Fixpoint known {A} (l : list (option A)) : list A :=
  match l with [] => [] | Some v :: r => v :: known r | None :: r => known r end.
(** mean and squared sample deviation of the values there are *)
Definition mean_and_var (vs : list (option Q)) (mv : option Q * option Q) : Prop :=
  let qs := known vs in
  let n := inject_Z (Z.of_nat (length qs)) in
  (qs = [] -> mv = (None, None)) /\
  (qs <> [] -> exists mu, fst mv = Some mu /\ (mu * n == Qsum qs)%Q /\
     (length qs = 1 -> snd mv = None) /\
     (1 < length qs -> exists s, snd mv = Some s /\ (s * (n - 1) == Qsum (map (fun q => (q - mu) * (q - mu)) qs))%Q)).

(** Every run of experiment [e] was recorded once at each time of a common grid, and [v r t] is the value of metric [j]. *)
Definition complete_design (df : list row) (e : list Z) (j : nat) (runs grid : list Z) (v : Z -> Z -> Q) : Prop :=
  NoDup runs /\ NoDup grid /\ runs <> [] /\ grid <> [] /\
  (forall r, In r df -> r_exps r = map Some e ->
     exists i t, In i runs /\ In t grid /\ r_run r = Some i /\ r_time r = Some t /\ metric j r = Some (v i t)) /\
  (forall i t, In i runs -> In t grid -> exists l1 r l2, df = l1 ++ r :: l2 /\
     r_run r = Some i /\ r_time r = Some t /\ r_exps r = map Some e /\
     forall r', In r' (l1 ++ l2) -> ~ (r_run r' = Some i /\ r_time r' = Some t /\ r_exps r' = map Some e)).

(** example data: two runs of experiment 7 at times 0, 2, 5, one run of experiment 8, and a row without experiment *)
Definition ex_df : list row :=
  [mk_row (Some 0%Z) (Some 1%Z) [Some 7%Z] [Some 4%Q]; mk_row (Some 5%Z) (Some 1%Z) [Some 7%Z] [Some 10%Q];
   mk_row (Some 0%Z) (Some 2%Z) [Some 7%Z] [Some 2%Q]; mk_row (Some 2%Z) (Some 2%Z) [Some 7%Z] [Some 3%Q];
   mk_row (Some 2%Z) (Some 1%Z) [Some 7%Z] [Some 5%Q]; mk_row (Some 5%Z) (Some 2%Z) [Some 7%Z] [Some 6%Q];
   mk_row (Some 0%Z) (Some 1%Z) [Some 8%Z] [None]; mk_row (Some 3%Z) (Some 1%Z) [None] [Some 100%Q]].
Definition ex_v (i t : Z) : Q :=
  match i, t with 1%Z, 0%Z => 4 | 1%Z, 5%Z => 10 | 1%Z, _ => 5 | _, 0%Z => 2 | _, 5%Z => 6 | _, _ => 3 end.
(** two sorts by time: equal times as they stood, and in reverse *)
Definition earlier (a b : sample) : bool :=
  match fst a, fst b with Some x, Some y => (x <? y)%Z | Some _, None => true | None, _ => false end.
Definition ex_sort (df : list sample) : list sample := sort_asc earlier df.
Definition ex_sort_back (df : list sample) : list sample := sort_asc earlier (rev df).
Definition ex_tied : curve := [(0%Z, 0%Q); (4%Z, 1%Q); (4%Z, 9%Q)].
(** two files of a job, written under the same job number *)
Definition ex_file (t : Z) (v : Q) : list row :=
  [mk_row (Some 0%Z) (Some 1%Z) [Some 7%Z] [Some 0%Q]; mk_row (Some t) (Some 1%Z) [Some 7%Z] [Some v]].
