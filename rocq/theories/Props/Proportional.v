(** C16, C17: stochastic universal sampling and proportional selection. *)
From Verif Require Import Model.Base Model.Proportional Spec.Proportional Proofs.Proportional.

(** C16.  Any number of passes of n draws each, with or without reshuffling; the random start lies
    strictly between 0 and the spacing. *)
Theorem C16_sus_fair_shares_partial :
  forall (A : Type) (population : list A) keys nopt off exponent start shuffle values n passes,
  length population = length keys ->
  compute_population_values keys off exponent = Ok values ->
  Forall (fun v => 0 <= v)%Q values -> (0 < total values)%Q ->
  n = Z.to_nat (match nopt with None => Z.of_nat (length keys) | Some z => z end) -> 1 <= n ->
  let spacing := (total values / inject_Z (Z.of_nat n))%Q in
  (0 < start < spacing)%Q ->
  Forall (fun ds => length ds = n /\ Forall (fun d => 0 < d < spacing)%Q ds) passes ->
  exists s out s' idxss,
    sus_init keys nopt off exponent start = Ok s /\
    sus_pulls population shuffle (concat passes) s = Ok (out, s') /\
    length idxss = length passes /\ Forall (fair_pass n values) idxss /\
    at_positions population (concat idxss) out.
Proof. exact @sus_ok. Qed.
Print Assumptions C16_sus_fair_shares_partial.

(** Every start the generator can draw, 0 included, with one start per pass: a pass from a positive
    start is fair; a pass from 0 is the last individual followed by a fair pass without its last
    selection. *)
Theorem C16_all_starts_partial :
  forall (A : Type) (population : list A) keys nopt off exponent start shuffle values n passes,
  length population = length keys ->
  compute_population_values keys off exponent = Ok values ->
  Forall (fun v => 0 <= v)%Q values -> (0 < total values)%Q ->
  n = Z.to_nat (match nopt with None => Z.of_nat (length keys) | Some z => z end) -> 1 <= n ->
  let spacing := (total values / inject_Z (Z.of_nat n))%Q in
  (0 <= start < spacing)%Q ->
  Forall (fun ds => length ds = n /\ Forall (fun d => 0 <= d < spacing)%Q ds) passes ->
  exists s out s' idxss,
    sus_init keys nopt off exponent start = Ok s /\
    sus_pulls population shuffle (concat passes) s = Ok (out, s') /\
    Forall2 (fun st idxs => ((0 < st)%Q -> fair_pass n values idxs) /\ ((st == 0)%Q -> last_first n values idxs))
      (starts_used shuffle start passes) idxss /\
    at_positions population (concat idxss) out.
Proof. exact @sus_all. Qed.
Print Assumptions C16_all_starts_partial.

(** When the last individual has a positive value, the shares hold for every start. *)
Theorem C16_shares_if_last_positive :
  forall (A : Type) (population : list A) keys nopt off exponent start shuffle values n passes,
  length population = length keys ->
  compute_population_values keys off exponent = Ok values ->
  Forall (fun v => 0 <= v)%Q values -> (0 < nth (length values - 1) values 0)%Q ->
  n = Z.to_nat (match nopt with None => Z.of_nat (length keys) | Some z => z end) -> 1 <= n ->
  let spacing := (total values / inject_Z (Z.of_nat n))%Q in
  (0 <= start < spacing)%Q ->
  Forall (fun ds => length ds = n /\ Forall (fun d => 0 <= d < spacing)%Q ds) passes ->
  exists s out s' idxss,
    sus_init keys nopt off exponent start = Ok s /\
    sus_pulls population shuffle (concat passes) s = Ok (out, s') /\
    length idxss = length passes /\ Forall (fair_counts n values) idxss /\
    at_positions population (concat idxss) out.
Proof. exact @sus_shares. Qed.
Print Assumptions C16_shares_if_last_positive.

(** Values 1, 0, 3, 2; the first pass starts at 0, the second at 3/4. *)
Example C16_all_starts_example :
  let keys := [1; 0; 3; 2]%Q in
  exists s out s',
    sus_init keys None (OffVal 0) 1 0 = Ok s /\
    sus_pulls [10; 11; 12; 13] true (concat [[0; 1; 1; 1]; [3 # 4; 1; 1; 1]]%Q) s = Ok (out, s') /\
    out = [13; 12; 12; 13; 10; 12; 12; 13] /\
    starts_used true 0 [[0; 1; 1; 1]; [3 # 4; 1; 1; 1]]%Q = [0; 3 # 4]%Q /\
    (0 < nth (length keys - 1) keys 0)%Q.
Proof.
  eexists _, _, _. split; [vm_compute; reflexivity|]. split; [vm_compute; reflexivity|].
  split; [reflexivity|]. split; reflexivity.
Qed.

(** np.random.uniform(0, h) can return 0.  Then the first point selects population[-1]: the last
    individual, here with value zero, and the order is violated. *)
Theorem C16_zero_start_refuted :
  exists (population : list nat) keys values s out s',
    compute_population_values keys (OffVal 0) 1 = Ok values /\
    Forall (fun v => 0 <= v)%Q values /\ (0 < total values)%Q /\
    sus_init keys None (OffVal 0) 1 0 = Ok s /\
    sus_pulls population true [0; 0; 0]%Q s = Ok (out, s') /\
    hd_error out = Some 2 /\ nth_error population 2 = Some 2 /\ nth_error values 2 = Some 0%Q.
Proof.
  exists [0; 1; 2], [2; 1; 0]%Q. eexists _, _, _, _. split; [vm_compute; reflexivity|].
  split; [repeat constructor; discriminate|]. split; [reflexivity|].
  split; [vm_compute; reflexivity|]. split; [vm_compute; reflexivity|]. split; [reflexivity|]. split; reflexivity.
Qed.
Print Assumptions C16_zero_start_refuted.

(** Values 1, 0, 3, 2 of total 6 and n = 4: shares 2/3, 0, 2, 4/3. *)
Example C16_example :
  let keys := [1; 0; 3; 2]%Q in
  exists s out s',
    sus_init keys None (OffVal 0) 1 (1 # 2) = Ok s /\
    sus_pulls [10; 11; 12; 13] true [1; 1; 1; 1; 3 # 4; 1; 1; 1]%Q s = Ok (out, s') /\
    out = [10; 12; 12; 13; 10; 12; 12; 13] /\
    (0 < 1 # 2 < total keys / inject_Z 4)%Q.
Proof.
  eexists _, _, _. split; [vm_compute; reflexivity|]. split; [vm_compute; reflexivity|].
  split; [reflexivity|]. split; reflexivity.
Qed.

(** C17. *)
Theorem C17_pop_min_values :
  forall keys exponent, keys <> [] ->
  exists values, compute_population_values keys OffPopMin exponent = Ok values /\
    Forall (fun v => 0 <= v)%Q values /\
    (forall i k v, nth_error keys i = Some k -> nth_error values i = Some v ->
       1 <= exponent -> (forall k', In k' keys -> (k <= k')%Q) -> (v == 0)%Q) /\
    (forall i j ki kj vi vj, nth_error keys i = Some ki -> nth_error keys j = Some kj ->
       nth_error values i = Some vi -> nth_error values j = Some vj ->
       1 <= exponent -> (ki < kj <-> vi < vj)%Q).
Proof. exact pop_min_values. Qed.
Print Assumptions C17_pop_min_values.

Theorem C17_offset_preserves_order :
  forall keys q exponent values, compute_population_values keys (OffVal q) exponent = Ok values ->
  Forall (fun k => 0 <= k + q)%Q keys -> 1 <= exponent ->
  Forall (fun v => 0 <= v)%Q values /\
  forall i j ki kj vi vj, nth_error keys i = Some ki -> nth_error keys j = Some kj ->
       nth_error values i = Some vi -> nth_error values j = Some vj -> (ki < kj <-> vi < vj)%Q.
Proof. exact offset_order. Qed.
Print Assumptions C17_offset_preserves_order.

(** [u] is random.random().  The total must be positive. *)
Theorem C17_proportional_selection_partial :
  forall (A : Type) (population : list A) keys off exponent u values,
  length population = length keys ->
  compute_population_values keys off exponent = Ok values -> (0 <= u < 1)%Q ->
  (Exists (fun v => v < 0)%Q values -> proportional_turn population keys off exponent u = Err ValueError) /\
  (Forall (fun v => 0 <= v)%Q values -> (0 < total values)%Q ->
   exists i x v, proportional_turn population keys off exponent u = Ok x /\
     nth_error population i = Some x /\ nth_error values i = Some v /\ (0 < v)%Q).
Proof. exact @proportional_spec. Qed.
Print Assumptions C17_proportional_selection_partial.

Theorem C17_sus_rejects_negative :
  forall keys nopt off exponent start values,
  compute_population_values keys off exponent = Ok values ->
  Exists (fun v => v < 0)%Q values -> sus_init keys nopt off exponent start = Err ValueError.
Proof. exact sus_negative. Qed.
Print Assumptions C17_sus_rejects_negative.

(** Exactly when each of the two raises. *)
Theorem C17_sus_starts_iff :
  forall keys nopt off exponent start values,
  compute_population_values keys off exponent = Ok values ->
  let n := match nopt with None => Z.of_nat (length keys) | Some z => z end in
  ((exists s, sus_init keys nopt off exponent start = Ok s) <-> (1 <= n)%Z /\ Forall (fun v => 0 <= v)%Q values) /\
  (sus_init keys nopt off exponent start = Err ValueError <-> (n <= 0)%Z \/ Exists (fun v => v < 0)%Q values).
Proof. exact sus_init_iff. Qed.
Print Assumptions C17_sus_starts_iff.

Theorem C17_proportional_iff :
  forall (A : Type) (population : list A) keys off exponent u values,
  length population = length keys -> population <> [] ->
  compute_population_values keys off exponent = Ok values -> (0 <= u < 1)%Q ->
  (proportional_turn population keys off exponent u = Err ValueError <->
     Exists (fun v => v < 0)%Q values \/ Forall (fun v => v == 0)%Q values) /\
  ((exists x, proportional_turn population keys off exponent u = Ok x) <->
     Forall (fun v => 0 <= v)%Q values /\ Exists (fun v => 0 < v)%Q values).
Proof. exact @proportional_iff. Qed.
Print Assumptions C17_proportional_iff.

(** All values zero: the spacing is 0, so every start drawn is 0, nothing is raised, and every
    selection is the last individual. *)
Theorem C17_sus_all_zero :
  forall (A : Type) (population : list A) keys nopt off exponent start shuffle values draws x n,
  length population = length keys ->
  compute_population_values keys off exponent = Ok values ->
  Forall (fun v => v == 0)%Q values ->
  n = Z.to_nat (match nopt with None => Z.of_nat (length keys) | Some z => z end) -> 1 <= n ->
  nth_error population (length population - 1) = Some x ->
  (start == 0)%Q -> Forall (fun d => d == 0)%Q draws ->
  exists s s', sus_init keys nopt off exponent start = Ok s /\
    sus_pulls population shuffle draws s = Ok (map (fun _ => x) draws, s').
Proof. exact @sus_all_zero. Qed.
Print Assumptions C17_sus_all_zero.

Example C17_sus_all_zero_example :
  exists s s', sus_init [5; 5; 5]%Q None OffPopMin 1 0 = Ok s /\
    sus_pulls [10; 11; 12] true [0; 0; 0; 0]%Q s = Ok ([12; 12; 12; 12], s').
Proof. eexists _, _. split; vm_compute; reflexivity. Qed.

(** All values zero (e.g. 'pop-min' on a population of equal fitness): proportional selection raises
    although no value is negative. *)
Theorem C17_raises_without_negative_refuted :
  exists (population : list nat) keys off exponent u values,
    compute_population_values keys off exponent = Ok values /\ (0 <= u < 1)%Q /\
    Forall (fun v => 0 <= v)%Q values /\
    proportional_turn population keys off exponent u = Err ValueError.
Proof.
  exists [0; 1], [5; 5]%Q, OffPopMin, 1, (1 # 2)%Q, [0; 0]%Q.
  split; [reflexivity|]. split; [split; [discriminate|reflexivity]|].
  split; [repeat constructor; discriminate|reflexivity].
Qed.
Print Assumptions C17_raises_without_negative_refuted.

(** The documented check (key + offset negative) is made after exponentiation: an even exponent
    hides it, and the worst individual gets the largest share. *)
Theorem C17_even_exponent_refuted :
  exists keys q values v0 v1,
    Exists (fun k => k + q < 0)%Q keys /\ keys = [-(3); 1]%Q /\
    compute_population_values keys (OffVal q) 2 = Ok values /\ values = [v0; v1] /\ (v1 < v0)%Q /\
    proportional_turn [0; 1] keys (OffVal q) 2 (1 # 2)%Q = Ok 0.
Proof.
  exists [-(3); 1]%Q, 0%Q, [9; 1]%Q, 9%Q, 1%Q.
  split; [constructor; reflexivity|]. split; [reflexivity|]. split; [reflexivity|].
  split; [reflexivity|]. split; reflexivity.
Qed.
Print Assumptions C17_even_exponent_refuted.

Example C17_example :
  compute_population_values [4; 2; 5]%Q OffPopMin 2 = Ok [4; 0; 9]%Q /\
  map (fun u => proportional_turn [10; 11; 12] [4; 2; 5]%Q OffPopMin 2 u)
    [0; 4 # 13; 12 # 13]%Q = [Ok 10; Ok 12; Ok 12] /\
  proportional_turn [10; 11] [4; -(2)]%Q (OffVal 1) 1 (1 # 2)%Q = Err ValueError.
Proof. vm_compute. repeat split. Qed.
