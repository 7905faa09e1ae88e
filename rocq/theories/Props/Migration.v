(** C28, C29: migration between islands. *)
From Verif Require Import Model.Base Model.Scalar Model.Migration Spec.Order Spec.Selection Spec.Migration Proofs.Migration.
Open Scope nat_scope.

(** C28, one call in any state.  The population returned is the given one with the attempts of the
    waiting immigrants played on it: same size; every slot keeps its individual or passes it on
    through a chain of immigrants, each not worse than the one it displaces; when the immigrants
    share a direction of fitness no slot gets worse. *)
Theorem C28_one_call :
  forall G gap neighbors (st : mig_state G) c o st', honest_selector (c_replace c) ->
  do_migrate gap neighbors st c = Ok (o, st') ->
  played (c_pop c) (o_attempts o) (o_after o) /\
  (forall k a, nth_error (o_attempts o) k = Some a -> a_stamped a = c_stamp c k (a_imm a)) /\
  length (o_after o) = length (c_pop c) /\
  (forall j x, nth_error (c_pop c) j = Some x ->
     exists y, nth_error (o_after o) j = Some y /\ succession (map a_stamped (o_attempts o)) x y) /\
  (forall mx j x y, (forall a, In a (o_attempts o) -> m_max (a_stamped a) = mx) ->
     nth_error (c_pop c) j = Some x -> nth_error (o_after o) j = Some y ->
     ~ better mx (m_fit x) (m_fit y)).
Proof. exact (fun G => @do_migrate_preserves G). Qed.
Print Assumptions C28_one_call.

(** C28, histories of calls: whatever is found in a returned population was in the given one or is
    the stamped form of an individual that an earlier call sent to this island. *)
Theorem C28_only_emigrants_are_inserted :
  forall G gap neighbors n nx (calls : list (mig_call G)) os st,
  Forall (fun c => honest_selector (c_replace c)) calls ->
  mig_run gap neighbors (mig_init n nx) calls = Ok (os, st) ->
  length os = length calls /\
  forall k o c, nth_error os k = Some o -> nth_error calls k = Some c ->
  length (o_after o) = length (c_pop c) /\
  forall y, In y (o_after o) ->
    In y (c_pop c) \/
    exists a i, In a (o_attempts o) /\ y = a_stamped a /\ i < k /\ sent_at os i (c_island c) (a_imm a).
Proof. exact (fun G => @arrivals G). Qed.
Print Assumptions C28_only_emigrants_are_inserted.

(** The selectors of LEAP that report indices satisfy the hypothesis. *)
Theorem C28_leap_selectors_are_honest :
  forall G, (forall draw, honest_selector (@replace_random G draw)) /\
  forall lt gt w choices, honest_selector (@replace_tournament G lt gt w choices).
Proof. exact (fun G => conj (@replace_random_honest G) (@replace_tournament_honest G)). Qed.
Print Assumptions C28_leap_selectors_are_honest.

(** With LEAP's comparison of individuals, tournament_selection(select_worst=True) offers up a contestant
    that is no better than any other drawn, and select_worst=False one that is no worse. *)
Theorem C28_tournament_replacement :
  forall G mx coin w choices i (pop : list (mind G)),
  let lt a b := worse_than mx (coin (m_id a) (m_id b)) (m_fit a) (m_fit b) in
  let gt a b := negb (lt a b) && negb (equivalent (m_fit a) (m_fit b)) in
  choices i <> [] -> Forall (fun j => j < length pop) (choices i) ->
  exists k x, replace_tournament lt gt w choices i pop = Ok (x, [k]) /\
    In k (choices i) /\ nth_error pop k = Some x /\
    forall j y, In j (choices i) -> nth_error pop j = Some y ->
      if w then ~ better mx (m_fit x) (m_fit y)
      else sharp (map m_fit pop) -> ~ better mx (m_fit y) (m_fit x).
Proof. exact (fun G => @replace_tournament_worst G). Qed.
Print Assumptions C28_tournament_replacement.

(** C29: an emigrant leaves exactly in the generations divisible by the gap; it is an evaluated copy
    of a member of the sending island and goes to one of its neighbours. *)
Theorem C29_departures :
  forall G gap neighbors n nx (calls : list (mig_call G)) os st,
  Forall (fun c => honest_selector (c_replace c)) calls ->
  Forall (fun c => member_selector (c_sponsor c)) calls ->
  mig_run gap neighbors (mig_init n nx) calls = Ok (os, st) ->
  forall k o, nth_error os k = Some o ->
  (o_sent o <> None <-> (gap | o_gen o)%Z) /\
  forall d s e, o_sent o = Some (d, s, e) ->
    In d (neighbors (o_island o)) /\ d < n /\ In s (o_after o) /\ evaluated_copy s e.
Proof. exact (fun G => @departures G). Qed.
Print Assumptions C29_departures.

(** C29: an emigrant sent to island d by call i competes in call k exactly when k is the first call
    for island d after i; nothing else ever competes, no call considers an emigrant twice, and no
    emigrant is sent twice. *)
Theorem C29_delivered_exactly_once :
  forall G gap neighbors n nx (calls : list (mig_call G)) os st,
  Forall (fun c => honest_selector (c_replace c)) calls ->
  mig_run gap neighbors (mig_init n nx) calls = Ok (os, st) ->
  (forall i d e, sent_at os i d e -> forall k, considered_at os k e <-> next_call_on os i k d) /\
  (forall k e, considered_at os k e -> exists i d, sent_at os i d e) /\
  (forall k o, nth_error os k = Some o -> NoDup (map m_id (map a_imm (o_attempts o)))) /\
  (forall i j d d' e e', sent_at os i d e -> sent_at os j d' e' -> m_id e = m_id e' -> i = j).
Proof. exact (fun G => @delivery G). Qed.
Print Assumptions C29_delivered_exactly_once.

(** Finding: an island without out-neighbours stops the run with IndexError in a generation divisible
    by the gap, although the topology may be any networkx graph. *)
Theorem C29_island_without_neighbours_refuted :
  exists (gap : Z) neighbors (st : mig_state nat) c,
    gap <> 0%Z /\ c_pop c <> [] /\ honest_selector (c_replace c) /\ member_selector (c_sponsor c) /\
    do_migrate gap neighbors st c = Err IndexError.
Proof.
  exists 1%Z, (fun _ => []), (mig_init 1 5),
    (mk_call 0 0%Z [mk_mind 1 7 true (NInt 3)] (fun _ x => x) (replace_random (fun _ => 0)) (fun _ => true)
       (fun p => match p with x :: _ => Ok x | [] => Err IndexError end) 0).
  split; [discriminate|]. split; [discriminate|]. split; [apply replace_random_honest|]. split.
  - intros [|y p] x E; [discriminate|]. injection E as <-. left. reflexivity.
  - vm_compute. reflexivity.
Qed.
Print Assumptions C29_island_without_neighbours_refuted.

(** Examples: two islands, gap 2.  Island 0 sends a copy of its first member to island 1 in
    generation 0; there it displaces a worse individual; the copy sent by island 1 loses. *)
Definition ex_first (p : list (mind nat)) : result (mind nat) :=
  match p with x :: _ => Ok x | [] => Err IndexError end.
Definition ex_pop0 := [mk_mind 1 10 true (NInt 5); mk_mind 2 11 true (NInt 4)].
Definition ex_pop1 := [mk_mind 3 12 true (NInt 3); mk_mind 4 13 true (NInt 1)].
Definition ex_call d g pop idx :=
  mk_call d g pop (fun _ x => x) (replace_random (fun _ => idx)) (fun _ => true) ex_first 0.
Definition ex_calls :=
  [ex_call 0 0%Z ex_pop0 0; ex_call 1 0%Z ex_pop1 1; ex_call 0 1%Z ex_pop0 1; ex_call 1 1%Z ex_pop1 0].
Definition ex_nb (d : nat) : list nat := match d with 0 => [1] | _ => [0] end.

Example ex_selectors : Forall (fun c => honest_selector (c_replace c)) ex_calls /\
  Forall (fun c => member_selector (c_sponsor c)) ex_calls.
Proof.
  assert (H : member_selector ex_first).
  { intros [|y p] x E; [discriminate|]. injection E as <-. left. reflexivity. }
  split; unfold ex_calls; repeat (apply Forall_cons; [first [apply replace_random_honest|exact H]|]); apply Forall_nil.
Qed.

Example ex_history :
  match mig_run 2%Z ex_nb (mig_init 2 100) ex_calls with
  | Ok (os, st) =>
      map o_sent os = [Some (1, mk_mind 1 10 true (NInt 5), mk_mind 100 10 true (NInt 5));
                       Some (0, mk_mind 3 12 true (NInt 3), mk_mind 101 12 true (NInt 3)); None; None] /\
      map (fun o => map m_id (o_after o)) os = [[1; 2]; [3; 100]; [1; 2]; [3; 4]] /\
      map (fun o => map m_id (map a_imm (o_attempts o))) os = [[]; [100]; [101]; []] /\
      g_waiting st = [[]; []]
  | Err _ => False
  end.
Proof. vm_compute. auto. Qed.
