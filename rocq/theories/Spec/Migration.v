(** What migration must do. *)
From Verif Require Import Model.Base Model.Migration Spec.Order Spec.Selection.

Section Spec.
Context {G : Type}.

(** The replacement selector reports the position of the individual it yields. *)
Definition honest_selector (r : nat -> list (mind G) -> result (mind G * list nat)) : Prop :=
  forall i pop x ix, r i pop = Ok (x, ix) -> exists k rest, ix = k :: rest /\ nth_error pop k = Some x.

(** The emigrant selector yields a member. *)
Definition member_selector (s : list (mind G) -> result (mind G)) : Prop :=
  forall pop x, s pop = Ok x -> In x pop.

(** [succession A x y]: y stands where x stood after a chain of replacements, each by an element of
    [A] that its own problem does not consider worse than what it displaces. *)
Inductive succession (A : list (mind G)) : mind G -> mind G -> Prop :=
| succ_stay : forall x, succession A x x
| succ_step : forall x y z, succession A x y -> In z A ->
    ~ better (m_max z) (m_fit y) (m_fit z) -> succession A x z.

(** The attempts played one after the other: each names the individual at its index; the slot goes to
    the stamped immigrant if and only if the attempt succeeds, and nothing else changes.  A successful
    immigrant is not worse than the one it displaces; an unsuccessful one is worse, or both are NaN. *)
Inductive played : list (mind G) -> list (attempt G) -> list (mind G) -> Prop :=
| pl_done : forall pop, played pop [] pop
| pl_fail : forall pop a r pop', a_success a = false ->
    nth_error pop (a_index a) = Some (a_contestant a) ->
    better (m_max (a_stamped a)) (m_fit (a_contestant a)) (m_fit (a_stamped a)) \/
      (~ viable (m_fit (a_contestant a)) /\ ~ viable (m_fit (a_stamped a))) ->
    played pop r pop' -> played pop (a :: r) pop'
| pl_win : forall pop a r pop1 pop', a_success a = true ->
    nth_error pop (a_index a) = Some (a_contestant a) ->
    ~ better (m_max (a_stamped a)) (m_fit (a_contestant a)) (m_fit (a_stamped a)) ->
    replaced_at (a_index a) (a_stamped a) pop pop1 ->
    played pop1 r pop' -> played pop (a :: r) pop'.

(** An evaluated copy: same genome, problem direction and fitness. *)
Definition evaluated_copy (x y : mind G) : Prop :=
  m_genome y = m_genome x /\ m_max y = m_max x /\ m_fit y = m_fit x.

(** the k-th call of the history sent [e] to island [d] *)
Definition sent_at (h : list (mig_out G)) (k d : nat) (e : mind G) : Prop :=
  exists o s, nth_error h k = Some o /\ o_sent o = Some (d, s, e).

(** the k-th call of the history was made for island [d] *)
Definition call_on (h : list (mig_out G)) (k d : nat) : Prop :=
  exists o, nth_error h k = Some o /\ o_island o = d.

(** the k-th call of the history let [e] compete for a place *)
Definition considered_at (h : list (mig_out G)) (k : nat) (e : mind G) : Prop :=
  exists o, nth_error h k = Some o /\ In e (map a_imm (o_attempts o)).

(** [k] is the first call for island [d] after call [i] *)
Definition next_call_on (h : list (mig_out G)) (i k d : nat) : Prop :=
  i < k /\ call_on h k d /\ forall j, i < j < k -> ~ call_on h j d.
End Spec.
