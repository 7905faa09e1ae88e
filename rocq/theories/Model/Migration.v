(** Migration between islands: leap_ec/ops.py:1123-1249 migrate.
    networkx is external: the topology is its number of nodes and, for each island, the list of its
    neighbours.  Islands are numbered from 0, so a neighbour that is not an island number is an
    index error, as in the code.  Individuals are evaluated.  A call that raises ends the history;
    what it changed before raising is not modelled.  The log stands for the [metric] callback
    (lines 1224-1225); logging is omitted. *)
From Verif Require Import Model.Base Model.Scalar Model.Selection.

Section Migration.
Context {G : Type}.

(** what migration looks at in an individual: its uuid, genome, the direction of its problem and its
    fitness *)
(** leap_ec/ops.py:1196-1248 *)
Record mind := mk_mind { m_id : nat; m_genome : G; m_max : bool; m_fit : num }.

(** leap_ec/individual.py:211-253 and total_ordering: [a >= b] is [not (a < b)], decided by [a]'s problem *)
Definition mind_ge (coin : bool) (a b : mind) : bool :=
  negb (worse_than (m_max a) coin (m_fit a) (m_fit b)).

(** One call of the operator: the context's current_subpopulation and generation (lines 1199-1202),
    the population, and the outcomes of everything random or supplied by the user:
    [c_stamp i] the customs_stamp applied to the i-th immigrant (line 1212), [c_replace i] the
    contestant yielded by the replacement selector and the contents of [indices] (1215-1217),
    [c_coin i] the coin for comparing two NaNs, [c_sponsor] the emigrant selector (1233), [c_dest]
    the position drawn by random.choice (1242). *)
(** leap_ec/ops.py:1196-1248 *)
Record mig_call := mk_call {
  c_island : nat;
  c_gen : Z;
  c_pop : list mind;
  c_stamp : nat -> mind -> mind;
  c_replace : nat -> list mind -> result (mind * list nat);
  c_coin : nat -> bool;
  c_sponsor : list mind -> result mind;
  c_dest : nat }.

(** closure state: the waiting immigrants of each island (leap_ec/ops.py:1196), and the source of uuids *)
Record mig_state := mk_mig { g_waiting : list (list mind); g_next : nat }.

(** one attempt of an immigrant: as it waited, as stamped, the contestant, its index, the outcome *)
(** leap_ec/ops.py:1205-1225 *)
Record attempt := mk_att {
  a_imm : mind; a_stamped : mind; a_contestant : mind; a_index : nat; a_success : bool }.

(** what a call did *)
(** leap_ec/ops.py:1196-1248 *)
Record mig_out := mk_out {
  o_island : nat;
  o_gen : Z;
  o_before : list mind;
  o_after : list mind;
  o_attempts : list attempt;
  o_sent : option (nat * mind * mind) }.  (* destination, sponsor, emigrant *)

(** leap_ec/ops.py:1205-1225: the loop over the waiting immigrants *)
Fixpoint immigrate (c : mig_call) (i : nat) (imms pop : list mind)
  : result (list mind * list attempt) :=
  match imms with
  | [] => Ok (pop, [])
  | imm :: rest =>
      let imm' := c_stamp c i imm in
      match c_replace c i pop with
      | Err e => Err e
      | Ok (_, []) => Err IndexError                        (* indices[0] *)
      | Ok (contestant, idx :: _) =>
          let success := mind_ge (c_coin c i) imm' contestant in
          match (if success
                 then if idx <? length pop then Ok (set_nth idx imm' pop) else Err IndexError
                 else Ok pop) with
          | Err e => Err e
          | Ok pop' =>
              match immigrate c (S i) rest pop' with
              | Err e => Err e
              | Ok (pop'', atts) => Ok (pop'', mk_att imm imm' contestant idx success :: atts)
              end
          end
      end
  end.

(** leap_ec/ops.py:1230-1246: [sponsor.clone()] takes a new uuid and keeps the genome and the problem; then
    the fitness is copied *)
Definition emigrant (fresh : nat) (sponsor : mind) : mind :=
  mk_mind fresh (m_genome sponsor) (m_max sponsor) (m_fit sponsor).

Variable gap : Z.
Variable neighbors : nat -> list nat.

(** leap_ec/ops.py:1230-1246, continued *)
Definition emigrate (c : mig_call) (pop : list mind) (st : mig_state)
  : result (mig_state * option (nat * mind * mind)) :=
  if (gap =? 0)%Z then Err ZeroDivisionError
  else if (c_gen c mod gap =? 0)%Z then
    match c_sponsor c pop with
    | Err e => Err e
    | Ok sponsor =>
        let emi := emigrant (g_next st) sponsor in
        match nth_error (neighbors (c_island c)) (c_dest c) with
        | None => Err IndexError                            (* choice from an empty list *)
        | Some dest =>
            match nth_error (g_waiting st) dest with
            | None => Err IndexError
            | Some w => Ok (mk_mig (set_nth dest (w ++ [emi]) (g_waiting st)) (S (g_next st)),
                            Some (dest, sponsor, emi))
            end
        end
    end
  else Ok (st, None).

(** leap_ec/ops.py:1196-1248 do_migrate *)
Definition do_migrate (st : mig_state) (c : mig_call) : result (mig_out * mig_state) :=
  match nth_error (g_waiting st) (c_island c) with
  | None => Err IndexError
  | Some imms =>
      match immigrate c 0 imms (c_pop c) with
      | Err e => Err e
      | Ok (pop', atts) =>
          let st1 := mk_mig (set_nth (c_island c) [] (g_waiting st)) (g_next st) in
          match emigrate c pop' st1 with
          | Err e => Err e
          | Ok (st2, sent) =>
              Ok (mk_out (c_island c) (c_gen c) (c_pop c) pop' atts sent, st2)
          end
      end
  end.

(** leap_ec/ops.py:1196, and a history of calls *)
Definition mig_init (num_islands fresh : nat) : mig_state := mk_mig (repeat [] num_islands) fresh.

(** leap_ec/ops.py:1196, continued *)
Fixpoint mig_run (st : mig_state) (calls : list mig_call) : result (list mig_out * mig_state) :=
  match calls with
  | [] => Ok ([], st)
  | c :: rest =>
      match do_migrate st c with
      | Err e => Err e
      | Ok (o, st') =>
          match mig_run st' rest with
          | Err e => Err e
          | Ok (os, st'') => Ok (o :: os, st'')
          end
      end
  end.
End Migration.
Arguments mind : clear implicits.
Arguments mig_call : clear implicits.
Arguments mig_out : clear implicits.
Arguments mig_state : clear implicits.
Arguments attempt : clear implicits.

(** leap_ec/ops.py:1068-1083 random_selection and 906-953 tournament_selection (select_worst)
    used as replacement selectors with [indices=[]]: the first value of the generator *)
Definition replace_random {G} (draw : nat -> nat) (i : nat) (pop : list (mind G))
  : result (mind G * list nat) :=
  match nth_error pop (draw i) with
  | Some x => Ok (x, [draw i])
  | None => Err IndexError
  end.

(** leap_ec/ops.py:1068-1083, continued *)
Definition replace_tournament {G} (lt gt : mind G -> mind G -> bool) (select_worst : bool)
    (choices : nat -> list nat) (i : nat) (pop : list (mind G)) : result (mind G * list nat) :=
  match tournament_turn lt gt pop select_worst (choices i) (Some []) with
  | Ok (x, Some ix) => Ok (x, ix)
  | Ok (x, None) => Ok (x, [])
  | Err e => Err e
  end.
