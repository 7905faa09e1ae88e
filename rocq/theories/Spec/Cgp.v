(** What a CGP genome means, and what a circuit computes. *)
From Coq Require Import Permutation Sorted.
From Verif Require Import Model.Base Model.Cgp.

(** A decoder with at least one of everything (what its constructor insists on). *)
Definition proper {V} (d : decoder V) : Prop :=
  c_prims d <> [] /\ 0 < c_inputs d /\ 0 < c_outputs d /\ 0 < c_layers d /\ 0 < c_width d /\ 0 < c_arity d.

(** A genome is a block (function gene, source genes) per node followed by the output genes. *)
Definition layout {V} (d : decoder V) (genome : list Z) (nodes : list (Z * list Z)) (outs : list Z) : Prop :=
  genome = concat (map (fun nd => fst nd :: snd nd) nodes) ++ outs /\
  length nodes = c_layers d * c_width d /\ Forall (fun nd => length (snd nd) = c_arity d) nodes /\
  length outs = c_outputs d.

(** Sources open to a node of a layer: inputs and nodes of earlier layers, no more than [back] layers
    away once there are that many. *)
Definition may_read {V} (d : decoder V) (layer : nat) (s : Z) : Prop :=
  (0 <= s < Z.of_nat (c_inputs d + layer * c_width d) /\
   ((0 < layer)%nat -> c_back d <= Z.of_nat layer ->
    Z.of_nat (c_inputs d) + (Z.of_nat layer - c_back d) * Z.of_nat (c_width d) <= s))%Z.

Definition feasible {V} (d : decoder V) (nodes : list (Z * list Z)) (outs : list Z) : Prop :=
  (forall layer pos nd, layer < c_layers d -> pos < c_width d -> nth_error nodes (layer * c_width d + pos) = Some nd ->
     (0 <= fst nd < Z.of_nat (length (c_prims d)))%Z /\ Forall (may_read d layer) (snd nd)) /\
  Forall (fun s => 0 <= s < Z.of_nat (c_inputs d + c_layers d * c_width d))%Z outs.

(** Gene by gene within a list of bounds, both inclusive. *)
Definition within (genome : list Z) (bs : list (Z * Z)) : Prop :=
  Forall2 (fun g b => fst b <= g <= snd b)%Z genome bs.

(** Straight-line programs: each node has a function, the numbers of its arguments (inputs first, then
    nodes) and constant parameters. *)
Definition pnode (V : Type) := (prim V * list Z * list V)%type.

(** the sources that a function uses *)
Definition used {V} (p : prim V) (l : list Z) : list Z :=
  match p_arity p with Some a => firstn a l | None => l end.

(** The program that a genome describes; [params j] are the parameters of node j. *)
Definition program {V} (d : decoder V) (params : nat -> list V) (nodes : list (Z * list Z)) (prog : list (pnode V)) : Prop :=
  length prog = length nodes /\
  forall j nd, nth_error nodes j = Some nd -> exists p,
    nth_error (c_prims d) (Z.to_nat (fst nd)) = Some p /\ nth_error prog j = Some (p, used p (snd nd), params j).

(** Value of number [s] for a given input. *)
Inductive value {V} (ni : nat) (prog : list (pnode V)) (input : list V) : Z -> V -> Prop :=
| value_input k v : k < ni -> nth_error input k = Some v -> value ni prog input (Z.of_nat k) v
| value_node j p srcs par args v : nth_error prog j = Some (p, srcs, par) ->
    Forall2 (value ni prog input) srcs args -> p_call p (args ++ par) = Ok v ->
    value ni prog input (Z.of_nat (ni + j)) v.

(** every argument is an input or an earlier node *)
Definition feed_forward {V} (ni : nat) (prog : list (pnode V)) (outs : list Z) : Prop :=
  (forall j p srcs par, nth_error prog j = Some (p, srcs, par) -> Forall (fun s => 0 <= s < Z.of_nat (ni + j))%Z srcs) /\
  Forall (fun s => 0 <= s < Z.of_nat (ni + length prog))%Z outs.

(** A graph is the circuit of a program: nodes numbered inputs, program nodes, outputs; the functions
    and parameters; exactly one edge per argument, numbered by argument position, and one per output. *)
Definition arg_edges (t : Z) (srcs : list Z) : list edge :=
  map (fun ks => (snd ks, t, Some (fst ks))) (combine (seq 0 (length srcs)) srcs).
Definition circuit {V} (g : graph V) (ni : nat) (prog : list (pnode V)) (outs : list Z) : Prop :=
  Permutation (g_nodes g) (map Z.of_nat (seq 0 (ni + length prog + length outs))) /\
  (forall j p srcs par, nth_error prog j = Some (p, srcs, par) ->
     g_fun g (Z.of_nat (ni + j)) = Some p /\
     match g_par g (Z.of_nat (ni + j)) with Some l => l | None => [] end = par) /\
  Permutation (g_edges g)
    (concat (map (fun jn => arg_edges (Z.of_nat (ni + fst jn)) (snd (fst (snd jn)))) (combine (seq 0 (length prog)) prog)) ++
     map (fun ko => (snd ko, Z.of_nat (ni + length prog + fst ko), None)) (combine (seq 0 (length outs)) outs)).

(** Nodes that some output depends on. *)
Inductive needed {V} (ni : nat) (prog : list (pnode V)) (outs : list Z) : Z -> Prop :=
| needed_out s : In s outs -> needed ni prog outs s
| needed_arg j p srcs par s : needed ni prog outs (Z.of_nat (ni + j)) -> nth_error prog j = Some (p, srcs, par) ->
    In s srcs -> needed ni prog outs s.

(** Program [prog'] with outputs [outs'] is [prog] with [outs] reduced to the nodes [keep], renumbered. *)
Definition renumbered (ni : nat) (keep : list nat) (s s' : Z) : Prop :=
  (s' = s /\ 0 <= s < Z.of_nat ni)%Z \/
  exists j i, s = Z.of_nat (ni + j) /\ nth_error keep i = Some j /\ s' = Z.of_nat (ni + i).
Definition reduced {V} (ni : nat) (keep : list nat) (prog : list (pnode V)) (outs : list Z)
    (prog' : list (pnode V)) (outs' : list Z) : Prop :=
  StronglySorted lt keep /\ (forall j, In j keep <-> j < length prog /\ needed ni prog outs (Z.of_nat (ni + j))) /\
  Forall2 (renumbered ni keep) outs outs' /\ length prog' = length keep /\
  forall i j, nth_error keep i = Some j -> exists p srcs srcs' par,
    nth_error prog j = Some (p, srcs, par) /\ nth_error prog' i = Some (p, srcs', par) /\
    Forall2 (renumbered ni keep) srcs srcs'.

(** The circuit, pruned to the nodes that matter or not, of a program. *)
Definition circuit_of {V} (d : decoder V) (prune : bool) (prog : list (pnode V)) (outs : list Z) (g : graph V) : Prop :=
  if prune then exists keep prog' outs', reduced (c_inputs d) keep prog outs prog' outs' /\
                  circuit g (c_inputs d) prog' outs' /\ feed_forward (c_inputs d) prog' outs' /\ length outs' = c_outputs d
  else circuit g (c_inputs d) prog outs /\ feed_forward (c_inputs d) prog outs.

(** Any number of mutations, each with any rate and any draws for which the operator returns. *)
Inductive cgp_history {V} (d : decoder V) : list Z -> list Z -> Prop :=
| history_start g : cgp_history d g g
| history_mutate g g' g'' expected probability us ds : cgp_history d g g' ->
    length us = length g' -> length g' <= length ds ->
    cgp_mutate d expected probability us ds g' = Ok g'' -> cgp_history d g g''.
