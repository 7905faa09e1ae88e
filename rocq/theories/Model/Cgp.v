(** Cartesian genetic programming: leap_ec/executable_rep/cgp.py.
    Integers are exact.  Primitive functions are pure; they may raise.  networkx multigraphs are
    modelled by their nodes and edges in insertion order with the attributes the code uses. *)
From Verif Require Import Model.Base Model.PyList Model.Variation.

Section Cgp.
Variable V : Type.

(** leap_ec/executable_rep/cgp.py:23-97 Primitive, FunctionPrimitive, NAND, NotX: a callable on an argument list;
    [p_arity] is None for callables without an [arity] attribute *)
Record prim := mk_prim { p_arity : option nat; p_call : list V -> result V }.

(** leap_ec/executable_rep/cgp.py:181-196 CGPDecoder.__init__ ([prune] is an argument of decode below) *)
Record decoder := mk_decoder {
  c_prims : list prim; c_inputs : nat; c_outputs : nat; c_layers : nat; c_width : nat; c_arity : nat;
  c_back : Z }.
(** leap_ec/executable_rep/cgp.py:181-196, continued *)
Definition make_decoder (prims : list prim) (inputs outputs layers width arity : nat) (back : option Z)
  : result decoder :=
  if (length prims =? 0) || (inputs =? 0) || (outputs =? 0) || (layers =? 0) || (width =? 0) || (arity =? 0)
  then Err AssertionError
  else Ok (mk_decoder prims inputs outputs layers width arity
             match back with Some b => b | None => Z.of_nat layers end).

(** leap_ec/executable_rep/cgp.py:207-220 *)
Definition num_genes (d : decoder) : nat := c_layers d * c_width d * (c_arity d + 1) + c_outputs d.
(** leap_ec/executable_rep/cgp.py:222-231 *)
Definition num_cgp_nodes (d : decoder) : nat := c_inputs d + c_layers d * c_width d + c_outputs d.

(** list indexing with a Python index, negative from the end *)
(** the genome indexing of leap_ec/executable_rep/cgp.py:233-273 *)
Definition py_index {A} (l : list A) (i : Z) : result A :=
  let j := if (i <? 0)%Z then (i + Z.of_nat (length l))%Z else i in
  if (j <? 0)%Z then Err IndexError
  else match nth_error l (Z.to_nat j) with Some x => Ok x | None => Err IndexError end.

(** leap_ec/executable_rep/cgp.py:233-243; the assertions on layer and node hold in the loops that call it *)
Definition get_primitive (d : decoder) (genome : list Z) (layer node : nat) : result prim :=
  match nth_error genome ((layer * c_width d + node) * (c_arity d + 1)) with
  | None => Err IndexError
  | Some id => if (id <? Z.of_nat (length (c_prims d)))%Z then py_index (c_prims d) id else Err AssertionError
  end.

(** leap_ec/executable_rep/cgp.py:246-267 *)
Definition get_input_sources (d : decoder) (genome : list Z) (layer node : nat) : result (list Z) :=
  fold_right (fun i r => bind r (fun l =>
      match nth_error genome ((layer * c_width d + node) * (c_arity d + 1) + 1 + i) with
      | Some s => Ok (s :: l)
      | None => Err IndexError
      end)) (Ok []) (seq 0 (c_arity d)).

(** leap_ec/executable_rep/cgp.py:269-273 *)
Definition get_output_sources (d : decoder) (genome : list Z) : list Z :=
  skipn (c_layers d * c_width d * (c_arity d + 1)) genome.

(** leap_ec/executable_rep/cgp.py:275-311 _min_bounds *)
Definition min_source (d : decoder) (l : nat) : Z :=
  if (l =? 0) || (Z.of_nat l <? c_back d)%Z then 0%Z
  else (Z.of_nat (c_inputs d) + (Z.of_nat l - c_back d) * Z.of_nat (c_width d))%Z.
(** leap_ec/executable_rep/cgp.py:275-311, continued *)
Definition min_bounds (d : decoder) : list Z :=
  flat_map (fun l => flat_map (fun _ => 0%Z :: repeat (min_source d l) (c_arity d)) (seq 0 (c_width d)))
    (seq 0 (c_layers d)) ++ repeat 0%Z (c_outputs d).

(** leap_ec/executable_rep/cgp.py:313-347 _max_bounds *)
Definition max_source (d : decoder) (l : nat) : Z :=
  (Z.of_nat (c_inputs d) - 1 + Z.of_nat l * Z.of_nat (c_width d))%Z.
(** leap_ec/executable_rep/cgp.py:313-347, continued *)
Definition max_bounds (d : decoder) : list Z :=
  flat_map (fun l => flat_map (fun _ => (Z.of_nat (length (c_prims d)) - 1)%Z :: repeat (max_source d l) (c_arity d))
                       (seq 0 (c_width d))) (seq 0 (c_layers d))
  ++ repeat (Z.of_nat (num_cgp_nodes d) - 1 - Z.of_nat (c_outputs d))%Z (c_outputs d).

(** leap_ec/executable_rep/cgp.py:349-360 *)
Definition bounds (d : decoder) : list (Z * Z) := combine (min_bounds d) (max_bounds d).

(** leap_ec/executable_rep/cgp.py:362-433 check_constraints on one individual; a gene is an integer or something else *)
Inductive gene := GInt (z : Z) | GOther.
(** leap_ec/executable_rep/cgp.py:362-433, continued *)
Fixpoint check_genes (genome : list gene) (bs : list (Z * Z)) : result unit :=
  match genome, bs with
  | GOther :: _, _ :: _ => Err ValueError
  | GInt g :: genome', (lo, hi) :: bs' =>
      if (g <? lo)%Z || (hi <? g)%Z then Err ValueError else check_genes genome' bs'
  | _, _ => Ok tt
  end.
(** leap_ec/executable_rep/cgp.py:362-433, continued *)
Definition check_constraints (d : decoder) (genome : list gene) : result (list gene) :=
  if negb (length genome =? length (bounds d)) then Err ValueError
  else bind (check_genes genome (bounds d)) (fun _ => Ok genome).

(** ** networkx.MultiDiGraph: nodes in insertion order; edges (source, target, 'order' attribute) in
    insertion order; node attributes 'function' and 'parameters' *)
(** leap_ec/executable_rep/cgp.py:444-476 *)
Definition edge := (Z * Z * option nat)%type.
(** leap_ec/executable_rep/cgp.py:444-476 *)
Definition src (e : edge) : Z := fst (fst e).
(** leap_ec/executable_rep/cgp.py:444-476 *)
Definition dst (e : edge) : Z := snd (fst e).
(** the edge attribute 'order', leap_ec/executable_rep/cgp.py:465-466 *)
Definition ord (e : edge) : option nat := snd e.
(** leap_ec/executable_rep/cgp.py:444-476 *)
Record graph := mk_graph {
  g_nodes : list Z; g_edges : list edge; g_fun : Z -> option prim; g_par : Z -> option (list V) }.

(** membership, used for leap_ec/executable_rep/cgp.py:444-476 *)
Definition memZ (x : Z) (l : list Z) : bool := existsb (Z.eqb x) l.
(** leap_ec/executable_rep/cgp.py:444-476 *)
Definition add_node (l : list Z) (x : Z) : list Z := if memZ x l then l else l ++ [x].
(** add_edge creates missing end points *)
(** leap_ec/executable_rep/cgp.py:453-476 *)
Definition add_edge (g : graph) (e : edge) : graph :=
  mk_graph (add_node (add_node (g_nodes g) (src e)) (dst e)) (g_edges g ++ [e]) (g_fun g) (g_par g).
(** the node attribute 'function', leap_ec/executable_rep/cgp.py:455-458 *)
Definition set_fun (g : graph) (n : Z) (f : prim) : graph :=
  mk_graph (g_nodes g) (g_edges g) (fun k => if (k =? n)%Z then Some f else g_fun g k) (g_par g).
(** the node attribute 'parameters', leap_ec/executable_rep/cgp.py:573-577 *)
Definition set_par (g : graph) (n : Z) (ps : list V) : graph :=
  mk_graph (g_nodes g) (g_edges g) (g_fun g) (fun k => if (k =? n)%Z then Some ps else g_par g k).

(** distinct elements in order of first appearance (the keys of an adjacency dict) *)
(** used for the edge iteration at leap_ec/executable_rep/cgp.py:120-127 *)
Fixpoint firsts (seen l : list Z) : list Z :=
  match l with
  | [] => []
  | x :: r => if memZ x seen then firsts seen r else x :: firsts (x :: seen) r
  end.
(** in_edges(n): grouped by predecessor; out edges of n: grouped by successor *)
(** leap_ec/executable_rep/cgp.py:120-127 *)
Definition in_edges (g : graph) (n : Z) : list edge :=
  let es := filter (fun e => (dst e =? n)%Z) (g_edges g) in
  flat_map (fun p => filter (fun e => (src e =? p)%Z) es) (firsts [] (map src es)).
(** used by the pruning of leap_ec/executable_rep/cgp.py:479-503 *)
Definition out_edges (g : graph) (n : Z) : list edge :=
  let es := filter (fun e => (src e =? n)%Z) (g_edges g) in
  flat_map (fun p => filter (fun e => (dst e =? p)%Z) es) (firsts [] (map dst es)).

(** Python's range, leap_ec/executable_rep/cgp.py:444-476 *)
Definition zrange (a n : nat) : list Z := map Z.of_nat (seq a n).

(** leap_ec/executable_rep/cgp.py:455-466: one iteration of decode's inner loop *)
Definition add_cgp_node (d : decoder) (genome : list Z) (g : graph) (layer node : nat) : result graph :=
  let id := Z.of_nat (c_inputs d + layer * c_width d + node) in
  bind (get_primitive d genome layer node) (fun f =>
  bind (get_input_sources d genome layer node) (fun inputs =>
  let inputs := match p_arity f with Some a => firstn a inputs | None => inputs end in
  Ok (fold_left add_edge (map (fun oi => (snd oi, id, Some (fst oi))) (combine (seq 0 (length inputs)) inputs))
        (set_fun g id f)))).

(** all_node_ids[-num_outputs:], leap_ec/executable_rep/cgp.py:468-471 *)
Definition lastn {A} (n : nat) (l : list A) : list A := skipn (length l - n) l.

(** leap_ec/executable_rep/cgp.py:444-471: decode without pruning.  The outputs' edges carry no 'order'. *)
Definition decode_graph (d : decoder) (genome : list Z) : result graph :=
  if negb (length genome =? num_genes d) then Err AssertionError else
  let ids := zrange 0 (num_cgp_nodes d) in
  let g0 := mk_graph ids [] (fun _ => None) (fun _ => None) in
  bind (fold_left (fun r ln => bind r (fun g => add_cgp_node d genome g (fst ln) (snd ln)))
          (list_prod (seq 0 (c_layers d)) (seq 0 (c_width d))) (Ok g0)) (fun g =>
  Ok (fold_left add_edge (map (fun st => (fst st, snd st, None))
                            (combine (get_output_sources d genome) (lastn (c_outputs d) ids))) g)).

(** networkx.ancestors: the nodes with a path to one of [l], without [l] itself unless on a path;
    breadth first, at most as many rounds as there are nodes *)
(** leap_ec/executable_rep/cgp.py:479-503 *)
Definition preds (g : graph) (n : Z) : list Z := map src (filter (fun e => (dst e =? n)%Z) (g_edges g)).
(** leap_ec/executable_rep/cgp.py:479-503 *)
Fixpoint closure (g : graph) (fuel : nat) (l : list Z) : list Z :=
  match fuel with
  | 0 => l
  | S f => closure g f (firsts [] (l ++ flat_map (preds g) l))
  end.
(** leap_ec/executable_rep/cgp.py:479-503 *)
Definition ancestors (g : graph) (n : Z) : list Z := closure g (length (g_nodes g)) (preds g n).

(** position of a label in the sorted list of labels *)
(** leap_ec/executable_rep/cgp.py:479-503 *)
Fixpoint index_of (x : Z) (l : list Z) : nat :=
  match l with [] => 0 | y :: r => if (x =? y)%Z then 0 else S (index_of x r) end.

(** leap_ec/executable_rep/cgp.py:478-503 prune_graph.  subgraph keeps the nodes and the edges between them;
    convert_node_labels_to_integers(ordering="sorted") renames every node to its position among the
    sorted labels, copying the edges node by node and keeping all attributes. *)
Definition prune_graph (g : graph) (num_inputs num_outputs : nat) : graph :=
  let outputs := lastn num_outputs (g_nodes g) in
  let necessary := zrange 0 num_inputs ++ outputs ++ flat_map (ancestors g) outputs in
  let kept := filter (fun n => memZ n necessary) (g_nodes g) in
  let sorted := sort_asc Z.ltb kept in
  let rename n := Z.of_nat (index_of n sorted) in
  let old (n : Z) := if (n <? 0)%Z then None else nth_error sorted (Z.to_nat n) in
  let edges := filter (fun e => memZ (src e) kept && memZ (dst e) kept) (flat_map (out_edges g) kept) in
  mk_graph (map rename kept)
    (map (fun e => (rename (src e), rename (dst e), ord e)) edges)
    (fun n => match old n with Some o => g_fun g o | None => None end)
    (fun n => match old n with Some o => g_par g o | None => None end).

(** leap_ec/executable_rep/cgp.py:435-476 CGPDecoder.decode: the graph of the executable *)
Definition decode (d : decoder) (prune : bool) (genome : list Z) : result graph :=
  bind (decode_graph d genome) (fun g =>
  Ok (if prune then prune_graph g (c_inputs d) (c_outputs d) else g)).

(** leap_ec/executable_rep/cgp.py:538-582 CGPWithParametersDecoder.decode; [np]: parameters per node.  The message of the
    assertion on line 572 reads the missing attribute cgp_decoder: AttributeError. *)
Definition decode_with_parameters (d : decoder) (np : nat) (prune : bool) (genome : list Z) (pars : list V)
  : result graph :=
  bind (decode_graph d genome) (fun g =>
  if negb (length pars =? np * c_width d * c_layers d) then Err AttributeError else
  let g' := fold_left (fun g ln =>
              let id := fst ln * c_width d + snd ln in
              set_par g (Z.of_nat (c_inputs d + id)) (firstn np (skipn (id * np) pars)))
              (list_prod (seq 0 (c_layers d)) (seq 0 (c_width d))) g in
  Ok (if prune then prune_graph g' (c_inputs d) (c_outputs d) else g')).

(** ** leap_ec/executable_rep/cgp.py:117-161 CGPExecutable.__call__.  [out]: the 'output' attributes of the nodes, possibly
    left over from an earlier call.  A missing attribute or node is a KeyError. *)
Local Notation outs := (Z -> option V).
(** leap_ec/executable_rep/cgp.py:117-161, continued *)
Definition set_out (o : outs) (n : Z) (v : V) : outs := fun k => if (k =? n)%Z then Some v else o k.

(** a missing 'order' only occurs on the single edge into an output node *)
(** leap_ec/executable_rep/cgp.py:120-127 *)
Definition order_ltb (a b : edge) : bool :=
  match ord a, ord b with Some x, Some y => x <? y | _, _ => false end.
(** leap_ec/executable_rep/cgp.py:120-127 *)
Definition sorted_inputs (g : graph) (n : Z) : list Z := map src (sort_asc order_ltb (in_edges g n)).

(** leap_ec/executable_rep/cgp.py:120-127, continued *)
Fixpoint read_all (o : outs) (l : list Z) : result (list V) :=
  match l with
  | [] => Ok []
  | x :: r => match o x with
              | Some v => bind (read_all o r) (fun vs => Ok (v :: vs))
              | None => Err KeyError
              end
  end.
(** leap_ec/executable_rep/cgp.py:136-149, one hidden node *)
Definition run_node (g : graph) (o : outs) (n : Z) : result outs :=
  if negb (memZ n (g_nodes g)) then Err KeyError else
  bind (read_all o (sorted_inputs g n)) (fun args =>
  let args := args ++ match g_par g n with Some ps => ps | None => [] end in
  match g_fun g n with
  | None => Err KeyError
  | Some f => bind (p_call f args) (fun v => Ok (set_out o n v))
  end).
(** leap_ec/executable_rep/cgp.py:153-159, one output node *)
Definition run_output (g : graph) (acc : outs * list V) (n : Z) : result (outs * list V) :=
  if negb (memZ n (g_nodes g)) then Err KeyError else
  match in_edges g n with
  | [e] => match fst acc (src e) with
           | Some v => Ok (set_out (fst acc) n v, snd acc ++ [v])
           | None => Err KeyError
           end
  | _ => Err AssertionError
  end.
(** leap_ec/executable_rep/cgp.py:153-159, continued *)
Definition call (g : graph) (num_inputs num_outputs : nat) (o : outs) (input : list V) : result (outs * list V) :=
  if negb (length input =? num_inputs) then Err AssertionError else
  let o1 := fold_left (fun o iv => set_out o (fst iv) (snd iv)) (combine (zrange 0 num_inputs) input) o in
  let hidden := length (g_nodes g) - num_inputs - num_outputs in
  bind (fold_left (fun r n => bind r (fun o => run_node g o n)) (zrange num_inputs hidden) (Ok o1)) (fun o2 =>
  fold_left (fun r n => bind r (fun acc => run_output g acc n))
    (zrange (num_inputs + hidden) num_outputs) (Ok (o2, []))).

End Cgp.

Arguments mk_prim {V}. Arguments p_arity {V}. Arguments p_call {V}.
Arguments mk_decoder {V}. Arguments c_prims {V}. Arguments c_inputs {V}. Arguments c_outputs {V}.
Arguments c_layers {V}. Arguments c_width {V}. Arguments c_arity {V}. Arguments c_back {V}.
Arguments make_decoder {V}. Arguments num_genes {V}. Arguments num_cgp_nodes {V}. Arguments bounds {V}.
Arguments min_bounds {V}. Arguments max_bounds {V}. Arguments min_source {V}. Arguments max_source {V}.
Arguments get_primitive {V}. Arguments get_input_sources {V}. Arguments get_output_sources {V}.
Arguments check_constraints {V}. Arguments mk_graph {V}. Arguments g_nodes {V}. Arguments g_edges {V}.
Arguments g_fun {V}. Arguments g_par {V}. Arguments add_edge {V}. Arguments set_fun {V}. Arguments set_par {V}.
Arguments in_edges {V}. Arguments out_edges {V}. Arguments add_cgp_node {V}. Arguments decode_graph {V}.
Arguments preds {V}. Arguments closure {V}. Arguments ancestors {V}. Arguments prune_graph {V}.
Arguments decode {V}. Arguments decode_with_parameters {V}. Arguments sorted_inputs {V}.
Arguments read_all {V}. Arguments run_node {V}. Arguments run_output {V}. Arguments call {V}. Arguments set_out {V}.

(** leap_ec/int_rep/initializers.py:15-42 create_int_vector: one draw per pair of bounds, both inclusive *)
Definition create_int_vector (bs : list (Z * Z)) (ds : list Z) : result (list Z) := randint_genes ds bs.
(** leap_ec/executable_rep/cgp.py:648-651 create_cgp_vector and leap_ec/executable_rep/cgp.py:198-205 CGPDecoder.initializer *)
Definition create_cgp_vector {V} (d : decoder V) (ds : list Z) : result (list Z) := create_int_vector (bounds d) ds.
(** leap_ec/executable_rep/cgp.py:605-625 cgp_mutate on one individual's genome, with mutate_randint's check of the rate
    (leap_ec/int_rep/ops.py:39-44), and leap_ec/executable_rep/cgp.py:631-642 cgp_genome_mutate *)
Definition cgp_genome_mutate {V} (d : decoder V) (expected probability : option Q) (us : list Q) (ds : list Z)
    (genome : list Z) : result (list Z) :=
  individual_mutate_randint (bounds d) expected probability us ds genome.
(** leap_ec/executable_rep/cgp.py:605-625, continued *)
Definition cgp_mutate {V} (d : decoder V) (expected probability : option Q) (us : list Q) (ds : list Z)
    (genome : list Z) : result (list Z) :=
  bind (check_rate ValueError expected probability) (fun _ =>
  cgp_genome_mutate d expected probability us ds genome).
