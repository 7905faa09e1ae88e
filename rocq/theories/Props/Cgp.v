(** C43, C44, C45: Cartesian genetic programming. *)
From Coq Require Import Permutation.
From Verif Require Import Model.Base Model.Variation Model.Cgp Spec.Variation Spec.Cgp Proofs.CgpDecode Proofs.CgpProps.

(** C43: the bounds that a decoder advertises say exactly that the genome is a block per node (a
    function number and sources among the inputs and the earlier layers within levels_back) followed
    by the output genes; there is one pair of bounds per gene. *)
Theorem C43_bounds_mean_feasible :
  forall V (d : decoder V), proper d ->
  length (bounds d) = num_genes d /\
  forall genome, within genome (bounds d) <-> exists nodes outs, layout d genome nodes outs /\ feasible d nodes outs.
Proof. intros V d Hd. split; [exact (bounds_length d Hd)|exact (within_iff d Hd)]. Qed.
Print Assumptions C43_bounds_mean_feasible.

(** C43: check_constraints returns the genome exactly when all genes are integers within the bounds,
    and raises ValueError otherwise. *)
Theorem C43_check_constraints :
  forall V (d : decoder V) genome,
  (forall g', check_constraints d genome = Ok g' <-> g' = genome /\ exists zs, genome = map GInt zs /\ within zs (bounds d)) /\
  (forall e, check_constraints d genome = Err e -> e = ValueError).
Proof. intros V d genome. split; [intros g'; exact (check_iff d genome g')|intros e; exact (check_error d genome e)]. Qed.
Print Assumptions C43_check_constraints.

(** C43: every genome within the bounds decodes, pruned or not, to the circuit of the feed-forward
    program it describes; pruning keeps exactly the nodes that some output needs. *)
Theorem C43_decodes :
  forall V (d : decoder V) prune genome nodes outs, proper d ->
  layout d genome nodes outs -> feasible d nodes outs ->
  exists prog g, program d (fun _ => []) nodes prog /\ decode d prune genome = Ok g /\ circuit_of d prune prog outs g.
Proof.
  intros V d prune genome nodes outs Hd Hl Hf.
  destruct (program_exists d Hd genome nodes outs (fun _ => []) Hl Hf) as (prog & Hp).
  destruct (decode_ok d Hd prune genome nodes outs prog Hl Hf Hp) as (g & E & Hc). exists prog, g. auto.
Qed.
Print Assumptions C43_decodes.

(** C43 for the decoder with numeric parameters: node j gets the j-th group of parameters. *)
Theorem C43_decodes_with_parameters :
  forall V (d : decoder V) np prune genome nodes outs pars, proper d ->
  layout d genome nodes outs -> feasible d nodes outs -> length pars = np * (c_layers d * c_width d) ->
  exists prog g, program d (fun j => firstn np (skipn (j * np) pars)) nodes prog /\
    decode_with_parameters d np prune genome pars = Ok g /\ circuit_of d prune prog outs g.
Proof.
  intros V d np prune genome nodes outs pars Hd Hl Hf Hn.
  destruct (program_exists d Hd genome nodes outs (fun j => firstn np (skipn (j * np) pars)) Hl Hf) as (prog & Hp).
  destruct (decode_params_ok d Hd np prune genome nodes outs pars prog Hl Hf Hn Hp) as (g & E & Hc). exists prog, g. auto.
Qed.
Print Assumptions C43_decodes_with_parameters.

(** C43: in the circuit of a feed-forward program every edge goes to a larger number, every output
    has exactly one source, every node has its function and as many inputs, in the right order, as
    the program says, and inputs have none. *)
Theorem C43_circuit_edges :
  forall V (g : graph V) ni prog outs, circuit g ni prog outs -> feed_forward ni prog outs ->
  (forall e, In e (g_edges g) -> (0 <= src e < dst e)%Z) /\
  (forall k o, nth_error outs k = Some o ->
     in_edges g (Z.of_nat (ni + length prog + k)) = [(o, Z.of_nat (ni + length prog + k), None)]) /\
  (forall j p srcs par, nth_error prog j = Some (p, srcs, par) ->
     g_fun g (Z.of_nat (ni + j)) = Some p /\ length (in_edges g (Z.of_nat (ni + j))) = length srcs /\
     sorted_inputs g (Z.of_nat (ni + j)) = srcs) /\
  (forall i, i < ni -> in_edges g (Z.of_nat i) = []).
Proof. exact @circuit_reading. Qed.
Print Assumptions C43_circuit_edges.

(** C43: a primitive whose arity is at most max_arity has that many inputs. *)
Theorem C43_arity :
  forall V (d : decoder V) params genome nodes outs prog, layout d genome nodes outs -> program d params nodes prog ->
  forall j p srcs par a, nth_error prog j = Some (p, srcs, par) -> p_arity p = Some a -> a <= c_arity d -> length srcs = a.
Proof. exact @program_arity. Qed.
Print Assumptions C43_arity.

(** What the constructor accepts is what the theorems assume. *)
Theorem C43_constructor :
  forall V (prims : list (prim V)) ni no nl w a back d, make_decoder prims ni no nl w a back = Ok d ->
  proper d /\ c_prims d = prims /\ c_inputs d = ni /\ c_outputs d = no /\ c_layers d = nl /\ c_width d = w /\ c_arity d = a.
Proof. exact @make_proper. Qed.
Print Assumptions C43_constructor.

(** Without levels_back a node may read every input and every node of every earlier layer; with it,
    [may_read] uses that number. *)
Theorem C43_levels_back :
  forall V (prims : list (prim V)) ni no nl w a back d, make_decoder prims ni no nl w a back = Ok d ->
  match back with
  | Some b => c_back d = b
  | None => forall layer s, layer < nl -> (may_read d layer s <-> (0 <= s < Z.of_nat (ni + layer * w))%Z)
  end.
Proof. exact @make_back. Qed.
Print Assumptions C43_levels_back.

(** Third layer, one node per layer, two inputs: the inputs, 0 and 1, and nodes 2 and 3; one level back only 3. *)
Example C43_levels_back_example :
  exists d d', make_decoder [ex_add] 2 1 3 1 2 None = Ok d /\ make_decoder [ex_add] 2 1 3 1 2 (Some 1%Z) = Ok d' /\
    may_read d 2 0%Z /\ ~ may_read d' 2 2%Z /\ may_read d' 2 3%Z.
Proof.
  eexists. eexists. split; [reflexivity|]. split; [reflexivity|]. unfold may_read. cbn. split; [|split].
  - split; [split; [discriminate|reflexivity]|]. intros _ H. elim H. reflexivity.
  - intros [_ H]. specialize (H (le_S _ _ (le_n 1)) ltac:(discriminate)). apply H. reflexivity.
  - split; [split; [discriminate|reflexivity]|]. intros _ _. discriminate.
Qed.

(** The constructor does not compare the primitives' arities with max_arity: a primitive of arity 2
    in a decoder with max_arity 1 gets one input, and the circuit of an in-bounds genome raises. *)
Theorem C43_large_arity_refuted :
  exists (d : decoder Z) genome g, make_decoder [ex_add] 1 1 1 1 1 None = Ok d /\ within genome (bounds d) /\
    decode d false genome = Ok g /\ length (in_edges g 1%Z) = 1 /\ p_arity ex_add = Some 2 /\
    forall o x, call g 1 1 o [x] = Err TypeError.
Proof.
  exists (mk_decoder [ex_add] 1 1 1 1 1 1%Z), [0; 0; 1]%Z. eexists. split; [reflexivity|].
  split; [repeat constructor; cbn; discriminate|]. split; [reflexivity|]. split; [reflexivity|]. split; [reflexivity|]. reflexivity.
Qed.
Print Assumptions C43_large_arity_refuted.

(** x + y - y with an unused node *)
Example C43_example :
  let d := ex_decoder [ex_add; ex_neg] in
  proper d /\ layout d ex_genome ex_nodes [4%Z] /\ feasible d ex_nodes [4%Z] /\
  num_genes d = length ex_genome /\
  bounds d = [(0, 1); (0, 1); (0, 1); (0, 1); (0, 1); (0, 1); (0, 1); (0, 3); (0, 3); (0, 1); (0, 3); (0, 3); (0, 5)]%Z /\
  match decode d true ex_genome with
  | Ok g => g_nodes g = [0; 1; 2; 3; 4; 5]%Z /\ length (g_edges g) = 6
  | Err _ => False
  end /\
  match decode d false ex_genome with
  | Ok g => g_nodes g = [0; 1; 2; 3; 4; 5; 6]%Z /\ length (g_edges g) = 7
  | Err _ => False
  end.
Proof.
  destruct (ex_setup ex_add ex_neg (fun _ => [])) as (H1 & H2 & H3 & _). repeat (split; [assumption|]).
  vm_compute. auto.
Qed.

(** C44: with primitives that always return, the pruned and the unpruned circuit both return the
    values of the program at its outputs, whatever is left over from earlier calls. *)
Theorem C44_pruning_preserves_outputs :
  forall V (d : decoder V) genome nodes outs prog input, proper d ->
  layout d genome nodes outs -> feasible d nodes outs -> program d (fun _ => []) nodes prog -> length input = c_inputs d ->
  (forall p, In p (c_prims d) -> forall args, exists v, p_call p args = Ok v) ->
  exists g g' vs, decode d false genome = Ok g /\ decode d true genome = Ok g' /\
    Forall2 (value (c_inputs d) prog input) outs vs /\
    forall o, (exists o', call g (c_inputs d) (c_outputs d) o input = Ok (o', vs)) /\
              (exists o', call g' (c_inputs d) (c_outputs d) o input = Ok (o', vs)).
Proof. exact @total_same. Qed.
Print Assumptions C44_pruning_preserves_outputs.

(** C44 with primitives that may raise: the pruned circuit returns exactly when the outputs have
    values, and returns those; whatever the unpruned circuit returns, the pruned one returns too. *)
Theorem C44_pruned_is_interpretation :
  forall V (d : decoder V) genome nodes outs prog input, proper d ->
  layout d genome nodes outs -> feasible d nodes outs -> program d (fun _ => []) nodes prog -> length input = c_inputs d ->
  exists g g', decode d false genome = Ok g /\ decode d true genome = Ok g' /\
    forall o vs,
      ((exists o', call g (c_inputs d) (c_outputs d) o input = Ok (o', vs)) ->
        Forall2 (value (c_inputs d) prog input) outs vs) /\
      ((exists o', call g' (c_inputs d) (c_outputs d) o input = Ok (o', vs)) <->
        Forall2 (value (c_inputs d) prog input) outs vs).
Proof. exact @any_pruned. Qed.
Print Assumptions C44_pruned_is_interpretation.

(** C44 with numeric parameters per node. *)
Theorem C44_with_parameters :
  forall V (d : decoder V) np genome nodes outs pars prog input, proper d ->
  layout d genome nodes outs -> feasible d nodes outs -> length pars = np * (c_layers d * c_width d) ->
  program d (fun j => firstn np (skipn (j * np) pars)) nodes prog -> length input = c_inputs d ->
  exists g g', decode_with_parameters d np false genome pars = Ok g /\ decode_with_parameters d np true genome pars = Ok g' /\
    forall o vs,
      ((exists o', call g (c_inputs d) (c_outputs d) o input = Ok (o', vs)) ->
        Forall2 (value (c_inputs d) prog input) outs vs) /\
      ((exists o', call g' (c_inputs d) (c_outputs d) o input = Ok (o', vs)) <->
        Forall2 (value (c_inputs d) prog input) outs vs).
Proof. exact @params_run. Qed.
Print Assumptions C44_with_parameters.

(** A primitive that raises in a node no output needs: the unpruned circuit raises, the pruned one
    returns. *)
Theorem C44_raising_primitive_refuted :
  exists (d : decoder Z) genome g g', make_decoder [ex_bad; ex_opp] 1 1 1 1 1 None = Ok d /\ within genome (bounds d) /\
    decode d false genome = Ok g /\ decode d true genome = Ok g' /\
    forall o x, call g 1 1 o [x] = Err (UserError 0) /\ exists o', call g' 1 1 o [x] = Ok (o', [x]).
Proof.
  exists (mk_decoder [ex_bad; ex_opp] 1 1 1 1 1 1%Z), [0; 0; 0]%Z. eexists. eexists. split; [reflexivity|].
  split; [repeat constructor; cbn; discriminate|]. split; [reflexivity|]. split; [reflexivity|].
  intros o x. split; [reflexivity|]. eexists. reflexivity.
Qed.
Print Assumptions C44_raising_primitive_refuted.

(** total primitives, and both circuits give x for inputs x = 7, y = 5 *)
Example C44_example :
  let d := ex_decoder [ex_sum; ex_opp] in
  proper d /\ layout d ex_genome ex_nodes [4%Z] /\ feasible d ex_nodes [4%Z] /\
  program d (fun _ => []) ex_nodes (ex_program ex_sum ex_opp (fun _ => [])) /\
  (forall p, In p (c_prims d) -> forall args, exists v, p_call p args = Ok v) /\
  forall prune, match decode d prune ex_genome with
  | Ok g => match call g 2 1 (fun _ => Some 99%Z) [7; 5]%Z with Ok (_, vs) => vs = [7%Z] | Err _ => False end
  | Err _ => False
  end.
Proof.
  destruct (ex_setup ex_sum ex_opp (fun _ => [])) as (H1 & H2 & H3 & H4). repeat (split; [assumption|]). split.
  - intros p [<- | [<- | []]] args; eexists; reflexivity.
  - intros [|]; vm_compute; reflexivity.
Qed.

(** one parameter per node, added to its sum *)
Example C44_parameters_example :
  let d := ex_decoder [ex_sum; ex_opp] in
  let pars := [100; 20; 3; 1]%Z in
  program d (fun j => firstn 1 (skipn (j * 1) pars)) ex_nodes (ex_program ex_sum ex_opp (fun j => firstn 1 (skipn (j * 1) pars))) /\
  forall prune, match decode_with_parameters d 1 prune ex_genome pars with
  | Ok g => match call g 2 1 (fun _ => None) [7; 5]%Z with Ok (_, vs) => vs = [90%Z] | Err _ => False end
  | Err _ => False
  end.
Proof.
  split; [apply (ex_setup ex_sum ex_opp)|]. intros [|]; vm_compute; reflexivity.
Qed.

(** C43: a gene of a primitive counts from the end of the primitives if it is negative, as Python indices do; the
    decoder only rejects the ones above *)
Theorem C43_primitive_ids :
  forall V (d : decoder V) genome layer node id,
  nth_error genome ((layer * c_width d + node) * (c_arity d + 1)) = Some id ->
  (forall p, get_primitive d genome layer node = Ok p <->
     exists k, nth_error (c_prims d) k = Some p /\ (id = Z.of_nat k \/ id = (Z.of_nat k - Z.of_nat (length (c_prims d)))%Z)) /\
  ((Z.of_nat (length (c_prims d)) <= id)%Z -> get_primitive d genome layer node = Err AssertionError) /\
  ((id < - Z.of_nat (length (c_prims d)))%Z -> get_primitive d genome layer node = Err IndexError).
Proof. exact @primitive_ids. Qed.
Print Assumptions C43_primitive_ids.

(** so a genome outside the bounds decodes, to a circuit with another primitive than any genome says *)
Theorem C43_rejects_out_of_bounds_refuted :
  exists (d : decoder Z) genome g, make_decoder [ex_sum; ex_opp] 2 1 2 2 2 None = Ok d /\ ~ within genome (bounds d) /\
    decode d false genome = Ok g /\ check_constraints d (map GInt genome) = Err ValueError.
Proof.
  exists (ex_decoder [ex_sum; ex_opp]), ((-1)%Z :: tl ex_genome). eexists. split; [vm_compute; reflexivity|]. split; [|split; vm_compute; reflexivity].
  intros H. inversion H as [|? ? ? ? B _]. cbn in B. destruct B as (B & _). apply B. reflexivity.
Qed.
Print Assumptions C43_rejects_out_of_bounds_refuted.

(** C44: a graph answers only if each of its output nodes, the last ones, has exactly one incoming edge *)
Theorem C44_outputs_have_one_source :
  forall V (g : graph V) ni no o input r, call g ni no o input = Ok r ->
  length input = ni /\
  forall k, k < no -> let n := Z.of_nat (ni + (length (g_nodes g) - ni - no) + k) in In n (g_nodes g) /\ exists e, in_edges g n = [e].
Proof. exact @outputs_have_one_source. Qed.
Print Assumptions C44_outputs_have_one_source.
Example C44_sources_example : exists g : graph Z, decode (ex_decoder [ex_sum; ex_opp]) false ex_genome = Ok g /\
  (exists r, call g 2 1 (fun _ => None) [7; 5]%Z = Ok r) /\
  call (mk_graph (g_nodes g) ((0%Z, 6%Z, None) :: g_edges g) (g_fun g) (g_par g)) 2 1 (fun _ => None) [7; 5]%Z = Err AssertionError.
Proof. eexists. split; [vm_compute; reflexivity|]. split; [eexists; vm_compute; reflexivity|]. vm_compute. reflexivity. Qed.

(** C45: whatever the draws, a new genome is within the bounds. *)
Theorem C45_initialised_in_bounds :
  forall V (d : decoder V) ds, proper d -> (1 <= c_back d)%Z -> num_genes d <= length ds ->
  exists g, create_cgp_vector d ds = Ok g /\ within g (bounds d).
Proof. intros V d ds Hd. exact (create_within d Hd ds). Qed.
Print Assumptions C45_initialised_in_bounds.

(** C45: with any valid rate a mutation returns, stays within the bounds and changes only drawn genes. *)
Theorem C45_mutation_in_bounds :
  forall V (d : decoder V) expected probability us ds g p, proper d -> (1 <= c_back d)%Z ->
  length us = length g -> length g <= length ds -> within g (bounds d) ->
  rate_is expected probability (length g) p -> (0 <= p)%Q -> (p <= 1)%Q ->
  exists g', cgp_mutate d expected probability us ds g = Ok g' /\ cgp_genome_mutate d expected probability us ds g = Ok g' /\
    within g' (bounds d) /\ changed_where (drawn us p) (fun _ _ _ => True) (fun _ x x' => x' = x) g g'.
Proof. intros V d expected probability us ds g p Hd. exact (mutate_returns d Hd expected probability us ds g p). Qed.
Print Assumptions C45_mutation_in_bounds.

(** C45: after initialisation and any number of mutations the genome is within the bounds and decodes
    to a circuit. *)
Theorem C45_histories_decode :
  forall V (d : decoder V) prune ds g g', proper d -> (1 <= c_back d)%Z -> num_genes d <= length ds ->
  create_cgp_vector d ds = Ok g -> cgp_history d g g' ->
  within g' (bounds d) /\
  exists nodes outs prog gr, layout d g' nodes outs /\ feasible d nodes outs /\ program d (fun _ => []) nodes prog /\
    decode d prune g' = Ok gr /\ circuit_of d prune prog outs gr.
Proof. exact @history_decodes. Qed.
Print Assumptions C45_histories_decode.

(** levels_back = 0, which the constructor accepts, leaves the second layer no sources: initialisation
    raises ValueError for all draws. *)
Theorem C45_levels_back_zero_refuted :
  exists d : decoder Z, make_decoder [ex_sum] 1 1 2 1 1 (Some 0%Z) = Ok d /\
    forall a b c e f ds, create_cgp_vector d (a :: b :: c :: e :: f :: ds) = Err ValueError.
Proof. eexists. split; [reflexivity|]. exact levels_zero. Qed.
Print Assumptions C45_levels_back_zero_refuted.

Example C45_example :
  let d := ex_decoder [ex_sum; ex_opp] in
  (1 <= c_back d)%Z /\ create_cgp_vector d [5; 4; 3; 7; 9; 2; 6; 2; 3; 1; 9; 8; 40]%Z = Ok [1; 0; 1; 1; 1; 0; 0; 2; 3; 1; 1; 0; 4]%Z /\
  cgp_mutate d None (Some (1 # 2)%Q) (repeat 0%Q 3 ++ repeat 1%Q 10) (repeat 3%Z 13) ex_genome =
    Ok [1; 1; 1; 1; 1; 0; 0; 2; 3; 1; 2; 2; 4]%Z.
Proof. vm_compute. auto. intuition discriminate. Qed.
