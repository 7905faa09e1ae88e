(** C114: CGP genomes with a segment of parameters, from their creation to their execution. *)
From Verif Require Import Model.Base Model.Segmented Model.SegMutate Model.Cgp Model.CgpParams Model.Transfer.
From Verif Require Import Spec.Segmented Spec.Cgp Spec.CgpParams Proofs.CgpProps Proofs.CgpParams.
Local Open Scope nat_scope.
Local Open Scope list_scope.

(** However often it is mutated and copied, the genome keeps its two segments, stays within the bounds and decodes to the
    circuit of the program that it describes; and it can always be mutated once more. *)
Theorem C114_whole_life :
  forall V (val : cell -> V) (d : decoder V) np prune ds us low high segments st x st' x',
  proper d -> (1 <= c_back d)%Z -> num_genes d <= length ds -> (low <= high)%Q ->
  length us = np * (c_layers d * c_width d) -> Forall (fun u => 0 <= u /\ u <= 1)%Q us ->
  initialize_with_parameters d ds (Ok (create_real_vector (repeat (low, high) (np * (c_layers d * c_width d))) us)) = Ok segments ->
  seg_sane st x -> NoDup (sg_genome x) -> contents st x = segments -> life d (np * (c_layers d * c_width d)) low high st x st' x' ->
  (exists c p nodes outs prog g, contents st' x' = [map inl c; map inr p] /\ within c (bounds d) /\ length p = np * (c_layers d * c_width d) /\
    Forall (fun q => low <= q /\ q <= high)%Q p /\ layout d c nodes outs /\ feasible d nodes outs /\
    program d (params_of np (map val (map inr p))) nodes prog /\
    decode_segments val d np prune (contents st' x') = Ok g /\ circuit_of d prune prog outs g) /\
  forall ms, sound_turn d (np * (c_layers d * c_width d)) low high ms ->
    exists st2 x2, segmented_mutate ms st' x' = (st2, x2, Ok tt) /\ sg_fitness x2 = None.
Proof. exact @whole_life. Qed.
Print Assumptions C114_whole_life.

(** Whatever the draws, initialize makes a circuit within the bounds and takes the parameters as they are. *)
Theorem C114_initialize :
  forall V (d : decoder V) ds pars, proper d -> (1 <= c_back d)%Z -> num_genes d <= length ds ->
  exists c, within c (bounds d) /\ initialize_with_parameters d ds (Ok pars) = Ok [map inl c; map inr pars].
Proof. exact @initialize_total. Qed.
Print Assumptions C114_initialize.

(** Parameters of nodes that no output depends on are neutral: whatever they are, the decoded circuit answers the same, and
    raises on the same inputs. *)
Theorem C114_unread_parameters :
  forall V (d : decoder V) np genome nodes outs pars pars' prog input, proper d ->
  layout d genome nodes outs -> feasible d nodes outs ->
  length pars = np * (c_layers d * c_width d) -> length pars' = np * (c_layers d * c_width d) ->
  program d (params_of np pars) nodes prog -> same_where_needed (c_inputs d) np prog outs pars pars' -> length input = c_inputs d ->
  exists g g', decode_with_parameters d np true genome pars = Ok g /\ decode_with_parameters d np true genome pars' = Ok g' /\
    forall o vs, (exists o', call g (c_inputs d) (c_outputs d) o input = Ok (o', vs)) <-> (exists o', call g' (c_inputs d) (c_outputs d) o input = Ok (o', vs)).
Proof. exact @unread_parameters. Qed.
Print Assumptions C114_unread_parameters.

(** A genome that has not two segments is refused. *)
Theorem C114_two_segments :
  forall V (val : cell -> V) (d : decoder V) np prune segments, length segments <> 2 ->
  decode_segments val d np prune segments = Err AssertionError.
Proof. exact @segments_refused. Qed.
Print Assumptions C114_two_segments.

(** The bounds of the parameters hold only because nobody shares the array: genome_mutate_gaussian leaves the numbers it has not
    clipped in the array it was given, and returns a clipped copy. *)
Theorem C114_shared_array_refuted :
  exists (ms : list (smutator cell)) st x y st' x' p, sound_turn (ex_decoder [ex_sum; ex_opp]) 4 0 255 ms /\ sg_genome y = sg_genome x /\
  nth 1 (contents st y) [] = map inr p /\ Forall (fun q => 0 <= q /\ q <= 255)%Q p /\ segmented_mutate ms st x = (st', x', Ok tt) /\
  exists p', nth 1 (contents st' y) [] = map inr p' /\ ~ Forall (fun q => 0 <= q /\ q <= 255)%Q p'.
Proof. exact shared_array. Qed.
Print Assumptions C114_shared_array_refuted.

(** one turn: a gene of the circuit is redrawn; the first parameter would become 100 + 6 * 50 and is clipped; the circuit still runs *)
Example C114_example :
  sound_turn (ex_decoder [ex_sum; ex_opp]) 4 0 255 ex_turn /\
  let '(st, x, r) := segmented_mutate ex_turn ex_store (mk_sind [0; 1] (Some (NInt 7))) in
  r = Ok tt /\ contents st x = [map inl (1%Z :: tl ex_genome); map inr [255; 20; 3; 1]%Q] /\ sg_fitness x = None /\ s_seg st 1 <> nth 1 (contents st x) [] /\
  match decode_segments val_z (ex_decoder [ex_sum; ex_opp]) 1 true (contents st x) with
  | Ok g => match call g 2 1 (fun _ => None) [7; 5]%Z with Ok (_, vs) => vs = [-284]%Z | Err _ => False end
  | Err _ => False
  end.
Proof. split; [exact ex_turn_sound|]. vm_compute. repeat split; discriminate. Qed.
(** the fourth node is not needed: its parameter may be anything *)
Example C114_unread_example :
  match decode_with_parameters (ex_decoder [ex_sum; ex_opp]) 1 true ex_genome [100; 20; 3; 1]%Z,
        decode_with_parameters (ex_decoder [ex_sum; ex_opp]) 1 true ex_genome [100; 20; 3; 77]%Z with
  | Ok g, Ok g' => match call g 2 1 (fun _ => None) [7; 5]%Z, call g' 2 1 (fun _ => None) [7; 5]%Z with
                   | Ok (_, vs), Ok (_, vs') => vs = vs' /\ vs = [90]%Z
                   | _, _ => False
                   end
  | _, _ => False
  end.
Proof. vm_compute. split; reflexivity. Qed.
