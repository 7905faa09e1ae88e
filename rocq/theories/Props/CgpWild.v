(** C103: Cartesian genetic programming on genomes of any integers. *)
From Verif Require Import Model.Base Model.Cgp Spec.Cgp Spec.CgpWild Proofs.CgpProps Proofs.CgpWild.

(** The constructor refuses exactly an empty list of primitives and zero sizes, with AssertionError. *)
Theorem C103_constructor :
  forall V (prims : list (prim V)) ni no nl w a back e,
  make_decoder prims ni no nl w a back = Err e <->
  e = AssertionError /\ (prims = [] \/ ni = 0 \/ no = 0 \/ nl = 0 \/ w = 0 \/ a = 0).
Proof. exact @constructor_refuses. Qed.
Print Assumptions C103_constructor.

(** Decoding, pruned or not: a genome of the wrong length raises AssertionError. A genome of the right
    length decodes when every function gene names a function, from the front or from the back; otherwise
    the first gene that does not decides: too large is an AssertionError, too small an IndexError. What
    the other genes say does not matter. *)
Theorem C103_decode :
  forall V (d : decoder V), proper d -> forall prune genome,
  (length genome <> num_genes d -> decode d prune genome = Err AssertionError) /\
  (length genome = num_genes d ->
    ((forall j, j < c_layers d * c_width d -> names_function d (function_gene d genome j)) -> exists g, decode d prune genome = Ok g) /\
    (forall j, j < c_layers d * c_width d -> (forall i, i < j -> names_function d (function_gene d genome i)) ->
       ((Z.of_nat (length (c_prims d)) <= function_gene d genome j)%Z -> decode d prune genome = Err AssertionError) /\
       ((function_gene d genome j < - Z.of_nat (length (c_prims d)))%Z -> decode d prune genome = Err IndexError))).
Proof. exact @decode_wild. Qed.
Print Assumptions C103_decode.

(** The decoder with parameters raises what the decoder without raises; otherwise exactly a wrong number
    of parameters is an AttributeError: the message looks up self.cgp_decoder, which does not exist. *)
Theorem C103_parameters :
  forall V (d : decoder V) np prune genome pars,
  (forall e, decode d prune genome = Err e -> decode_with_parameters d np prune genome pars = Err e) /\
  (forall g, decode d prune genome = Ok g ->
     (length pars <> np * c_width d * c_layers d -> decode_with_parameters d np prune genome pars = Err AttributeError) /\
     (length pars = np * c_width d * c_layers d -> exists g', decode_with_parameters d np prune genome pars = Ok g')).
Proof. exact @parameters_wild. Qed.
Print Assumptions C103_parameters.

(** The first call of the unpruned circuit of a genome whose function genes are in range and whose sources
    are any integers, with primitives that never raise: it returns one value per output when every node
    reads inputs and earlier nodes and every output these or earlier outputs, and raises KeyError
    otherwise. A wrong number of inputs is an AssertionError in any call. *)
Theorem C103_first_call :
  forall V (d : decoder V) genome nodes outs prog, proper d -> layout d genome nodes outs ->
  Forall (fun nd => 0 <= fst nd < Z.of_nat (length (c_prims d)))%Z nodes -> program d (fun _ => []) nodes prog -> never_raise (c_prims d) ->
  exists g, decode d false genome = Ok g /\
    (forall o input, length input <> c_inputs d -> call g (c_inputs d) (c_outputs d) o input = Err AssertionError) /\
    forall input, length input = c_inputs d ->
      (readable (c_inputs d) prog outs ->
         exists o' vs, call g (c_inputs d) (c_outputs d) (fun _ => None) input = Ok (o', vs) /\ length vs = c_outputs d) /\
      (~ readable (c_inputs d) prog outs -> call g (c_inputs d) (c_outputs d) (fun _ => None) input = Err KeyError).
Proof. exact wild_run. Qed.
Print Assumptions C103_first_call.

(** With primitives that may raise: the exception of the first node that raises is that of the call. *)
Theorem C103_first_exception :
  forall V (d : decoder V) genome nodes outs prog input, proper d -> layout d genome nodes outs -> feasible d nodes outs ->
  program d (fun _ => []) nodes prog -> length input = c_inputs d ->
  exists g, decode d false genome = Ok g /\
  forall o j p srcs par args e, (forall i, i < j -> exists v, value (c_inputs d) prog input (Z.of_nat (c_inputs d + i)) v) ->
    nth_error prog j = Some (p, srcs, par) -> Forall2 (value (c_inputs d) prog input) srcs args -> p_call p (args ++ par) = Err e ->
    call g (c_inputs d) (c_outputs d) o input = Err e.
Proof. exact raising_run. Qed.
Print Assumptions C103_first_exception.

(** Two nodes per layer; the first node reads its neighbour, which is computed later. The second node's
    source 7, a number nobody has, is harmless: its function takes one argument. As an output it is not. *)
Example C103_example :
  let d := ex_decoder wild_prims in
  proper d /\ layout d wild_genome wild_nodes [4%Z] /\ never_raise (c_prims d) /\
  (exists prog, program d (fun _ => []) wild_nodes prog /\ ~ readable 2 prog [4%Z]) /\
  match decode d false wild_genome with
  | Ok g => call g 2 1 (fun _ => None) [1; 2]%Z = Err KeyError /\ call g 2 1 (fun _ => None) [1]%Z = Err AssertionError
  | Err _ => False
  end /\
  match decode d false [0; 0; 1; 1; 1; 7; 0; 2; 3; 1; 2; 2; 4]%Z with
  | Ok g => match call g 2 1 (fun _ => None) [1; 2]%Z with Ok (_, vs) => vs = [1]%Z | Err _ => False end
  | Err _ => False
  end /\
  match decode d false [0; 0; 1; 1; 1; 7; 0; 2; 3; 1; 2; 2; 7]%Z with
  | Ok g => call g 2 1 (fun _ => None) [1; 2]%Z = Err KeyError
  | Err _ => False
  end /\
  decode d false [0; 0; 1; 2; 1; 7; -3; 2; 3; 1; 2; 2; 4]%Z = Err AssertionError /\
  decode d false [0; 0; 1; -3; 1; 7; 2; 2; 3; 1; 2; 2; 4]%Z = Err IndexError.
Proof.
  intros d. split; [split; [discriminate|cbn; repeat split; auto with arith]|].
  split; [split; [reflexivity|split; [reflexivity|split; [repeat constructor|reflexivity]]]|].
  split; [intros p [<-|[<-|[]]] args; eexists; reflexivity|].
  split.
  { exists [(ex_sum, [0; 3], []); (ex_opp, [1], []); (ex_sum, [2; 3], []); (ex_opp, [2], [])]%Z. split.
    - split; [reflexivity|]. intros [|[|[|[|j]]]] nd; cbn; intros E; try (injection E as <-; eexists; split; reflexivity). destruct j; discriminate.
    - intros [H _]. specialize (H 0 _ _ _ eq_refl). inversion H as [|? ? _ F]. inversion F as [|? ? [_ K] _]. discriminate. }
  vm_compute. repeat split.
Qed.
