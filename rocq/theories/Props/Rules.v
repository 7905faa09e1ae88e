(** C49, C55: Pitt rule systems. *)
From Coq Require Import Lia.
From Verif Require Import Model.Base Model.Rules Spec.Rules Proofs.Rules Proofs.RulesNan.

(** C49: whatever the draw, the rule fired is a nearest one, and the first exactly matching one if there
    is one. *)
Theorem C49_fires_a_nearest_rule :
  forall rules boxes k e xs d,
  0 < k -> make_executable k rules (Some RULE_ORDER) [] = Ok e -> boxes_of (length xs) k rules boxes ->
  exists w rl D out, nth_error rules w = Some rl /\ nearest boxes xs w D /\
    call e (map Some xs) d = Ok out /\ presents (actions rl) out /\
    ((D == 0)%Q -> forall i E, nearest boxes xs i E -> w <= i).
Proof. exact call_nearest. Qed.
Print Assumptions C49_fires_a_nearest_rule.

(** C49: without an exact match every nearest rule can be fired. *)
Theorem C49_every_nearest_rule_can_fire :
  forall rules boxes k e xs w D,
  0 < k -> make_executable k rules (Some RULE_ORDER) [] = Ok e -> boxes_of (length xs) k rules boxes ->
  nearest boxes xs w D -> ~ (D == 0)%Q ->
  exists rl d out, nth_error rules w = Some rl /\ call e (map Some xs) d = Ok out /\ presents (actions rl) out.
Proof. exact call_any_nearest. Qed.
Print Assumptions C49_every_nearest_rule_can_fire.

(** A NaN gene in the first rule makes it fire for every input, exact matches notwithstanding. *)
Theorem C49_nan_gene_refuted :
  exists rules e, make_executable 1 rules (Some RULE_ORDER) [] = Ok e /\
    (exists rl, nth_error rules 1 = Some rl /\ match_score (conditions rl) [Some 0%Q] (Some 0%Q) = Ok (Some 0%Q) /\ actions rl = [Some 1%Q]) /\
    forall d, call e [Some 0%Q] d = Ok (One 7).
Proof.
  exists [mk_rule [(None, None)] [Some 7%Q]; mk_rule [(Some 0%Q, Some 0%Q)] [Some 1%Q]]. eexists.
  split; [reflexivity|]. split; [eexists; split; [reflexivity|split; reflexivity]|]. intros d.
  unfold call. cbn -[Nat.modulo]. rewrite Nat.mod_1_r. reflexivity.
Qed.
Print Assumptions C49_nan_gene_refuted.

(** C49 with NaN anywhere among genes and input: if the first rule's distance is NaN it fires; otherwise rules with
    NaN distance are passed over, and the rest is as without them. *)
Theorem C49_with_nan :
  forall rules k e xs, 0 < k -> make_executable k rules (Some RULE_ORDER) [] = Ok e ->
  Forall (fun rl => length xs <= length (conditions rl) /\ length (actions rl) = k) rules ->
  (rule_reads rules xs 0 None -> forall d, exists rl out, nth_error rules 0 = Some rl /\ call e xs d = Ok out /\ presents (actions rl) out) /\
  (forall D0, rule_reads rules xs 0 (Some D0) ->
    (forall d, exists w D rl out, rule_reads rules xs w (Some D) /\ (forall i E, rule_reads rules xs i (Some E) -> D <= E)%Q /\
      nth_error rules w = Some rl /\ call e xs d = Ok out /\ presents (actions rl) out /\
      ((D == 0)%Q -> forall i E, rule_reads rules xs i (Some E) -> (E == 0)%Q -> w <= i)) /\
    (forall w D, rule_reads rules xs w (Some D) -> (forall i E, rule_reads rules xs i (Some E) -> D <= E)%Q -> ~ (D == 0)%Q ->
      exists d rl out, nth_error rules w = Some rl /\ call e xs d = Ok out /\ presents (actions rl) out)).
Proof. exact call_with_nan. Qed.
Print Assumptions C49_with_nan.

(** the second rule hears nothing; a NaN input is matched by the empty interval only *)
Example C49_nan_example :
  let rules := [mk_rule [(Some 5, Some 6)] [Some 1]; mk_rule [(None, Some 9)] [Some 2]; mk_rule [(Some 2, None)] [Some 3]]%Q in
  (match make_executable 1 rules (Some RULE_ORDER) [] with
   | Ok e => map (fun x => call e [Some x] 0) [6; 3; 4]%Q = [Ok (One 1); Ok (One 3); Ok (One 1)] | Err _ => False end) /\
  rule_reads rules [Some 3%Q] 0 (Some 4%Q) /\ rule_reads rules [Some 3%Q] 1 None /\ rule_reads rules [Some 3%Q] 2 (Some 1%Q) /\
  (match make_executable 1 [mk_rule [(Some 6, Some 5)] [Some 8]; mk_rule [(Some 0, Some 5)] [Some 9]]%Q (Some RULE_ORDER) [] with
   | Ok e => call e [None] 3 = Ok (One 8) | Err _ => False end).
Proof. exact nan_example. Qed.

(** Three rules over two inputs; for the first point the second and third match exactly (the third by an
    empty interval), for the second point only the third, for the last one the first two tie. *)
Example C49_example :
  let boxes := [[(0, 1); (0, 1)]; [(2, 3); (0, 1)]; [(5, 4); (3, 9)]]%Q in
  let acts := [[Some (1 # 2); Some 1]; [Some (3 # 2); Some 2]; [Some (5 # 2); Some 3]]%Q in
  let rules := map (fun '(b, a) => mk_rule (map real_pair b) a) (combine boxes acts) in
  boxes_of 2 2 rules boxes /\
  exists e, make_executable 2 rules (Some RULE_ORDER) [] = Ok e /\
    (forall d, call e [Some 2%Q; Some 1%Q] d = Ok (Many [2; 2]%Z)) /\
    (forall d, call e [Some 9%Q; Some 3%Q] d = Ok (Many [2; 3]%Z)) /\
    map (call e [Some (3 # 2); Some 0]%Q) [0; 1] = [Ok (Many [0; 1]%Z); Ok (Many [2; 2]%Z)].
Proof.
  cbn zeta. split; [repeat (constructor; [split; [reflexivity|split; [cbn; lia|reflexivity]]|]); constructor|].
  eexists. split; [reflexivity|].
  split; [intros d; unfold call; cbn -[Nat.modulo]; rewrite Nat.mod_1_r; reflexivity|].
  split; [intros d; unfold call; cbn -[Nat.modulo]; rewrite Nat.mod_1_r; reflexivity|].
  vm_compute. reflexivity.
Qed.
Example C49_nearest_example : nearest [[(0, 1)]]%Q [3]%Q 0 4%Q.
Proof. exact nearest_example. Qed.

(** C55: for a decoder without memory exactly the non-empty genomes whose segments have two genes per
    input and one per output decode, each segment to the rule laid out in it; others fail an assertion. *)
Theorem C55_decodes :
  forall dc g, dec_memory dc = 0 -> 0 < num_outputs dc ->
  (g <> [] /\ Forall (fun seg => length seg = num_inputs dc * 2 + num_outputs dc) g ->
   exists rules, genome_to_rules dc g = Ok rules /\
     Forall2 (fun seg rl => lays_out (num_inputs dc) seg rl /\ length (actions rl) = num_outputs dc) g rules) /\
  (~ (g <> [] /\ Forall (fun seg => length seg = num_inputs dc * 2 + num_outputs dc) g) ->
   genome_to_rules dc g = Err AssertionError).
Proof. intros dc g Hm Ho. exact (genome_to_rules_spec dc Hm Ho g). Qed.
Print Assumptions C55_decodes.

(** C55: the decoded executable answers every input of the right length. *)
Theorem C55_decoded_is_total :
  forall dc g xs d, dec_memory dc = 0 -> 0 < num_outputs dc ->
  (dec_metric dc = None \/ dec_metric dc = Some RULE_ORDER) ->
  g <> [] -> Forall (fun seg => length seg = num_inputs dc * 2 + num_outputs dc) g ->
  Forall (Forall (fun x : gene => x <> None)) g -> length xs = num_inputs dc ->
  exists e out, decode dc g = Ok e /\ call e (map Some xs) d = Ok out.
Proof. exact decode_call. Qed.
Print Assumptions C55_decoded_is_total.

(** C55: initial genomes decode and lie within the decoder's bounds (one-dimensional input spaces). *)
Theorem C55_initial_genomes :
  forall dc n samples, dec_memory dc = 0 -> dec_out dc = Discrete n ->
  Forall (fun '(low, high, act) => sample_of (dec_bounds dc) low /\ sample_of (dec_bounds dc) high /\
            gene_in act (Fin 0, Fin (inject_Z (Z.of_nat n - 1)))) samples ->
  exists g bs, create_rule_set dc samples = Ok g /\ bounds dc (length samples) = Ok bs /\
    Forall2 (Forall2 gene_in) g bs /\
    Forall (fun seg => length seg = num_inputs dc * 2 + num_outputs dc) g.
Proof. exact create_rule_set_spec. Qed.
Print Assumptions C55_initial_genomes.

(** With a two-dimensional input space the initial genes are in another order than the bounds. *)
Theorem C55_initial_genomes_matrix_refuted :
  exists dc low high act seg bs, dec_memory dc = 0 /\ dec_out dc = Discrete 2 /\
    Forall2 gene_in (concat low) (dec_bounds dc) /\ Forall2 gene_in (concat high) (dec_bounds dc) /\
    gene_in act (Fin 0, Fin 1) /\
    create_rule dc low high act = Ok seg /\ bounds dc 1 = Ok [bs] /\ ~ Forall2 gene_in seg bs.
Proof. exact matrix_refuted. Qed.
Print Assumptions C55_initial_genomes_matrix_refuted.

(** C55: mutation applies the condition mutator to the condition genes and the action mutator to the
    action genes of every rule, keeps the genome decodable and resets the fitness. *)
Theorem C55_mutation :
  forall dc cm am g fitness, dec_memory dc = 0 -> 0 < num_outputs dc ->
  Forall (fun seg => length seg = num_inputs dc * 2 + num_outputs dc) g ->
  (forall k l, length l = num_inputs dc * 2 -> exists l', cm k l = Ok l' /\ length l' = length l) ->
  (forall k l, length l = num_outputs dc -> exists l', am k l = Ok l' /\ length l' = length l) ->
  exists g', ruleset_mutate dc cm am g fitness = Ok (g', None) /\ length g' = length g /\
    Forall (fun seg => length seg = num_inputs dc * 2 + num_outputs dc) g' /\
    forall i seg, nth_error g i = Some seg -> exists c a, nth_error g' i = Some (c ++ a) /\
      cm i (firstn (num_inputs dc * 2) seg) = Ok c /\ am i (skipn (num_inputs dc * 2) seg) = Ok a.
Proof. exact ruleset_mutate_spec. Qed.
Print Assumptions C55_mutation.

(** With a memory space no genome decodes: the segment length counts memory twice, _split_rule once. *)
Theorem C55_memory_never_decodes :
  forall dc g, 0 < dec_memory dc -> genome_to_rules dc g = Err AssertionError.
Proof. exact memory_never. Qed.
Print Assumptions C55_memory_never_decodes.

(** nor does anything without outputs (an empty Box) *)
Theorem C55_no_outputs_never_decodes :
  forall dc genome, num_outputs dc = 0 -> dec_memory dc = 0 -> 0 < num_inputs dc -> decode dc genome = Err AssertionError.
Proof. exact no_outputs. Qed.
Print Assumptions C55_no_outputs_never_decodes.
Example C55_no_outputs_example :
  let dc := mk_decoder [(Fin 0, Fin 1)]%Q (OBox 0) 0 None in
  num_outputs dc = 0 /\ num_inputs dc = 1 /\ num_genes_per_rule dc = 2 /\ decode dc [[Some 0; Some 1]]%Q = Err AssertionError.
Proof. repeat split. Qed.

Example C55_example :
  let dc := mk_decoder [(Fin 0, Fin 1); (MInf, PInf)]%Q (Discrete 3) 0 None in
  let samples := [([[Some 0]; [Some 7]], [[Some 1]; [Some (-3)]], Some 2);
                  ([[Some 1]; [Some 0]], [[Some 0]; [Some 0]], Some 0)]%Q in
  let g := [[Some 0; Some 1; Some 7; Some (-3); Some 2]; [Some 1; Some 0; Some 0; Some 0; Some 0]]%Q in
  let cm := fun k (l : list gene) => Ok (rev l) in
  let am := fun k (l : list gene) => Ok (repeat (Some 1%Q) (length l)) in
  create_rule_set dc samples = Ok g /\
  Forall (fun '(low, high, act) => sample_of (dec_bounds dc) low /\ sample_of (dec_bounds dc) high /\
            gene_in act (Fin 0, Fin (inject_Z (Z.of_nat 3 - 1)))) samples /\
  genome_to_rules dc g = Ok [mk_rule [(Some 0, Some 1); (Some 7, Some (-3))] [Some 2];
                             mk_rule [(Some 1, Some 0); (Some 0, Some 0)] [Some 0]]%Q /\
  ruleset_mutate dc cm am g (Some (NInt 4)) =
    Ok ([[Some (-3); Some 7; Some 1; Some 0; Some 1]; [Some 0; Some 0; Some 0; Some 1; Some 1]]%Q, None).
Proof.
  cbn zeta. split; [reflexivity|]. split; [exact samples_example|]. split; reflexivity.
Qed.
