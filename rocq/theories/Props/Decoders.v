(** C25, C26, C27: binary decoders. *)
From Verif Require Import Model.Base Model.Decoders Spec.Decoders Proofs.Decoders.
From Coq Require Import Lia Lqa.
Local Open Scope Z_scope.

(** C25. *)
Theorem C25_segments_decode_to_their_value :
  forall ds history g ps,
  Forall (fun d => 1 <= d <= 63)%nat ds -> bits g -> pieces ds g ps ->
  fst (decode_int ds (decoder_history ds history) g) = Ok (map big_endian ps).
Proof. exact decode_int_spec. Qed.
Print Assumptions C25_segments_decode_to_their_value.

Theorem C25_one_segment_bijective :
  forall history n, (1 <= n <= 63)%nat ->
  injective_onto big_endian n /\
  forall g, bits g -> length g = n -> fst (decode_int [n] (decoder_history [n] history) g) = Ok [big_endian g].
Proof. exact one_segment. Qed.
Print Assumptions C25_one_segment_bijective.

(** the hypothesis [pieces] can be met whenever the genome is long enough *)
Theorem C25_pieces_exist :
  forall ds g, (fold_right Nat.add 0 ds <= length g)%nat -> exists ps, pieces ds g ps.
Proof. exact pieces_exist. Qed.
Print Assumptions C25_pieces_exist.

(** SegmentedDecoder applies one decoder object to all segments; the results do not influence each other *)
Theorem C25_segmented_decoder :
  forall ds genome split, Forall (fun d => 1 <= d <= 63)%nat ds -> Forall bits genome ->
  (forall g, In g genome -> pieces ds g (split g)) ->
  fst (decode_segmented (decode_int ds) None genome) = Ok (map (fun g => map big_endian (split g)) genome).
Proof. exact segmented_int. Qed.
Print Assumptions C25_segmented_decoder.

Example C25_example :
  pieces [4; 3]%nat [0; 0; 0; 1; 1; 1; 0] [[0; 0; 0; 1]; [1; 1; 0]] /\ bits [0; 0; 0; 1; 1; 1; 0] /\
  fst (decode_int [4; 3]%nat None [0; 0; 0; 1; 1; 1; 0]) = Ok [1; 6] /\
  fst (decode_int [4; 3]%nat (decoder_history [4; 3]%nat [[1; 1; 1; 1; 1]; [0]]) [0; 0; 0; 1; 1; 1; 0]) = Ok [1; 6].
Proof.
  split; [apply (pieces_cons _ _ [0; 0; 0; 1] [1; 1; 0]); auto; apply (pieces_cons _ _ [1; 1; 0] []); auto; constructor|].
  split; [unfold bits; repeat (apply Forall_cons; [auto|]); apply Forall_nil|]. vm_compute. auto.
Qed.

(** An empty segment decodes to 0 the first time and raises the second time: powers_2[-0:] is the whole
    cached table. *)
Theorem C25_empty_segment_depends_on_history_refuted :
  exists ds g, bits g /\ (exists ps, pieces ds g ps) /\
  fst (decode_int ds None g) = Ok [0; 1] /\
  fst (decode_int ds (decoder_history ds [g]) g) = Err ValueError.
Proof.
  exists [0%nat; 1%nat], [1]. split; [unfold bits; repeat (apply Forall_cons; [auto|]); apply Forall_nil|].
  split; [exists [[]; [1]]; apply (pieces_cons _ _ [] [1]); auto; apply (pieces_cons _ _ [1] []); auto; constructor|].
  vm_compute. auto.
Qed.
Print Assumptions C25_empty_segment_depends_on_history_refuted.

(** 64 bits overflow int64 *)
Theorem C25_long_segment_overflows_refuted :
  exists g, bits g /\ length g = 64%nat /\ fst (decode_int [64%nat] None g) = Ok [-1].
Proof.
  exists (repeat 1 64). split; [apply Forall_forall; intros x Hx; apply repeat_spec in Hx; auto|].
  split; [reflexivity|]. vm_compute. reflexivity.
Qed.
Print Assumptions C25_long_segment_overflows_refuted.

(** C26. *)
Theorem C26_segments_decode_to_their_gray_value :
  forall ds history g ps,
  Forall (fun d => 1 <= d <= 63)%nat ds -> bits g -> pieces ds g ps ->
  fst (decode_gray ds (decoder_history ds history) g) = Ok (map gray_value ps).
Proof. exact decode_gray_spec. Qed.
Print Assumptions C26_segments_decode_to_their_gray_value.

Theorem C26_gray_code :
  forall history n, (1 <= n <= 63)%nat ->
  injective_onto gray_value n /\
  (forall a b, bits a -> bits b -> length a = n -> length b = n -> gray_value b = gray_value a + 1 ->
     distance a b = 1%nat) /\
  forall g, bits g -> length g = n -> fst (decode_gray [n] (decoder_history [n] history) g) = Ok [gray_value g].
Proof. exact one_gray_segment. Qed.
Print Assumptions C26_gray_code.

Example C26_example :
  fst (decode_gray [4; 4; 4]%nat None [0; 0; 0; 1; 1; 1; 0; 0; 0; 1; 1; 0]) = Ok [1; 8; 4] /\
  map gray_value [[0; 0]; [0; 1]; [1; 1]; [1; 0]] = [0; 1; 2; 3].
Proof. vm_compute. auto. Qed.

(** the loop never ends on a negative number, hence on a 64-bit segment that overflows *)
Theorem C26_loop_on_negative_numbers :
  forall fuel num, num < 0 -> gray_loop fuel num (Z.shiftr num 1) = None.
Proof.
  intros. apply gray_loop_negative. rewrite shiftr1. apply Z.div_lt_upper_bound; lia.
Qed.
Print Assumptions C26_loop_on_negative_numbers.

(** C27. *)
Theorem C27_real_segment :
  forall gray history n lower upper, (1 <= n <= 63)%nat -> (lower <= upper)%Q ->
  let value := if gray : bool then gray_value else big_endian in
  exists real : Z -> Q,
  (forall g, bits g -> length g = n ->
     fst (decode_real gray [(n, lower, upper)] (decoder_history [n] history) g) = Ok [Some (real (value g))] /\
     (lower <= real (value g) /\ real (value g) <= upper)%Q) /\
  (real 0%Z == lower)%Q /\ (real (2 ^ Z.of_nat n - 1)%Z == upper)%Q /\
  (forall v w : Z, v <= w -> (real v <= real w)%Q) /\
  (forall v w, (real (v + 1)%Z - real v == real (w + 1)%Z - real w)%Q).
Proof. exact one_real_segment. Qed.
Print Assumptions C27_real_segment.

(** all segments at once: every value is lower + v * (upper - lower) / (2^n - 1) for its own segment *)
Theorem C27_all_segments :
  forall gray segments history g ps,
  Forall (fun s => 1 <= fst (fst s) <= 63)%nat segments -> bits g ->
  pieces (map (fun s => fst (fst s)) segments) g ps ->
  exists xs,
    fst (decode_real gray segments (decoder_history (map (fun s => fst (fst s)) segments) history) g) = Ok (map Some xs) /\
    Forall2 (fun sp x => ((x - snd (fst (fst sp))) * inject_Z (2 ^ Z.of_nat (length (snd sp)) - 1)
                          == inject_Z ((if gray then gray_value else big_endian) (snd sp))
                             * (snd (fst sp) - snd (fst (fst sp))))%Q)
            (combine segments ps) xs.
Proof. exact decode_real_spec. Qed.
Print Assumptions C27_all_segments.

(** the integer values of the extreme segments *)
Theorem C27_extreme_segments :
  forall n, big_endian (repeat 0 n) = 0 /\ big_endian (repeat 1 n) = 2 ^ Z.of_nat n - 1 /\
            gray_value (repeat 0 n) = 0.
Proof. intros n. split; [apply be_zeros|]. split; [apply be_ones|apply gray_zeros]. Qed.
Print Assumptions C27_extreme_segments.

Example C27_example :
  match fst (decode_real false [(4%nat, -512 # 100, 512 # 100)%Q; (4%nat, -512 # 100, 512 # 100)%Q] None
                         [0; 0; 0; 0; 1; 1; 1; 1]) with
  | Ok [Some x; Some y] => (x == -512 # 100)%Q /\ (y == 512 # 100)%Q
  | _ => False
  end /\
  match fst (decode_real true [(4%nat, -512 # 100, 512 # 100)%Q; (4%nat, -512 # 100, 512 # 100)%Q] None
                         [0; 0; 0; 0; 1; 1; 1; 1]) with
  | Ok [Some x; Some y] => (x == -512 # 100)%Q /\ (y == 128 # 75)%Q
  | _ => False
  end.
Proof. split; [vm_compute; auto|]. vm_compute. auto. Qed.
