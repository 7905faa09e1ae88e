(** C26, C99: Gray decoding that never returns, and what a run scores with the subpopulations of an earlier one. *)
From Verif Require Import Model.Base Model.Counters Model.Problems Model.Decoders Model.CoopRun Spec.Decoders Spec.CoopRun Proofs.Endless.

(** RuntimeError stands for a loop that does not end: that happens exactly when some segment decodes to a negative number *)
Theorem C26_endless_exactly : forall descriptors c genome,
  fst (decode_gray descriptors c genome) = Err RuntimeError <->
  exists vs v, fst (decode_int descriptors c genome) = Ok vs /\ In v vs /\ (v < 0)%Z.
Proof. exact gray_endless. Qed.
Print Assumptions C26_endless_exactly.

(** with a segment of 64 bits that is every genome with a 1 in front, half of them; the others decode as they should *)
Theorem C26_endless_on_half : forall history b l,
  bits (b :: l) -> length l = 63 ->
  fst (decode_gray [64] (decoder_history [64] history) (b :: l)) = if (b =? 0)%Z then Ok [gray_value (b :: l)] else Err RuntimeError.
Proof. exact gray_half. Qed.
Print Assumptions C26_endless_on_half.

Example C26_endless_example :
  fst (decode_gray [3; 64] None ([1; 0; 1] ++ 1 :: repeat 0 63)%Z) = Err RuntimeError /\
  fst (decode_gray [3; 64] None ([1; 0; 1] ++ 0 :: repeat 1 63)%Z) = Ok [6; 6148914691236517205]%Z.
Proof. vm_compute. split; reflexivity. Qed.

(** the k-th member of the i-th new subpopulation is scored in the slot [current] of the subpopulations found in the context,
    with collaborators chosen from those; not with its own *)
Theorem C99_left_over_scores :
  forall G pick mutate uuid sel num_trials size combine score chunk max_generations stop
    (subpops created final : list (list (member G))) current gc evss, (max_generations <= 0)%Z ->
  coop_problem_run_default pick mutate uuid sel num_trials size combine score chunk max_generations stop (Some (subpops, current)) created =
    Some (Ok final, gc, evss) ->
  length final = length created /\
  forall i pop, nth_error created i = Some pop -> exists pop', nth_error final i = Some pop' /\ length pop' = length pop /\
  forall k m, nth_error pop k = Some m ->
    exists f, nth_error pop' k = Some (mk_member (m_ind m) (Some f)) /\
      coop_evaluate (sel 0 i k (map (map m_fit) subpops)) combine score false num_trials (m_ind m)
        current (map (map m_ind) subpops) = Ok f.
Proof. exact @left_over_scores. Qed.
Print Assumptions C99_left_over_scores.

Example C99_left_over_example :
  match coop_problem_run_default demo_pick demo_mutate demo_uuid demo_sel 1 2 np_concatenate demo_score None 0 (fun _ _ _ => false)
          (Some ([[demo_member 7 [5; 5]]; [demo_member 8 [9]]]%Z, 1)) demo_created with
  | Some (Ok s, _, _) => map (map m_fit) s
  | _ => []
  end = [[Some (NFlt false (Fin 10)); Some (NFlt false (Fin 11))]; [Some (NFlt false (Fin 10)); Some (NFlt false (Fin 10))]].
Proof. vm_compute. reflexivity. Qed.
