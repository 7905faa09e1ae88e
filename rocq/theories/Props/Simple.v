(** Property C72: ea_solve *)
From Verif Require Import Model.Base Model.Scalar Model.Probe Model.Simple Spec.Order Spec.Variation Spec.Simple Proofs.Simple.
From Coq Require Import Sorted Lqa.

(** ea_solve returns the genome of some offspring that no offspring of the whole run beats by more than twice the tolerance
    of the float comparison; the stream gets a row per generation, with values that do not get worse, the last one that of
    the result *)
Theorem C72_result f mx bounds hard std pop us ds : good_call bounds std pop us ds -> 0 < pop -> ds <> [] ->
  exists r, ea_solve f mx bounds hard std pop us ds = Ok r /\
    length (sv_genomes r) = pop * S (length ds) /\ In (sv_best r) (skipn pop (sv_genomes r)) /\
    (forall g v w, In g (skipn pop (sv_genomes r)) -> scored f g v -> scored f (sv_best r) w -> better mx v w -> within_rel (2 * tol) v w) /\
    map fst (sv_rows r) = map Z.of_nat (seq 0 (length ds)) /\
    StronglySorted (fun r1 r2 : Z * num => ~ better mx (snd r1) (snd r2)) (sv_rows r) /\
    scored f (sv_best r) (last (map snd (sv_rows r)) NNan).
Proof. exact (solve_result f mx bounds hard std pop us ds). Qed.
Print Assumptions C72_result.

(** with hard bounds the function is never called outside the box; without, the initial individuals still are in it *)
Theorem C72_box f mx bounds hard std pop us ds r : good_call bounds std pop us ds -> 0 < pop -> ds <> [] ->
  ea_solve f mx bounds hard std pop us ds = Ok r ->
  Forall (in_box bounds) (firstn pop (sv_genomes r)) /\ (hard = true -> Forall (in_box bounds) (sv_genomes r)) /\
  Forall (fun g => length g = length bounds) (sv_genomes r).
Proof. exact (solve_box f mx bounds hard std pop us ds r). Qed.
Print Assumptions C72_box.

(** what happens in each generation *)
Theorem C72_generations f mx bounds hard std pop us ds r : good_call bounds std pop us ds -> 0 < pop -> ds <> [] ->
  ea_solve f mx bounds hard std pop us ds = Ok r ->
  exists initial css pop0, sv_genomes r = initial ++ concat css /\ length initial = pop /\ length css = length ds /\
    length (sv_pops r) = S (length ds) /\ nth_error (sv_pops r) 0 = Some pop0 /\ numbered f 0 initial pop0 /\
    forall k d cs P P', nth_error ds k = Some d -> nth_error css k = Some cs -> nth_error (sv_pops r) k = Some P -> nth_error (sv_pops r) (S k) = Some P' ->
      generation_ok f mx hard bounds (std_at std) pop d (initial ++ concat (firstn k css)) P cs P'.
Proof. exact (solve_generations f mx bounds hard std pop us ds r). Qed.
Print Assumptions C72_generations.

Example C72_example : good_call [(-2, 2)%Q] (inl 1%Q) 2 [[3 # 4]; [1 # 4]]%Q [ex_draws ex_noise; ex_draws ex_noise] /\
  (match ea_solve ex_square false [(-2, 2)%Q] true (inl 1%Q) 2 [[3 # 4]; [1 # 4]]%Q [ex_draws ex_noise; ex_draws ex_noise] with
   | Ok r => map (map Qred) (sv_genomes r) = [[1]; [-1]; [0]; [2]; [-1]; [2]]%Q /\ map Qred (sv_best r) = [0]%Q /\
             map (map si_id) (sv_pops r) = [[0; 1]; [2; 0]; [2; 4]]
   | Err _ => False
   end).
Proof.
  split.
  - split.
    + repeat constructor; cbn; lra.
    + cbn. lra.
    + reflexivity.
    + repeat constructor; cbn; lra.
    + assert (G : good_draws 1 2 (ex_draws ex_noise)).
      { intro j. cbn. split; [discriminate|]. split; [repeat constructor|]. split; [reflexivity|].
        split; [repeat constructor; lra|]. split; reflexivity. }
      constructor; [exact G|constructor; [exact G|constructor]].
  - vm_compute. split; [reflexivity|]. split; reflexivity.
Qed.

(** but the result is not always the best point the function was given: the probe never sees the initial population, even
    though selection does *)
Theorem C72_best_of_all_points_refuted : exists f mx bounds hard std pop us ds r g v w,
  good_call bounds std pop us ds /\ 0 < pop /\ ds <> [] /\ ea_solve f mx bounds hard std pop us ds = Ok r /\
  In g (sv_genomes r) /\ scored f g v /\ scored f (sv_best r) w /\ better mx v w /\ ~ within_rel (2 * tol) v w.
Proof.
  exists ex_square, false, [(-2, 2)%Q], true, (inl 1%Q), 2, [[1 # 2]; [1 # 2]]%Q, [ex_draws (fun _ => 1%Q)].
  eexists _, _, _, _. split.
  { split.
    + repeat constructor; cbn; lra.
    + cbn. lra.
    + reflexivity.
    + repeat constructor; cbn; lra.
    + assert (G : good_draws 1 2 (ex_draws (fun _ => 1%Q))).
      { intro j. cbn. split; [discriminate|]. split; [repeat constructor|]. split; [reflexivity|].
        split; [repeat constructor; lra|]. split; reflexivity. }
      constructor; [exact G|constructor]. }
  split; [repeat constructor|]. split; [discriminate|]. split; [vm_compute; reflexivity|].
  split; [left; reflexivity|]. split; [left; vm_compute; reflexivity|]. split; [left; vm_compute; reflexivity|].
  split; [vm_compute; reflexivity|]. vm_compute. intro H. apply H. reflexivity.
Qed.
Print Assumptions C72_best_of_all_points_refuted.

(** with no generations there is nothing to return, and with no individuals nothing to look at: both raise *)
Theorem C72_zero_generations f mx bounds hard std pop us : ea_solve f mx bounds hard std pop us [] = Err AttributeError.
Proof. exact (solve_zero f mx bounds hard std pop us). Qed.
Print Assumptions C72_zero_generations.
Theorem C72_empty_population f mx bounds hard std us d ds : ea_solve f mx bounds hard std 0 us (d :: ds) = Err ValueError.
Proof. exact (solve_empty f mx bounds hard std us d ds). Qed.
Print Assumptions C72_empty_population.
