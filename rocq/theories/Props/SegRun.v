(** C98: whole runs on segmented genomes. *)
From Verif Require Import Model.Base Model.Segmented Model.SegMutate Model.SegRun Spec.Order Spec.SegRun Proofs.SegRun.

Theorem C98_whole_run :
  forall G (score : list (list G) -> result num) (D : list G -> Prop) maximize coin k_elites
    genomes (gens : list (breeding G)) st final st' earlier,
  (forall gs, In gs genomes -> gs <> [] /\ Forall D gs) ->
  (forall b op, In b gens -> In op (ops_of b) -> stays_in D op) ->
  (forall b b' op, In b gens -> with_crossover b = true -> In b' gens -> In op (ops_of b') -> is_copy op = false) ->
  seg_run score maximize coin k_elites genomes gens st = Ok (final, st', earlier) ->
  let pops := earlier ++ [final] in
  (exists init later, pops = init :: later /\ map (contents st') init = genomes /\
     map (@length sind) later = map offspring_count gens) /\
  (forall a, a < s_next st -> s_seg st' a = s_seg st a) /\
  (forall p, In p pops -> NoDup p) /\
  (forall p x, In p pops -> In x p -> sg_genome x <> [] /\ Forall D (contents st' x) /\
     exists f, sg_fitness x = Some f /\ score (contents st' x) = Ok f) /\
  (forall p q x y, In p pops -> In q pops -> In x p -> In y q -> x = y \/ apart x y).
Proof. exact @whole_run. Qed.
Print Assumptions C98_whole_run.

Theorem C98_best_never_gets_worse :
  forall G (score : list (list G) -> result num) (D : list G -> Prop) maximize coin k_elites
    genomes (gens : list (breeding G)) st final st' earlier,
  (forall gs, In gs genomes -> gs <> [] /\ Forall D gs) ->
  (forall b op, In b gens -> In op (ops_of b) -> stays_in D op) ->
  (forall b b' op, In b gens -> with_crossover b = true -> In b' gens -> In op (ops_of b') -> is_copy op = false) ->
  1 <= k_elites -> (forall b, In b gens -> 1 <= offspring_count b) ->
  (forall gs gs' f f' m, score gs = Ok f -> score gs' = Ok f' -> blurred f f' -> ~ better m f f') ->
  seg_run score maximize coin k_elites genomes gens st = Ok (final, st', earlier) ->
  forall j1 j2 p1 p2, j1 <= j2 ->
  nth_error (earlier ++ [final]) j1 = Some p1 -> nth_error (earlier ++ [final]) j2 = Some p2 ->
  forall x fx, In x p1 -> score (contents st' x) = Ok fx ->
  exists y fy, In y p2 /\ score (contents st' y) = Ok fy /\ ~ better maximize fx fy.
Proof. exact @monotone. Qed.
Print Assumptions C98_best_never_gets_worse.

(** copies never diverge: without crossover, and with mutators that write in place, copy_segment and mutation
    together never make a genome with more different segments than its founders had *)
Theorem C98_no_new_variety :
  forall G (score : list (list G) -> result num) maximize coin k_elites n
    genomes (gens : list (breeding G)) st final st' earlier,
  (forall gs, In gs genomes -> gs <> [] /\ length gs <= n) ->
  (forall b, In b gens -> with_crossover b = false /\ Forall in_place (ops_of b)) ->
  seg_run score maximize coin k_elites genomes gens st = Ok (final, st', earlier) ->
  forall p x, In p (earlier ++ [final]) -> In x p -> kinds_of_segments n (contents st' x).
Proof. exact @variety. Qed.
Print Assumptions C98_no_new_variety.

Theorem C98_run_completes :
  forall G (score : list (list G) -> result num) (D : list G -> Prop) maximize coin k_elites,
  (forall gs, gs <> [] -> Forall D gs -> exists f, score gs = Ok f) ->
  forall genomes (gens : list (breeding G)) st,
  (forall gs, In gs genomes -> gs <> [] /\ Forall D gs) ->
  (forall b op, In b gens -> In op (ops_of b) -> stays_in D op) ->
  sound_gens (length genomes) gens ->
  exists r, seg_run score maximize coin k_elites genomes gens st = Ok r.
Proof. exact @run_works. Qed.
Print Assumptions C98_run_completes.

(** With copies and crossover together the fitness goes stale: crossover gives the two references to a copied
    segment to different children, and mutating the second child changes the first, which is already evaluated. *)
Theorem C98_crossover_of_copies_refuted :
  exists genomes gens final st' earlier x,
  (forall gs, In gs genomes -> gs <> []) /\
  seg_run sum_score true no_coin 0 genomes gens empty_store = Ok (final, st', earlier) /\ In x final /\
  sg_fitness x = Some (NInt 8) /\ sum_score (contents st' x) = Ok (NInt 9) /\
  exists y, In y final /\ y <> x /\ ~ apart x y.
Proof.
  exists founders, crossing_run. do 4 eexists. split; [intros gs [<-|[<-|[]]]; discriminate|].
  split; [vm_compute; reflexivity|]. split; [right; left; reflexivity|]. split; [reflexivity|]. split; [reflexivity|].
  eexists. split; [left; reflexivity|]. split; [discriminate|]. intros A. eapply (A 8); [right; left; reflexivity|left; reflexivity].
Qed.
Print Assumptions C98_crossover_of_copies_refuted.

Example C98_example :
  (forall gs, In gs founders -> gs <> [] /\ length gs <= 2) /\
  (forall b, In b copying_run -> with_crossover b = false /\ Forall in_place (ops_of b)) /\
  sound_gens 2 copying_run /\
  match seg_run sum_score true no_coin 1 founders copying_run empty_store with
  | Ok (final, st', earlier) =>
      map (map (contents st')) (earlier ++ [final]) =
        [[[[1]]; [[5]; [6]]]; [[[5]; [6]]; [[5]; [6]]]; [[[6]; [6]]; [[5]; [6]]]] /\
      map (map sg_fitness) (earlier ++ [final]) =
        [[Some (NInt 1); Some (NInt 11)]; [Some (NInt 11); Some (NInt 11)]; [Some (NInt 12); Some (NInt 11)]]
  | Err _ => False
  end.
Proof.
  split; [intros gs [<-|[<-|[]]]; (split; [discriminate|cbn; repeat constructor])|].
  split; [intros b [<-|[<-|[]]]; (split; [reflexivity|]); cbn; repeat constructor|].
  split; [cbn; repeat constructor; cbn; intros p k g; exists (if k =? 0 then map S g else g); reflexivity|]. vm_compute. repeat split.
Qed.

(** a copy and its original are mutated together *)
Example C98_copies_example :
  match seg_run sum_score true no_coin 0 founders copying_run empty_store with
  | Ok (final, st', _) => map (contents st') final = [[[5]]; [[2]; [2]]]
  | Err _ => False
  end.
Proof. vm_compute. reflexivity. Qed.

Example C98_crossover_example :
  (forall b op, In b mixing_run -> In op (ops_of b) -> is_copy op = false) /\
  match seg_run sum_score true no_coin 0 [[[1]; [2]]; [[5]; [6]]] mixing_run empty_store with
  | Ok (final, st', _) =>
      map (contents st') final = [[[5]; [9]; [2]]; [[2]; [7]]] /\ map sg_fitness final = [Some (NInt 16); Some (NInt 9)]
  | Err _ => False
  end.
Proof.
  split; [intros b op [<-|[]] [<-|[<-|[]]]; reflexivity|]. vm_compute. repeat split.
Qed.
