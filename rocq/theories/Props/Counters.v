(** C31, C32: counters and birth branding. *)
From Verif Require Import Model.Base Model.Counters Spec.Counters Proofs.Counters.

(** C31. *)
Theorem C31_generation_counter :
  forall callbacks start n vs g',
  gen_run callbacks n (inc_generation start) = (vs, g') ->
  gc_generation g' = (start + Z.of_nat n)%Z /\ gc_ctx g' = (start + Z.of_nat n)%Z /\
  vs = map (fun j => (start + 1 + Z.of_nat j)%Z) (seq 0 n) /\
  (NoDup callbacks -> forall f v, In f callbacks ->
     told (gc_log g') f v = if (Z.ltb start v && Z.leb v (start + Z.of_nat n))%bool then 1 else 0).
Proof. exact generation_counter. Qed.
Print Assumptions C31_generation_counter.

Theorem C31_birth_counter :
  forall callbacks start ops vs b',
  birth_run callbacks ops (inc_births start) = (vs, b') ->
  bc_curr b' = value_after start ops (length ops) /\ bc_ctx b' = value_after start ops (length ops) /\
  length vs = length ops /\
  (forall j v, nth_error vs j = Some v -> v = value_after start ops (S j)) /\
  bc_log b' = flat_map (fun ov => match fst ov with
                                  | BInc _ => map (fun f => (f, snd ov)) callbacks
                                  | BDec => [] end) (combine ops vs).
Proof. exact birth_counter_ok. Qed.
Print Assumptions C31_birth_counter.

Example C31_example :
  gen_run [7; 8] 2 (inc_generation 5) = ([6; 7]%Z, mk_gc 7 7 [(7, 6%Z); (8, 6%Z); (7, 7%Z); (8, 7%Z)]) /\
  birth_run [7] [BInc 3; BDec; BInc 2] (inc_births 10)
  = ([13; 12; 14]%Z, mk_bc 14 14 [(7, 13%Z); (7, 14%Z)]).
Proof. split; reflexivity. Qed.

(** C32.  [birth0]: brands present before.  As long as nobody clones, the numbers handed out by one
    brander are exactly 0 .. br_next-1, each to one individual, existing brands never change, and
    everything a generator emitted is branded. *)
Theorem C32_branding_unique_partial :
  forall genome_len birth0 ops,
  Forall not_clone ops ->
  let w := br_run genome_len ops (mk_bw (birth_brander birth0) [] []) in
  (forall i n, birth0 i = Some n -> br_birth (bw_br w) i = Some n) /\
  (forall n, n < br_next (bw_br w) <-> exists i, birth0 i = None /\ br_birth (bw_br w) i = Some n) /\
  (forall i j n, birth0 i = None -> birth0 j = None ->
     br_birth (bw_br w) i = Some n -> br_birth (bw_br w) j = Some n -> i = j) /\
  (forall i, In i (bw_out w) -> exists n, br_birth (bw_br w) i = Some n).
Proof. exact branding. Qed.
Print Assumptions C32_branding_unique_partial.

Theorem C32_branding_permanent :
  forall genome_len birth0 ops1 ops2 i n,
  Forall not_clone ops2 ->
  br_birth (bw_br (br_run genome_len ops1 (mk_bw (birth_brander birth0) [] []))) i = Some n ->
  br_birth (bw_br (br_run genome_len (ops1 ++ ops2) (mk_bw (birth_brander birth0) [] []))) i = Some n.
Proof. exact branding_permanent. Qed.
Print Assumptions C32_branding_permanent.

(** With clones, as long as each is a new object: every number has one owner, to whom the brander gave it;
    whoever else has it is a clone of the owner (or of a clone, ...). *)
Theorem C32_branding_with_clones_partial :
  forall genome_len birth0 ops, clones_are_new birth0 ops ->
  let w := br_run genome_len ops (mk_bw (birth_brander birth0) [] []) in
  (forall i n, birth0 i = Some n -> br_birth (bw_br w) i = Some n) /\
  (exists owner,
     (forall n, n < br_next (bw_br w) -> birth0 (owner n) = None /\ br_birth (bw_br w) (owner n) = Some n) /\
     (forall i n, br_birth (bw_br w) i = Some n ->
        (exists x, birth0 x = Some n /\ copy_of ops x i) \/ (n < br_next (bw_br w) /\ copy_of ops (owner n) i))) /\
  (forall i, In i (bw_out w) -> exists n, br_birth (bw_br w) i = Some n).
Proof. exact branding_with_clones. Qed.
Print Assumptions C32_branding_with_clones_partial.

Theorem C32_branding_permanent_with_clones :
  forall genome_len birth0 ops1 ops2 i n, clones_are_new birth0 (ops1 ++ ops2) ->
  br_birth (bw_br (br_run genome_len ops1 (mk_bw (birth_brander birth0) [] []))) i = Some n ->
  br_birth (bw_br (br_run genome_len (ops1 ++ ops2) (mk_bw (birth_brander birth0) [] []))) i = Some n.
Proof. exact branding_permanent_clones. Qed.
Print Assumptions C32_branding_permanent_with_clones.

(** 2 is cloned before and after it is branded: the first clone gets its own number, the second shares *)
Example C32_clones_example :
  let ops := [OClone 2 3; OStart (SGen [2]); OPull 0; OClone 2 4; OBrandPop [3; 4]] in
  let w := br_run (fun _ => 2) ops (mk_bw (birth_brander (fun _ => None)) [] []) in
  clones_are_new (fun _ => None) ops /\ map (br_birth (bw_br w)) [2; 3; 4] = [Some 0; Some 1; Some 0] /\ br_next (bw_br w) = 2.
Proof.
  split; [|split; reflexivity]. intros before i j after E.
  destruct before as [|o1 [|o2 [|o3 [|o4 [|o5 [|o6 r]]]]]]; cbn in E; try discriminate; injection E; intros; subst.
  - cbn. repeat split; [discriminate|tauto].
  - cbn. repeat split; [discriminate|]. intros H. repeat (destruct H as [H|H]; [discriminate|]). exact H.
Qed.

Theorem C32_population_all_branded :
  forall genome_len birth0 ops l i,
  In i l ->
  exists n, br_birth (bw_br (br_run genome_len (ops ++ [OBrandPop l])
                                (mk_bw (birth_brander birth0) [] []))) i = Some n.
Proof. exact population_all_branded. Qed.
Print Assumptions C32_population_all_branded.

(** a generator whose pull raised is finished: it yields nothing more and brands nothing more; the others are unaffected *)
Theorem C32_failed_generator :
  forall genome_len g s w e, nth_error (bw_gens w) g = Some (Some s) ->
  fst (brand_pull genome_len s (bw_br w)) = Err e ->
  let w' := br_step genome_len (OPull g) w in
  bw_out w' = bw_out w /\ br_step genome_len (OPull g) w' = w' /\
  forall g' s', g' <> g -> nth_error (bw_gens w') g' = Some s' <-> nth_error (bw_gens w) g' = Some s'.
Proof. exact failed_generator. Qed.
Print Assumptions C32_failed_generator.

(** False in general: an individual's clone carries its number past the brander ... *)
Theorem C32_clone_shares_number_refuted :
  exists genome_len ops i j n,
    let w := br_run genome_len ops (mk_bw (birth_brander (fun _ => None)) [] []) in
    i <> j /\ In i (bw_out w) /\ In j (bw_out w) /\
    br_birth (bw_br w) i = Some n /\ br_birth (bw_br w) j = Some n.
Proof.
  exists (fun _ => 3), [OStart (SGen [0]); OPull 0; OClone 0 1; OStart (SGen [1]); OPull 1], 0, 1, 0.
  vm_compute. repeat split; auto. discriminate.
Qed.
Print Assumptions C32_clone_shares_number_refuted.

(** ... and the second pull fails although the upstream generator has another individual. *)
Theorem C32_second_pull_refuted :
  exists (genome_len : nat -> nat) x y b,
    let '(r1, b1) := brand_pull genome_len (SGen [x; y]) b in
    exists z s, r1 = Ok (z, s) /\ fst (brand_pull genome_len s b1) = Err AttributeError /\
      br_birth (snd (brand_pull genome_len s b1)) y = None.
Proof.
  exists (fun _ => 3), 0, 1, (birth_brander (fun _ => None)).
  cbn. exists 0, (SInd 0). repeat split.
Qed.
Print Assumptions C32_second_pull_refuted.

Example C32_example :
  let w := br_run (fun _ => 2) [OBrandPop [4; 5; 4]; OStart (SGen [6; 7]); OStart (SList [8; 5; 9]);
                                OPull 0; OPull 1; OPull 1; OPull 1]
             (mk_bw (birth_brander (fun i => if i =? 9 then Some 40 else None)) [] []) in
  map (br_birth (bw_br w)) [4; 5; 6; 7; 8; 9] = [Some 0; Some 1; Some 2; None; Some 3; Some 40] /\
  bw_out w = [6; 8; 5; 9].
Proof. vm_compute. split; reflexivity. Qed.

(** C62: get_step.  A step is returned exactly when one counter is asked for (or, nothing being asked for,
    only one is there) and it is there. *)
Theorem C62_get_step :
  forall gen births ug ub v,
  get_step gen births ug ub = Ok (Some v) <->
  (ug = Some true /\ ub <> Some true \/ ug = None /\ ub = None /\ births = None) /\ gen = Some v \/
  (ub = Some true /\ ug <> Some true \/ ug = None /\ ub = None /\ gen = None) /\ births = Some v.
Proof. exact get_step_value. Qed.
Print Assumptions C62_get_step.

Theorem C62_get_step_otherwise :
  forall gen births ug ub,
  (get_step gen births ug ub = Ok None <-> ug = Some false /\ ub = None \/ ug = None /\ ub = Some false) /\
  (forall e, get_step gen births ug ub = Err e -> e = AssertionError).
Proof. exact get_step_fails. Qed.
Print Assumptions C62_get_step_otherwise.

Example C62_example :
  get_step (Some 3%Z) None None None = Ok (Some 3%Z) /\ get_step (Some 3%Z) (Some 7%Z) None (Some true) = Ok (Some 7%Z) /\
  get_step (Some 3%Z) (Some 7%Z) None None = Err AssertionError.
Proof. repeat split. Qed.
Example C32_failed_example :
  let w := br_run (fun _ => 3) [OStart (SGen [0; 1]); OPull 0] (mk_bw (birth_brander (fun _ => None)) [] []) in
  nth_error (bw_gens w) 0 = Some (Some (SInd 0)) /\ fst (brand_pull (fun _ => 3) (SInd 0) (bw_br w)) = Err AttributeError.
Proof. split; vm_compute; reflexivity. Qed.
