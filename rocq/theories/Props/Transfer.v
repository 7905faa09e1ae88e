(** Property C71: making populations and reusing solutions *)
From Verif Require Import Model.Base Model.Transfer Spec.Transfer Proofs.Transfer.

(** a random real vector has one value per pair of bounds, within them *)
Theorem C71_real_vector (bounds : list (Q * Q)) (us : list Q) : length us = length bounds -> Forall (fun u => 0 <= u /\ u < 1)%Q us ->
  Forall2 (fun b v => (fst b < snd b -> fst b <= v /\ v < snd b) /\ (fst b == snd b -> v == fst b))%Q bounds (create_real_vector bounds us).
Proof. exact (real_vector_spec bounds us). Qed.
Print Assumptions C71_real_vector.
(** and every such vector can be drawn *)
Theorem C71_real_vector_reaches (bounds : list (Q * Q)) (target : list Q) : Forall2 (fun b v => fst b <= v /\ v < snd b)%Q bounds target ->
  exists us, length us = length bounds /\ Forall (fun u => 0 <= u /\ u < 1)%Q us /\ Forall2 Qeq target (create_real_vector bounds us).
Proof. exact (real_vector_reach bounds target). Qed.
Print Assumptions C71_real_vector_reaches.
Example C71_real_vector_ex : Forall2 Qeq (create_real_vector [(0, 1); (-1, 3); (2, 2)] [1 # 2; 1 # 4; 1 # 3])%Q [1 # 2; 0; 2]%Q.
Proof. repeat (constructor; [reflexivity|]). constructor. Qed.

(** create_population(n) makes n unevaluated individuals from n calls of the initializer, in order *)
Theorem C71_population {S G D P} (initialize : S -> result G * S) (decoder : D) (problem : P) (n : nat) (s s' : S) :
  (forall l, create_population initialize n decoder problem s = (Ok l, s') ->
     exists gs, length gs = n /\ calls initialize s gs s' /\ fresh_population decoder problem gs l) /\
  (forall e, create_population initialize n decoder problem s = (Err e, s') ->
     exists gs s1, length gs < n /\ calls initialize s gs s1 /\ initialize s1 = (Err e, s')).
Proof. exact (conj (fun l => create_ok initialize decoder problem n s l s') (fun e => create_err initialize decoder problem n s e s')). Qed.
Print Assumptions C71_population.
Example C71_population_ex : create_population (fun s => (Ok [s], S s)) 2 tt tt 5 =
  (Ok [mk_made _ _ [5] tt tt None; mk_made _ _ [6] tt tt None], 7) /\
  create_population (fun s => (if Nat.eqb s 6 then Err KeyError else Ok [s], S s)) 3 tt tt 5 = (Err KeyError, 7).
Proof. split; reflexivity. Qed.

(** create_individual makes one *)
Theorem C71_individual {S G D P} (initialize : S -> result G * S) (decoder : D) (problem : P) (s : S) :
  (forall g s', initialize s = (Ok g, s') ->
     exists x, create_individual initialize decoder problem s = (Ok x, s') /\ fresh_population decoder problem [g] [x]) /\
  (forall e s', initialize s = (Err e, s') -> create_individual initialize decoder problem s = (Err e, s')).
Proof. exact (individual_spec initialize decoder problem s). Qed.
Print Assumptions C71_individual.
Example C71_individual_ex : create_individual (fun s => (Ok [s], S s)) tt tt 5 = (Ok (mk_made _ _ [5] tt tt None), 6).
Proof. reflexivity. Qed.

(** a seeded initializer that has handed out i seeds gives a population the next seeds, as far as they fit, and then
    new genomes *)
Theorem C71_seeded {S G D P} (initialize : S -> result G * S) (decoder : D) (problem : P) (seeds : list G) (n i : nat) (s : S) (fresh : list G) (s' : S) :
  i <= length seeds -> length fresh = n - (length seeds - i) -> calls initialize s fresh s' ->
  exists l, create_population (seeded initialize seeds) n decoder problem (i, s) = (Ok l, (Nat.min (i + n) (length seeds), s')) /\
    fresh_population decoder problem (firstn n (skipn i seeds) ++ fresh) l.
Proof. exact (seeded_population initialize decoder problem seeds n i s fresh s'). Qed.
Print Assumptions C71_seeded.
Example C71_seeded_ex :
  let init := seeded (fun s => (Ok s, S s)) [71; 72] in
  option_map (map m_genome) (match fst (create_population init 4 tt tt (0, 10)) with Ok l => Some l | Err _ => None end) = Some [71; 72; 10; 11] /\
  option_map (map m_genome) (match fst (create_population init 1 tt tt (0, 10)) with Ok l => Some l | Err _ => None end) = Some [71].
Proof. split; reflexivity. Qed.

(** so the seeds are not in every population made with the same initializer: the second one has none *)
Theorem C71_every_population_seeded_refuted : exists (seeds : list nat) l1 s1 l2 s2,
  create_population (seeded (fun s => (Ok s, S s)) seeds) 3 tt tt (0, 10) = (Ok l1, s1) /\ incl seeds (map m_genome l1) /\
  create_population (seeded (fun s => (Ok s, S s)) seeds) 3 tt tt s1 = (Ok l2, s2) /\ forall g, In g seeds -> ~ In g (map m_genome l2).
Proof.
  exists [71; 72]. eexists _, _, _, _. split; [reflexivity|]. split; [intros g [<-|[<-|[]]]; cbn; auto|]. split; [reflexivity|].
  intros g [<-|[<-|[]]]; cbn; intros [H|[H|[H|[]]]]; discriminate.
Qed.
Print Assumptions C71_every_population_seeded_refuted.

(** training appends the last genome of each run, in the order of the problems; a run without one stops the training with
    an exception after the genomes before it were kept *)
Theorem C71_repertoire {P K G} (algorithm : P -> K -> result (list (run_item G))) (no_kwargs : K) (rep : list G)
  (problems : list P) (kwargs : option (list K)) (runs : list (list (run_item G))) (gs : list G) :
  let ks := match kwargs with Some ks => ks | None => repeat no_kwargs (length problems) end in
  length ks = length problems -> length runs = length problems ->
  (forall i p k, nth_error problems i = Some p -> nth_error ks i = Some k -> exists r, nth_error runs i = Some r /\ algorithm p k = Ok r) ->
  (Forall2 ends_with runs gs -> build_repertoire algorithm no_kwargs rep problems kwargs = (Ok tt, rep ++ gs)) /\
  (forall before bad after e, runs = before ++ bad :: after -> Forall2 ends_with before gs -> ends_badly bad e ->
     build_repertoire algorithm no_kwargs rep problems kwargs = (Err e, rep ++ gs)).
Proof. exact (build_spec algorithm no_kwargs rep problems kwargs runs gs). Qed.
Print Assumptions C71_repertoire.
Example C71_repertoire_ex :
  build_repertoire (fun p k => Ok [Pair 0 (p + k); Pair 1 (p * k)]) 1 [9] [3; 4] (Some [2; 5]) = (Ok tt, [9; 6; 20]) /\
  build_repertoire (fun p k => Ok (if Nat.eqb p 4 then [] else [Pair 1 p])) 0 [9] [3; 4; 5] None = (Err IndexError, [9; 3]).
Proof. split; reflexivity. Qed.

(** one set of arguments per problem *)
Theorem C71_repertoire_kwargs {P K G} (algorithm : P -> K -> result (list (run_item G))) (no_kwargs : K) (rep : list G) (problems : list P) (ks : list K) :
  length ks <> length problems -> build_repertoire algorithm no_kwargs rep problems (Some ks) = (Err AssertionError, rep).
Proof. exact (build_kwargs algorithm no_kwargs rep problems ks). Qed.
Print Assumptions C71_repertoire_kwargs.
Example C71_repertoire_kwargs_ex : build_repertoire (fun p k => Ok [Pair p k]) 0 [] [1; 2] (Some [0]) = (Err AssertionError, []).
Proof. reflexivity. Qed.

(** an algorithm that returns its population, as generational_ea does, cannot be used *)
Theorem C71_population_algorithm_refuted : exists (algorithm : nat -> unit -> result (list (run_item nat))),
  (forall p, exists pop, algorithm p tt = Ok (map (Bare 3) pop) /\ pop <> []) /\
  build_repertoire algorithm tt [] [1] None = (Err ValueError, []).
Proof. exists (fun p _ => Ok [Bare 3 p]). split; [intros p; exists [p]; split; [reflexivity|discriminate]|reflexivity]. Qed.
Print Assumptions C71_population_algorithm_refuted.
