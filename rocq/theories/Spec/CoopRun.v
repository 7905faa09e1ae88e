(** What a run of cooperative coevolution is, from outside: a sequence of states, each a list of species, where the
    individuals of the next state are scored together with members of the newest populations there are. *)
From Verif Require Import Model.Base Model.Problems Model.CoopRun Spec.Problems.

Section Coevolution.
Context {G : Type}.
(** how genomes of species i may change from parent to child *)
Variable step : nat -> list G -> list G -> Prop.
(** [v] is the score of these collaborators put together *)
Variable scores : list (cind G) -> num -> Prop.
Variables num_trials size : nat.

(** who individuals of species i meet in species j: the new members if that species was bred before i, the
    old ones if it comes after *)
Definition partners (before after : list (list (member G))) (i j : nat) : list (member G) :=
  nth j (if j <? i then after else before) [].

(** one member per species, in order; in slot i, [x] itself *)
Definition team (meet : nat -> list (member G)) (species i : nat) (x : cind G) (cs : list (cind G)) : Prop :=
  length cs = species /\ nth_error cs i = Some x /\
  forall j c, j <> i -> nth_error cs j = Some c -> exists y, In y (meet j) /\ m_ind y = c.

(** the fitness is the mean score of that many teams *)
Definition fairly_scored (meet : nat -> list (member G)) (species i : nat) (x : member G) : Prop :=
  exists css fs f, m_fit x = Some f /\ length css = num_trials /\ Forall (team meet species i (m_ind x)) css /\
    Forall2 scores css fs /\ mean_of fs f.

(** from one generation to the next *)
Definition coevolved (before after : list (list (member G))) : Prop :=
  length after = length before /\
  forall i, i < length before -> length (nth i after []) = size /\
    forall x, In x (nth i after []) ->
      (exists p, In p (nth i before []) /\ step i (c_genome (m_ind p)) (c_genome (m_ind x)) /\
         c_score (m_ind x) = c_score (m_ind p)) /\
      fairly_scored (partners before after i) (length before) i x.

(** a whole run of n generations *)
Inductive coevolution : nat -> list (list (member G)) -> list (list (member G)) -> Prop :=
| coev_start s : coevolution 0 s s
| coev_step n s s' s'' : coevolution n s s' -> coevolved s' s'' -> coevolution (S n) s s''.
End Coevolution.

(** the score CooperativeEvaluate gives: that of the first collaborator's problem on the joined genomes *)
Definition joined_score {G} (cs : list (cind G)) (v : num) : Prop :=
  exists c r, cs = c :: r /\ c_score c (flat_map c_genome cs) = Ok v.
(** the score a CooperativeProblem gives *)
Definition problem_score {G} (combine : list (list G) -> result (list G)) (score : list G -> result num)
    (cs : list (cind G)) (v : num) : Prop :=
  exists g, combine (map c_genome cs) = Ok g /\ score g = Ok v.

(** the created individuals, with the made-up fitness *)
Definition given {G} (value : num) (created : list (list (member G))) : list (list (member G)) :=
  map (map (fun m => mk_member (m_ind m) (Some value))) created.

(** collaborator selectors that return only members of the population they select from *)
Definition choosers {G} (sel : nat -> nat -> nat -> list (list (option num)) -> nat -> nat -> list (cind G) -> nat -> result (cind G)) : Prop :=
  forall g i k fits, members (sel g i k fits).

(** genomes of species i are of kind D i *)
Definition kinds {G} (D : nat -> list G -> Prop) (s : list (list (member G))) : Prop :=
  forall i pop x, nth_error s i = Some pop -> In x pop -> D i (c_genome (m_ind x)).

(** a complete solution: one part for each of n species, joined *)
Definition complete {G} (D : nat -> list G -> Prop) (n : nat) (l : list G) : Prop :=
  exists parts, length parts = n /\ concat parts = l /\ forall i p, nth_error parts i = Some p -> D i p.

(** operators that always work: some parent is picked if there is one, genomes of every kind can be mutated and
    keep their kind, and a collaborator is found wherever there are individuals *)
Definition operators_work {G} (D : nat -> list G -> Prop)
    (pick : nat -> nat -> nat -> list (member G) -> nat) (mutate : nat -> nat -> nat -> list G -> result (list G))
    (sel : nat -> nat -> nat -> list (list (option num)) -> nat -> nat -> list (cind G) -> nat -> result (cind G)) : Prop :=
  (forall g i k parents, parents <> [] -> pick g i k parents < length parents) /\
  (forall g i k a, D i a -> exists b, mutate g i k a = Ok b /\ D i b) /\
  (forall g i k fits t j pop n, pop <> [] -> exists z, sel g i k fits t j pop n = Ok z).

(** ** data for the examples: bit strings scored by their number of ones; always the last member collaborates;
    the parent with the number of the child is copied and its first gene set *)
Definition demo_score (l : list Z) : result num := Ok (NInt (fold_right Z.add 0%Z l)).
Definition demo_member (id : nat) (l : list Z) : member Z := mk_member (mk_cind id l demo_score) None.
Definition demo_sel (g i k : nat) (fits : list (list (option num))) (t j : nat) (pop : list (cind Z)) (n : nat) : result (cind Z) :=
  match rev pop with [] => Err IndexError | x :: _ => Ok x end.
Definition demo_pick (g i k : nat) (parents : list (member Z)) : nat := k mod length parents.
Definition demo_mutate (g i k : nat) (l : list Z) : result (list Z) :=
  match l with [] => Ok [] | _ :: r => Ok (1%Z :: r) end.
Definition demo_uuid (g i k : nat) : nat := 100 + 10 * i + k.
Definition demo_created : list (list (member Z)) :=
  [[demo_member 0 [0; 0]; demo_member 1 [0; 1]]; [demo_member 2 [0]; demo_member 3 [0]]]%Z.
(** genes are bits; species 0 has two, species 1 one *)
Definition demo_kind (i : nat) (l : list Z) : Prop := length l = 2 - i.
Definition demo_run (trials : nat) (generations : Z) :=
  coop_run demo_pick demo_mutate demo_uuid demo_sel trials 2 generations (fun _ _ _ => false) (NInt (-100)) demo_created.
(** genomes and fitnesses *)
Definition shown_fit (f : option num) : option (option ext) :=
  match f with Some x => Some (match num_val x with Some (Fin q) => Some (Fin (Qred q)) | v => v end) | None => None end.
Definition shown {G} (s : list (list (member G))) : list (list (list G * option (option ext))) :=
  map (map (fun m => (c_genome (m_ind m), shown_fit (m_fit m)))) s.
