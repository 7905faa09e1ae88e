(** Making populations: leap_ec/individual.py (create_population), leap_ec/representation.py,
    leap_ec/real_rep/initializers.py, leap_ec/binary_rep/initializers.py and
    leap_ec/contrib/transfer/sequential.py. *)
From Verif Require Import Model.Base.

(** ** genomes *)

(** leap_ec/real_rep/initializers.py:39-45 create_real_vector; [us] are the uniform draws of np.random.uniform, one
    per pair of bounds, each in [0, 1) *)
Definition create_real_vector (bounds : list (Q * Q)) (us : list Q) : list Q :=
  let low := map fst bounds in
  let high := map snd bounds in
  map (fun p => let '(l, h, u) := p in l + (h - l) * u)%Q (combine (combine low high) us).

(** ** populations *)

Section Create.
Context {S G : Type}.
(** an initializer is a function with hidden state, leap_ec/individual.py:103; it may raise *)
Variable initialize : S -> result G * S.

(** what the constructor stores, leap_ec/individual.py:68-76; the fitness starts as None *)
Record made {D P : Type} := mk_made { m_genome : G; m_decoder : D; m_problem : P; m_fitness : option Q }.
Arguments made : clear implicits.

(** leap_ec/individual.py:91-104 create_population *)
Fixpoint create_population {D P} (n : nat) (decoder : D) (problem : P) (s : S) : result (list (made D P)) * S :=
  match n with
  | 0 => (Ok [], s)
  | Datatypes.S k =>
      match initialize s with
      | (Err e, s1) => (Err e, s1)
      | (Ok g, s1) =>
          match create_population k decoder problem s1 with
          | (Err e, s2) => (Err e, s2)
          | (Ok l, s2) => (Ok (mk_made _ _ g decoder problem None :: l), s2)
          end
      end
  end.

(** leap_ec/representation.py:28-30 create_individual *)
Definition create_individual {D P} (decoder : D) (problem : P) (s : S) : result (made D P) * S :=
  match create_population 1 decoder problem s with
  | (Ok (x :: _), s') => (Ok x, s')
  | (Ok [], s') => (Err IndexError, s')
  | (Err e, s') => (Err e, s')
  end.

(** leap_ec/contrib/transfer/sequential.py:120-131 initialize_seeded: the state is the index i and the state of the
    wrapped initializer *)
Definition seeded (seed_pop : list G) (st : nat * S) : result G * (nat * S) :=
  let '(i, s) := st in
  match nth_error seed_pop i with
  | Some g => (Ok g, (Datatypes.S i, s))
  | None => let '(r, s') := initialize s in (r, (i, s'))
  end.
End Create.
Arguments made : clear implicits.

(** ** PopulationSeedingRepertoire *)

(** one item of a run: what the class expects, a pair of a step and an individual, or a bare individual, which is what
    leap_ec/algorithm.py:141 generational_ea returns a list of *)
Inductive run_item (G : Type) := Pair (step : nat) (genome : G) | Bare (num_genes : nat) (genome : G).
Arguments Pair {G}. Arguments Bare {G}.

(** leap_ec/contrib/transfer/sequential.py:89-90 [last_step, last_ind = r[-1]] and [last_ind.genome].  Unpacking a bare
    individual iterates over its genome: not two genes raise ValueError, and a gene has no genome (AttributeError) *)
Definition last_genome {G} (run : list (run_item G)) : result G :=
  match rev run with
  | [] => Err IndexError
  | Pair _ g :: _ => Ok g
  | Bare n _ :: _ => if n =? 2 then Err AttributeError else Err ValueError
  end.

(** leap_ec/contrib/transfer/sequential.py:88-90: the loop; what was appended before an exception stays *)
Fixpoint remember {G} (repertoire : list G) (results : list (list (run_item G))) : result unit * list G :=
  match results with
  | [] => (Ok tt, repertoire)
  | r :: rest => match last_genome r with
                 | Ok g => remember (repertoire ++ [g]) rest
                 | Err e => (Err e, repertoire)
                 end
  end.

(** every run, in order, leap_ec/contrib/transfer/sequential.py:79-86 *)
Fixpoint run_all {P K R} (algorithm : P -> K -> result R) (ps : list (P * K)) : result (list R) :=
  match ps with
  | [] => Ok []
  | (p, k) :: r => bind (algorithm p k) (fun x => bind (run_all algorithm r) (fun l => Ok (x :: l)))
  end.

(** leap_ec/contrib/transfer/sequential.py:69-90 build_repertoire; [algorithm p kwargs] is the whole list an algorithm
    run on p with the standard initializer produces, [no_kwargs] the empty dictionary *)
Definition build_repertoire {P K G} (algorithm : P -> K -> result (list (run_item G))) (no_kwargs : K)
    (repertoire : list G) (problems : list P) (problem_kwargs : option (list K)) : result unit * list G :=
  let go ks := match run_all algorithm (combine problems ks) with
               | Err e => (Err e, repertoire)
               | Ok results => remember repertoire results
               end in
  match problem_kwargs with
  | None => go (repeat no_kwargs (length problems))
  | Some ks => if length ks =? length problems then go ks else (Err AssertionError, repertoire)
  end.
