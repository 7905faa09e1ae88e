(** leap_ec/algorithm.py generational_ea as a program on mutable individuals: the population is created, evaluated,
    and bred from by a lazy pipeline, all on one heap. *)
From Verif Require Import Model.Base Model.PyList Model.Scalar Model.Selection Model.Counters Model.Heap Model.Pipeline.

Section Ea.
Context {G P : Type}.
Variable decoder_of : nat -> option (list G -> result P).
(** problems with scalar fitness *)
Variable problem_of : nat -> phen_value G P -> result num.
Notation world := (world G P num).

(** leap_ec/representation.py:31-42, leap_ec/individual.py:91-104 create_population.  [initialize k]: the genome (a
    new array) made by the k-th call of the initializer, which is taken not to raise here; [robust]: the
    individual class is RobustIndividual *)
Fixpoint create_all (initialize : nat -> list G) (problem decoder : nat) (robust : bool) (n k : nat) (w : world)
  : list nat * world :=
  match n with
  | 0 => ([], w)
  | S n' =>
      let '(a, w1) := new_arr w (initialize k) in
      let '(i, w2) := create w1 a problem decoder robust in
      let '(r, w3) := create_all initialize problem decoder robust n' (S k) w2 in
      (i :: r, w3)
  end.

(** what comparisons of individuals look at, leap_ec/individual.py:198-253; None when some fitness is missing *)
Fixpoint compared (w : world) (l : list nat) : option (list sind) :=
  match l with
  | [] => Some []
  | i :: r =>
      match i_fitness (w_ind w i), compared w r with
      | Some f, Some s => Some (mk_sind i f :: s)
      | _, _ => None
      end
  end.

Variable maximize : bool.
(** coins of the i-th generation's comparisons of two NaN *)
Variable coin : nat -> sind -> sind -> bool.
Variable max_generations : Z.
Variable k_elites : nat.
(** size argument of the ops.pool that ends the pipeline *)
Variable size : nat.
(** the generator operators between selection and pool in generation i, most downstream first, with their
    random draws *)
Variable operators : nat -> list (op G).
(** the selection operator of generation i: which member of the population its k-th pick is, given the
    individuals as they are when the generation starts *)
Variable pick : nat -> world -> list nat -> nat -> nat.
(** the stop predicate, on its i-th call *)
Variable stop : nat -> world -> list nat -> bool.

(** leap_ec/ops.py:829-900 elitist_survival on individuals; they all belong to one problem.  Comparing an
    individual without fitness is represented by TypeError *)
Definition survive (i : nat) (w : world) (offspring parents : list nat) : result (list nat) :=
  match compared w offspring, compared w parents with
  | Some o, Some p =>
      Ok (map si_id (fst (elitist_survival (ind_lt maximize (coin i)) (ind_gt maximize (coin i)) ind_eq o p k_elites)))
  | _, _ => Err TypeError
  end.

(** leap_ec/algorithm.py:131-141; [earlier]: the populations bred from so far, oldest first.  The outcome of a
    run that raises shows only the exception. *)
Fixpoint ea_loop (fuel i : nat) (gc : gen_counter) (w : world) (earlier : list (list nat)) (parents : list nat)
  : option (result (list nat * world * list (list nat)) * gen_counter) :=
  if Z.ltb (gc_generation gc) max_generations then
    if stop i w parents then Some (Ok (parents, w, earlier), gc)
    else
      match fuel with
      | 0 => None
      | S fuel' =>
          let stack := operators i ++ [OpSelect parents (pick i w parents)] in
          match pool NNan decoder_of problem_of size stack (start stack) w with
          | Err e => Some (Err e, gc)
          | Ok (offspring, _, w1) =>
              match survive i w1 offspring parents with
              | Err e => Some (Err e, gc)
              | Ok survivors =>
                  ea_loop fuel' (S i) (snd (gc_increment [] gc)) w1 (earlier ++ [parents]) survivors
              end
          end
      end
  else Some (Ok (parents, w, earlier), gc).

(** leap_ec/algorithm.py:119-141 generational_ea with the default init_evaluate (Individual.evaluate_population) *)
Definition heap_ea (initialize : nat -> list G) (problem decoder : nat) (robust : bool) (pop_size : nat)
    (start_generation : Z) (w : world)
  : option (result (list nat * world * list (list nat)) * gen_counter) :=
  let '(parents, w1) := create_all initialize problem decoder robust pop_size 0 w in
  let gc := inc_generation start_generation in
  match evaluate_population NNan decoder_of problem_of w1 parents with
  | (Err e, _) => Some (Err e, gc)
  | (Ok _, w2) => ea_loop (Z.to_nat (max_generations - start_generation)) 0 gc w2 [] parents
  end.
End Ea.
