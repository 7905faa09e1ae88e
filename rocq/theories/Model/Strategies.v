(** The programs examples/simple/simple_ep.py, simple_es.py and simple_ev.py, on mutable individuals: the parents breed a
    brood several times their number, and brood and parents together decide who goes on. *)
From Verif Require Import Model.Base Model.PyList Model.Scalar Model.Selection Model.Counters Model.Heap Model.Pipeline
  Model.HeapEa Model.Variation Model.Transfer Model.RealProblems Model.Simple.

(** who goes on: ops.truncation_selection(size=len(parents), parents=parents), examples/simple/simple_ep.py:74-75 and
    simple_es.py:98-99, or ops.insertion_selection(parents=parents), examples/simple/simple_ev.py:82, with the draws of
    random.randrange in generation i *)
Inductive replacement := Plus | Insert (draws : nat -> list nat).

Section Strategy.
Context {G P : Type}.
Variable decoder_of : nat -> option (list G -> result P).
Variable problem_of : nat -> phen_value G P -> result num.
Notation world := (world G P num).
Variable maximize : bool.
(** coins of the i-th generation's comparisons of two NaN *)
Variable coin : nat -> sind -> sind -> bool.
Variable max_generation : Z.
(** BROOD_SIZE *)
Variable brood : nat.
Variable mode : replacement.
(** the generator operators between selection and pool in generation i, most downstream first, with their random draws;
    they are built anew in each generation and take the step size that is in the context then *)
Variable operators : nat -> Q -> list (op G).
(** the selection operator of generation i, as in Model/HeapEa.v *)
Variable pick : nat -> world -> list nat -> nat -> nat.
(** the callbacks of the generation counter: what they make of context['leap']['std'], given the generation *)
Variable callbacks : list (Z -> Q -> Q).

(** examples/simple/simple_ep.py:74-75, simple_es.py:98-99, simple_ev.py:82.  Comparing an individual without fitness is
    represented by TypeError *)
Definition replaced (i : nat) (w : world) (offspring parents : list nat) : result (list nat) :=
  match compared w offspring, compared w parents with
  | Some o, Some p =>
      match mode with
      | Plus => Ok (map si_id (truncation_selection (ind_lt maximize (coin i)) (ind_gt maximize (coin i)) ind_eq
                                 o (length parents) (Some p)))
      | Insert draws => bind (insertion_selection (ind_gt maximize (coin i)) o p (draws i)) (fun r => Ok (map si_id r))
      end
  | _, _ => Err TypeError
  end.

(** examples/simple/simple_ep.py:65-78, simple_es.py:89-102, simple_ev.py:73-86; the printing is left out.  [earlier]: the
    populations bred from so far, [used]: the step size and the brood of each of them, oldest first; [std]: context['leap']['std'],
    which the counter's callbacks change (leap_ec/util.py:131-145) *)
Fixpoint strategy_loop (fuel i : nat) (gc : gen_counter) (std : Q) (w : world) (earlier : list (list nat)) (used : list (Q * list nat))
    (parents : list nat) : option (result (list nat * world * list (list nat) * list (Q * list nat)) * gen_counter) :=
  if Z.ltb (gc_generation gc) max_generation then
    match fuel with
    | 0 => None
    | S fuel' =>
        let stack := operators i std ++ [OpSelect parents (pick i w parents)] in
        match pool NNan decoder_of problem_of (length parents * brood) stack (start stack) w with
        | Err e => Some (Err e, gc)
        | Ok (offspring, _, w1) =>
            match replaced i w1 offspring parents with
            | Err e => Some (Err e, gc)
            | Ok survivors =>
                let '(generation, gc') := gc_increment (seq 0 (length callbacks)) gc in
                strategy_loop fuel' (S i) gc' (fold_left (fun s f => f generation s) callbacks std) w1
                  (earlier ++ [parents]) (used ++ [(std, offspring)]) survivors
            end
        end
    end
  else Some (Ok (parents, w, earlier, used), gc).

(** examples/simple/simple_ep.py:42-78, simple_es.py:68-102, simple_ev.py:56-86 *)
Definition strategy (initialize : nat -> list G) (problem decoder : nat) (pop_size : nat) (std : Q) (w : world)
  : option (result (list nat * world * list (list nat) * list (Q * list nat)) * gen_counter) :=
  let '(parents, w1) := create_all initialize problem decoder false pop_size 0 w in
  let gc := inc_generation 0 in
  match evaluate_population NNan decoder_of problem_of w1 parents with
  | (Err e, _) => Some (Err e, gc)
  | (Ok _, w2) => strategy_loop (Z.to_nat max_generation) 0 gc std w2 [] [] parents
  end.
End Strategy.

(** leap_ec/real_rep/problems.py:50-63 SpheroidProblem on arrays, which IdentityDecoder (leap_ec/decoder.py:89-107) hands on
    as they are *)
Definition sphere_problem (_ : nat) (v : phen_value Q unit) : result num :=
  match v with VArr g => Ok (NFlt true (Fin (spheroid_array g))) | VVal _ => Err TypeError end.
(** no decoding: IdentityDecoder, leap_ec/decoder.py:89-107 *)
Definition identity_decoder (_ : nat) : option (list Q -> result unit) := None.

(** leap_ec/real_rep/ops.py:20-139 mutate_gaussian with its default bounds, slope and intercept, as a stage of a pipeline;
    draws of the k-th individual are indexed by [k] *)
Definition free_gaussian_op (std : Q) (expected : option Q) (us noise : nat -> list Q) : op Q :=
  OpMutate (fun k g =>
    bind (mutate_gaussian (inl std) (Some expected) (BScalar MInf PInf) 1 0 (us k) (noise k) g)
      (fun '(inplace, out) => bind (finite_genome out) (fun g' => Ok (inplace, Some g')))) false.

(** the pipelines' operators, examples/simple/simple_ep.py:68-70, simple_es.py:92-94, simple_ev.py:76-78 *)
Definition gaussian_stages (std : Q) (expected : option Q) (us noise : nat -> list Q) : list (op Q) :=
  [OpEval; free_gaussian_op std expected us noise; OpClone].

(** bounds of the initial population: examples/simple/simple_ep.py:41, simple_es.py:67, simple_ev.py:55 *)
Definition example_bounds : list (Q * Q) := repeat (-(512 # 100), 512 # 100)%Q 4.
(** examples/simple/simple_es.py:46-58 anneal_std, in exact arithmetic *)
Definition anneal_std (_ : Z) (std : Q) : Q := (std * (85 # 100))%Q.

(** [testing]: the test harness's environment variable is set; [init]: draws of the initial genomes; [us i k], [noise i k]:
    draws of the k-th mutation of generation i.  examples/simple/simple_ep.py:33-78 *)
Definition simple_ep (testing : bool) coin pick (init : nat -> list Q) (us noise : nat -> nat -> list Q) (w : world Q unit num) :=
  strategy identity_decoder sphere_problem false coin (if testing then 2 else 100) 3 Plus
    (fun i _ => gaussian_stages (1 # 10) None (us i) (noise i)) pick []
    (fun k => create_real_vector example_bounds (init k)) 0 0 5 (1 # 10) w.
(** examples/simple/simple_es.py:19-102 *)
Definition simple_es (testing : bool) coin pick (init : nat -> list Q) (us noise : nat -> nat -> list Q) (w : world Q unit num) :=
  strategy identity_decoder sphere_problem false coin (if testing then 2 else 10) 3 Plus
    (fun i std => gaussian_stages std (Some 1%Q) (us i) (noise i)) pick [anneal_std]
    (fun k => create_real_vector example_bounds (init k)) 0 0 5 2 w.
(** examples/simple/simple_ev.py:34-86 *)
Definition simple_ev (testing : bool) coin pick draws (init : nat -> list Q) (us noise : nat -> nat -> list Q)
    (w : world Q unit num) :=
  strategy identity_decoder sphere_problem false coin (if testing then 2 else 5) 3 (Insert draws)
    (fun i _ => gaussian_stages (1 # 10) (Some 1%Q) (us i) (noise i)) pick []
    (fun k => create_real_vector example_bounds (init k)) 0 0 10 (1 # 10) w.
