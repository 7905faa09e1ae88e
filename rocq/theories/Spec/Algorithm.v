(** What a run of an algorithm loop looks like from outside: the sequence of populations and the
    calls observed, independent of the loops' code. *)
From Verif Require Import Model.Base Model.Algorithm.

Section Generational.
Context {A : Type}.
Variable max_generations : Z.
Variable pipeline : nat -> Z -> list A -> result (list A).
Variable stop : nat -> Z -> list A -> bool.

(** One observation of the stop predicate and one of the pipeline per population, the published
    generation growing by one each time. *)
Fixpoint gen_trace (c : Z) (ps : list (list A)) : list (@gen_event A) :=
  match ps with
  | [] => []
  | p :: r => EvStop c p :: EvPipe c p :: gen_trace (c + 1) r
  end.

(** The history of a run that starts with call number i at generation c: [ps] are the populations
    successfully bred from, [final] is the last population.  [next offspring parents survivors]
    describes the step from one generation to the next. *)
Definition gen_history (next : list A -> list A -> list A -> Prop) (i : nat) (c : Z)
    (ps : list (list A)) (final : list A) (r : result (list A)) (evs : list (@gen_event A)) : Prop :=
  (forall j p p', nth_error ps j = Some p -> nth_error (ps ++ [final]) (S j) = Some p' ->
     (c + Z.of_nat j < max_generations)%Z /\ stop (i + j) (c + Z.of_nat j) p = false /\
     exists offspring, pipeline (i + j) (c + Z.of_nat j) p = Ok offspring /\
       next offspring p p') /\
  let n := length ps in let cn := (c + Z.of_nat n)%Z in
  (r = Ok final /\ (max_generations <= cn)%Z /\ evs = gen_trace c ps \/
   r = Ok final /\ (cn < max_generations)%Z /\ stop (i + n) cn final = true /\
     evs = gen_trace c ps ++ [EvStop cn final] \/
   exists e, r = Err e /\ (cn < max_generations)%Z /\ stop (i + n) cn final = false /\
     pipeline (i + n) cn final = Err e /\ evs = gen_trace c (ps ++ [final])).
End Generational.

(** The populations the pipeline was run on. *)
Definition bred_from {A} (evs : list (@gen_event A)) : list (list A) :=
  flat_map (fun e => match e with EvPipe _ p => [p] | EvStop _ _ => [] end) evs.

Section Islands.
Context {A : Type}.
Variable max_generations : Z.
(** what the island's operators make of its parents in generation number g *)
Variable run : nat -> nat -> view A -> list A -> result (list A).
Variable stop : nat -> Z -> list (list A) -> bool.

(** One generation: island j is run exactly once, j-th in order, with itself as current island, on
    its own population, seeing the new populations of the islands before it and the old ones of
    itself and the islands after it; its population becomes what the run returned. *)
Definition mp_generation (g : nat) (gen : Z) (before after : list (list A)) (evs : list (@mp_event A)) : Prop :=
  length after = length before /\ length evs = length before /\
  forall j, j < length before ->
    exists parents shown out,
      nth_error evs j = Some (MpRun j (mk_view gen j shown) parents) /\
      nth_error before j = Some parents /\ length shown = length before /\
      (forall m, nth_error shown m = if m <? j then nth_error after m else nth_error before m) /\
      run j g (mk_view gen j shown) parents = Ok out /\ nth_error after j = Some out.

(** A whole run from generation c: states before each generation and at the end. *)
Definition mp_history (g : nat) (c : Z) (init final : list (list A)) (gen ctx : Z)
    (evss : list (list (@mp_event A))) : Prop :=
  exists states n, length states = S n /\ length evss = n /\
    nth_error states 0 = Some init /\ nth_error states n = Some final /\
    (forall j p p', nth_error states j = Some p -> nth_error states (S j) = Some p' ->
       (c + Z.of_nat j < max_generations)%Z /\ stop (g + j) (c + Z.of_nat j) p = false /\
       exists evs, nth_error evss j = Some evs /\ mp_generation (g + j) (c + Z.of_nat j) p p' evs) /\
    ((max_generations <= c + Z.of_nat n)%Z \/ stop (g + n) (c + Z.of_nat n) final = true) /\
    gen = (c + Z.of_nat n)%Z /\ ctx = gen.
End Islands.

(** [x] goes through the operators one after the other and comes out as [y] *)
Inductive passes {A : Type} (g : nat) (v : view A) : list (nat -> view A -> list A -> result (list A)) -> list A -> list A -> Prop :=
| passes_nil x : passes g v [] x x
| passes_cons o ops x y z : o g v x = Ok y -> passes g v ops y z -> passes g v (o :: ops) x z.

(** A random walk from [x]: the outputs of successive runs of the pipeline, each run on the first
    individual of the output before it, the i-th seeing 1 + i as the global generation. *)
Inductive walk {A : Type} (pipeline : nat -> rs_ctx -> list A -> result (list A)) (caller : option Z)
  : nat -> A -> list (list A) -> A -> Prop :=
| walk_end i x : walk pipeline caller i x [] x
| walk_step i x y more outs z :
    pipeline i (mk_rs caller (Some (1 + Z.of_nat i)%Z)) [x] = Ok (y :: more) ->
    walk pipeline caller (S i) y outs z ->
    walk pipeline caller i x ((y :: more) :: outs) z.
