(** Specifications for individuals as mutable objects and for lazy pipelines. *)
From Verif Require Import Model.Base Model.Heap Model.Pipeline.

Section Spec.
Context {G P F : Type}.

(** The score of a genome: decode it, then ask the problem. *)
Definition score (decoder : option (list G -> result P)) (problem : phen_value G P -> result F)
    (genome : list G) : result F :=
  match decoder with
  | None => problem (VArr genome)
  | Some d => match d genome with Ok p => problem (VVal p) | Err e => Err e end
  end.

(** A sensible heap: existing individuals hold existing arrays and used-up ids. *)
Definition sane (w : world G P F) : Prop :=
  forall i, i < w_nind w ->
    i_genome (w_ind w i) < w_narr w /\ i_uuid (w_ind w i) < w_uuid w.

(** What can happen to the individuals of a program, starting with none: new arrays, individuals made
    from an existing array, clones, writes into arrays, changes of fitness or cached phenome. *)
Inductive life : world G P F -> Prop :=
| life_start w : w_nind w = 0 -> life w
| life_array w g a w' : life w -> new_arr w g = (a, w') -> life w'
| life_create w a problem decoder robust c w' : life w -> a < w_narr w -> create w a problem decoder robust = (c, w') -> life w'
| life_clone w i c w' : life w -> i < w_nind w -> clone w i = (c, w') -> life w'
| life_write w a g : life w -> life (upd_arr w a g)
| life_fitness w i f : life w -> life (upd_ind w i (set_fitness f))
| life_phenome w i p : life w -> life (upd_ind w i (set_phenome p)).

(** In-place writes: (true, g) stores g into the first individual's array, (false, g) the second's. *)
Fixpoint writes (w : world G P F) (i j : nat) (l : list (bool * list G)) : world G P F :=
  match l with
  | [] => w
  | (b, g) :: r => writes (upd_arr w (i_genome (w_ind w (if b then i else j))) g) i j r
  end.

(** The last value written under tag [b], or the initial one. *)
Fixpoint last_written (b : bool) (l : list (bool * list G)) (initial : list G) : list G :=
  match l with
  | [] => initial
  | (b', g) :: r => last_written b r (if Bool.eqb b b' then g else initial)
  end.

(** Everything that existed in [w] is the same in [w']: all attributes of the individuals and the
    contents of the arrays. *)
Definition untouched (w w' : world G P F) : Prop :=
  (forall i, i < w_nind w -> w_ind w' i = w_ind w i) /\
  (forall a, a < w_narr w -> w_arr w' a = w_arr w a).

(** New objects that share no genome storage with anything in [w] or with each other. *)
Definition fresh_and_separate (w w' : world G P F) (l : list nat) : Prop :=
  NoDup l /\ NoDup (map (fun i => i_genome (w_ind w' i)) l) /\
  forall i, In i l -> w_nind w <= i /\ w_narr w <= i_genome (w_ind w' i).

(** ** Demand in a pipeline *)
Definition is_source (o : op G) : bool :=
  match o with OpIter _ => true | OpSelect _ _ => true | _ => false end.
Definition is_xover (o : op G) : bool := match o with OpXover _ _ _ => true | _ => false end.

(** operators from most downstream to the source *)
Fixpoint pipeline_shape (stack : list (op G)) : Prop :=
  match stack with
  | [] => False
  | [o] => is_source o = true
  | o :: up => is_source o = false /\ pipeline_shape up
  end.

(** To hand out k individuals an operator needs k from upstream; crossover needs whole pairs. *)
Definition need (o : op G) (k : nat) : nat := if is_xover o then k + k mod 2 else k.

Fixpoint demand (stack : list (op G)) (k : nat) : list nat :=
  match stack with
  | [] => []
  | o :: up => k :: demand up (need o k)
  end.

(** how many individuals the source has to supply *)
Fixpoint source_demand (stack : list (op G)) (k : nat) : nat :=
  match stack with
  | [] => k
  | [o] => k
  | o :: up => source_demand up (need o k)
  end.
End Spec.

(** The cached phenome, if any, is the decoding of the current genome. *)
Definition cache_current {G P F} (decoder_of : nat -> option (list G -> result P)) (w : world G P F)
    (i : nat) : Prop :=
  match i_phenome (w_ind w i) with
  | None => True
  | Some p =>
      match decoder_of (i_decoder (w_ind w i)) with
      | None => resolve w p = VArr (genes w i)
      | Some d => exists v, d (genes w i) = Ok v /\ p = PhVal v
      end
  end.

(** What an individual shows as its phenome: what is cached, or else the decoding of its genome. *)
Definition presented {G P F} (decoder_of : nat -> option (list G -> result P)) (w : world G P F) (i : nat)
  : result (phen_value G P) :=
  match i_phenome (w_ind w i) with
  | Some (PhArr a) => Ok (VArr (w_arr w a))
  | Some (PhVal v) => Ok (VVal v)
  | None =>
      match decoder_of (i_decoder (w_ind w i)) with
      | None => Ok (VArr (w_arr w (i_genome (w_ind w i))))
      | Some d => match d (w_arr w (i_genome (w_ind w i))) with Ok v => Ok (VVal v) | Err e => Err e end
      end
  end.
(** The problem's score of that. *)
Definition presented_score {G P F} (decoder_of : nat -> option (list G -> result P))
    (problem_of : nat -> phen_value G P -> result F) (w : world G P F) (i : nat) : result F :=
  match presented decoder_of w i with
  | Err e => Err e
  | Ok v => problem_of (i_problem (w_ind w i)) v
  end.

(** The fitness an individual ends with after an evaluation that did not raise. *)
Definition outcome {F} (nan : F) (r : result F) : F := match r with Ok f => f | Err _ => nan end.

Section Stacks.
Context {G P F : Type}.
Variable decoder_of : nat -> option (list G -> result P).
Variable problem_of : nat -> phen_value G P -> result F.

(** No operator and no evaluation raises. *)
Definition never_fails (o : op G) : Prop :=
  match o with
  | OpIter _ => True
  | OpSelect pop pick => forall k, pick k < length pop
  | OpMutate f _ => forall k g, exists r, f k g = Ok r
  | OpXover _ f _ => forall k a b, exists r, f k a b = Ok r
  | OpClone => True
  | OpEval => forall decoder problem g, exists f, score (decoder_of decoder) (problem_of problem) g = Ok f
  end.

(** Operators that end their own stream quietly when the stream before them ends *)
Definition quiet (o : op G) : Prop := exists f, o = OpMutate f true.

(** A stack whose operators work on clones of individuals with addresses below [n]. *)
Fixpoint breeding (n : nat) (stack : list (op G)) : Prop :=
  match stack with
  | OpClone :: up =>
      match up with
      | [OpSelect pop _] => forall i, In i pop -> i < n
      | [OpIter items] => forall i, In i items -> i < n
      | _ => breeding n up
      end
  | OpMutate _ _ :: up => breeding n up
  | OpXover _ _ _ :: up => breeding n up
  | OpEval :: up => breeding n up
  | _ => False
  end.
End Stacks.

(** Evaluating one individual again and again while the environment (decoders, problems) may behave
    differently each time; the returned values are collected. *)
Fixpoint attempts {G P F} (nan : F)
    (envs : list ((nat -> option (list G -> result P)) * (nat -> phen_value G P -> result F)))
    (w : world G P F) (i : nat) : list (result F) * world G P F :=
  match envs with
  | [] => ([], w)
  | (d, p) :: r =>
      let '(v, w1) := evaluate nan d p w i in
      let '(vs, w2) := attempts nan r w1 i in (v :: vs, w2)
  end.
