(** Individuals as mutable objects: a heap of individuals and of genome arrays.
    Genome arrays and individuals are named by addresses (nat); two individuals share genome storage
    when they hold the same array address. *)
From Verif Require Import Model.Base.

(** attribute assignment, for example leap_ec/individual.py:67-75 *)
Definition upd {A} (f : nat -> A) (k : nat) (v : A) : nat -> A := fun n => if n =? k then v else f n.

Section Heap.
(** [G]: genes; [P]: phenomes built by a decoder; [F]: fitness values with a NaN *)
Context {G P F : Type}.
Variable nan : F.

(** A cached phenome is either the genome array itself (IdentityDecoder, leap_ec/decoder.py, returns its
    argument) or a value made by the decoder. *)
(** leap_ec/individual.py:78-83, 153-164 *)
Inductive phenome := PhArr (a : nat) | PhVal (p : P).
(** what the problem sees *)
(** leap_ec/individual.py:166-174 *)
Inductive phen_value := VArr (genes : list G) | VVal (p : P).

(** leap_ec/individual.py:67-75 the attributes; [i_robust]: a RobustIndividual; [i_viable] and [i_exc] are
    None while the attribute does not exist *)
Record indiv := mk_indiv {
  i_genome : nat;
  i_problem : nat;
  i_decoder : nat;
  i_fitness : option F;
  i_phenome : option phenome;
  i_uuid : nat;
  i_parents : list nat;
  i_robust : bool;
  i_viable : option bool;
  i_exc : option exn }.

(** the objects of leap_ec/individual.py:27-75 *)
Record world := mk_world {
  w_ind : nat -> indiv;
  w_arr : nat -> list G;
  w_nind : nat;   (* next unused individual address *)
  w_narr : nat;   (* next unused array address *)
  w_uuid : nat }. (* next unused id; uuid4 ids are taken to be unique *)

(** self.fitness = ..., leap_ec/individual.py:176-189 *)
Definition set_fitness (f : option F) (x : indiv) : indiv :=
  mk_indiv (i_genome x) (i_problem x) (i_decoder x) f (i_phenome x) (i_uuid x) (i_parents x)
           (i_robust x) (i_viable x) (i_exc x).
(** self._phenome = ..., leap_ec/individual.py:153-164 *)
Definition set_phenome (p : option phenome) (x : indiv) : indiv :=
  mk_indiv (i_genome x) (i_problem x) (i_decoder x) (i_fitness x) p (i_uuid x) (i_parents x)
           (i_robust x) (i_viable x) (i_exc x).
(** individual.genome = ..., leap_ec/ops.py:392-400 *)
Definition set_genome (a : nat) (x : indiv) : indiv :=
  mk_indiv a (i_problem x) (i_decoder x) (i_fitness x) (i_phenome x) (i_uuid x) (i_parents x)
           (i_robust x) (i_viable x) (i_exc x).
(** parents of a clone or of a crossover, leap_ec/individual.py:118-151 *)
Definition set_parents (ps : list nat) (x : indiv) : indiv :=
  mk_indiv (i_genome x) (i_problem x) (i_decoder x) (i_fitness x) (i_phenome x) (i_uuid x) ps
           (i_robust x) (i_viable x) (i_exc x).
(** leap_ec/individual.py:281-304 *)
Definition set_outcome (f : option F) (v : option bool) (e : option exn) (x : indiv) : indiv :=
  mk_indiv (i_genome x) (i_problem x) (i_decoder x) f (i_phenome x) (i_uuid x) (i_parents x)
           (i_robust x) v e.

(** assign to an attribute of individual [i] *)
(** attribute assignment, for example leap_ec/individual.py:176-189 *)
Definition upd_ind (w : world) (i : nat) (f : indiv -> indiv) : world :=
  mk_world (upd (w_ind w) i (f (w_ind w i))) (w_arr w) (w_nind w) (w_narr w) (w_uuid w).
(** write into array [a] in place *)
(** genome[i] = ..., for example leap_ec/ops.py:490-499 *)
Definition upd_arr (w : world) (a : nat) (genes : list G) : world :=
  mk_world (w_ind w) (upd (w_arr w) a genes) (w_nind w) (w_narr w) (w_uuid w).
(** make a new array *)
(** a fresh array, for example leap_ec/individual.py:118-151 *)
Definition new_arr (w : world) (genes : list G) : nat * world :=
  (w_narr w, mk_world (w_ind w) (upd (w_arr w) (w_narr w) genes) (w_nind w) (S (w_narr w)) (w_uuid w)).

(** the genes of individual [i] *)
(** individual.genome, leap_ec/individual.py:67-75 *)
Definition genes (w : world) (i : nat) : list G := w_arr w (i_genome (w_ind w i)).

(** leap_ec/individual.py:118-151 clone: copy(self) keeps every attribute, among them the cached phenome;
    then a deep copy of the genome, no fitness, a new uuid, and the original's uuid as parents *)
Definition clone (w : world) (i : nat) : nat * world :=
  let x := w_ind w i in
  let '(a, w1) := new_arr w (w_arr w (i_genome x)) in
  let c := mk_indiv a (i_problem x) (i_decoder x) None (i_phenome x) (w_uuid w1) [i_uuid x]
                    (i_robust x) (i_viable x) (i_exc x) in
  (w_nind w1, mk_world (upd (w_ind w1) (w_nind w1) c) (w_arr w1) (S (w_nind w1)) (w_narr w1)
                       (S (w_uuid w1))).

(** leap_ec/individual.py:27-75 __init__ with an existing genome array *)
Definition create (w : world) (a problem decoder : nat) (robust : bool) : nat * world :=
  let c := mk_indiv a problem decoder None None (w_uuid w) [] robust None None in
  (w_nind w, mk_world (upd (w_ind w) (w_nind w) c) (w_arr w) (S (w_nind w)) (w_narr w) (S (w_uuid w))).

(** decoders by id: None is IdentityDecoder; a decoder may raise *)
Variable decoder_of : nat -> option (list G -> result P).
(** problems by id: Problem.evaluate, which may raise.  It neither keeps state nor changes the phenome. *)
Variable problem_of : nat -> phen_value -> result F.

(** leap_ec/individual.py:153-164 decode: recomputes and caches *)
Definition decode (w : world) (i : nat) : result phenome * world :=
  let x := w_ind w i in
  match decoder_of (i_decoder x) with
  | None => (Ok (PhArr (i_genome x)), upd_ind w i (set_phenome (Some (PhArr (i_genome x)))))
  | Some d =>
      match d (w_arr w (i_genome x)) with
      | Ok p => (Ok (PhVal p), upd_ind w i (set_phenome (Some (PhVal p))))
      | Err e => (Err e, w)
      end
  end.

(** leap_ec/individual.py:78-83 the phenome property: decode only if nothing is cached *)
Definition get_phenome (w : world) (i : nat) : result phenome * world :=
  match i_phenome (w_ind w i) with
  | Some p => (Ok p, w)
  | None => decode w i
  end.

(** leap_ec/individual.py:78-83, continued *)
Definition resolve (w : world) (p : phenome) : phen_value :=
  match p with PhArr a => VArr (w_arr w a) | PhVal v => VVal v end.

(** leap_ec/individual.py:166-174 evaluate_imp *)
Definition evaluate_imp (w : world) (i : nat) : result F * world :=
  match decode w i with
  | (Err e, w1) => (Err e, w1)
  | (Ok _, w1) =>
      match get_phenome w1 i with
      | (Err e, w2) => (Err e, w2)
      | (Ok p, w2) => (problem_of (i_problem (w_ind w2 i)) (resolve w2 p), w2)
      end
  end.

(** leap_ec/individual.py:176-189 Individual.evaluate and 281-304 RobustIndividual.evaluate.  Returns what
    evaluate returns.  Exceptions not derived from Exception are not modelled. *)
Definition evaluate (w : world) (i : nat) : result F * world :=
  let '(r, w1) := evaluate_imp w i in
  if i_robust (w_ind w i) then
    let w2 := match r with
              | Ok f => upd_ind w1 i (fun x => set_outcome (Some f) (Some true) (i_exc x) x)
              | Err e => upd_ind w1 i (set_outcome (Some nan) (Some false) (Some e))
              end in
    (match i_fitness (w_ind w2 i) with Some f => Ok f | None => Err TypeError end, w2)
  else
    match r with
    | Ok f => (Ok f, upd_ind w1 i (set_fitness (Some f)))
    | Err e => (Err e, w1)
    end.

(** leap_ec/individual.py:105-116 evaluate_population *)
Fixpoint evaluate_population (w : world) (l : list nat) : result unit * world :=
  match l with
  | [] => (Ok tt, w)
  | i :: r =>
      match evaluate w i with
      | (Err e, w1) => (Err e, w1)
      | (Ok _, w1) => evaluate_population w1 r
      end
  end.

(** [c.phenome for c in chunk] *)
(** leap_ec/ops.py:289-294 *)
Fixpoint get_phenomes (w : world) (l : list nat) : result (list phenome) * world :=
  match l with
  | [] => (Ok [], w)
  | i :: r =>
      match get_phenome w i with
      | (Err e, w1) => (Err e, w1)
      | (Ok p, w1) =>
          match get_phenomes w1 r with
          | (Err e, w2) => (Err e, w2)
          | (Ok ps, w2) => (Ok (p :: ps), w2)
          end
      end
  end.

(** a problem's evaluate_multiple.  [takes_individuals]: does it accept the keyword [individuals]?
    The default one (leap_ec/problem.py:58-64) does not; its body calls evaluate on each phenome. *)
Variable takes_individuals : nat -> bool.

(** leap_ec/problem.py:58-64, continued *)
Fixpoint mapM {A B} (f : A -> result B) (l : list A) : result (list B) :=
  match l with
  | [] => Ok []
  | x :: r => bind (f x) (fun y => bind (mapM f r) (fun ys => Ok (y :: ys)))
  end.

(** leap_ec/problem.py:58-64, continued *)
Definition evaluate_multiple (problem : nat) (w : world) (ps : list phenome) : result (list F) :=
  if takes_individuals problem then mapM (fun p => problem_of problem (resolve w p)) ps
  else Err TypeError.

(** leap_ec/ops.py:281-284 chunks: lst[i:i+n] for i in range(0, len(lst), n); [fuel] >= number of chunks *)
Fixpoint chunks {A} (fuel n : nat) (l : list A) : list (list A) :=
  match fuel, l with
  | S fuel', _ :: _ => firstn n l :: chunks fuel' n (skipn n l)
  | _, _ => []
  end.

(** leap_ec/ops.py:281-284, continued *)
Fixpoint evaluate_chunks (problem : nat) (w : world) (cs : list (list nat)) : result (list F) * world :=
  match cs with
  | [] => (Ok [], w)
  | c :: r =>
      match get_phenomes w c with
      | (Err e, w1) => (Err e, w1)
      | (Ok ps, w1) =>
          match evaluate_multiple problem w1 ps with
          | Err e => (Err e, w1)
          | Ok fs =>
              match evaluate_chunks problem w1 r with
              | (Err e, w2) => (Err e, w2)
              | (Ok gs, w2) => (Ok (fs ++ gs), w2)
              end
          end
      end
  end.

(** leap_ec/ops.py:281-284, continued *)
Fixpoint assign_fitnesses (w : world) (l : list nat) (fs : list F) : world :=
  match l, fs with
  | i :: r, f :: fr => assign_fitnesses (upd_ind w i (set_fitness (Some f))) r fr
  | _, _ => w
  end.

(** leap_ec/ops.py:270-299 grouped_evaluate; problems are compared by identity (no problem class defines
    __eq__).  range() with step 0 raises ValueError. *)
Definition grouped_evaluate (chunk_size : option nat) (w : world) (l : list nat) : result unit * world :=
  let n := match chunk_size with Some n => n | None => length l end in
  match l with
  | [] => (Err IndexError, w)
  | i :: _ =>
      let problem := i_problem (w_ind w i) in
      if forallb (fun j => i_problem (w_ind w j) =? problem) l then
        if n =? 0 then (Err ValueError, w)
        else
          match evaluate_chunks problem w (chunks (length l) n l) with
          | (Err e, w1) => (Err e, w1)
          | (Ok fs, w1) => (Ok tt, assign_fitnesses w1 l fs)
          end
      else (Err AssertionError, w)
  end.

(** A mutation operator's effect on one individual: the genome function writes into the array and
    returns either the same array or a fresh one, which becomes the genome; the fitness is cleared
    (leap_ec/binary_rep/ops.py:48-54, leap_ec/real_rep/ops.py:67-71, leap_ec/int_rep/ops.py:52-56, 222-224). *)
Definition mutate_ind (f : list G -> result (list G * option (list G))) (w : world) (i : nat)
  : result unit * world :=
  match f (genes w i) with
  | Err e => (Err e, w)
  | Ok (inplace, fresh) =>
      let w1 := upd_arr w (i_genome (w_ind w i)) inplace in
      let w2 := match fresh with
                | None => w1
                | Some g => let '(a, w') := new_arr w1 g in upd_ind w' i (set_genome a)
                end in
      (Ok tt, upd_ind w2 i (set_fitness None))
  end.

(** set union of uuid sets *)
(** leap_ec/ops.py:397-398 *)
Definition union (a b : list nat) : list nat :=
  a ++ filter (fun x => negb (existsb (Nat.eqb x) a)) b.

(** leap_ec/ops.py:392-400: recombination, joint parentage, cleared fitness.  [f] gives the two new genomes;
    [fresh]: n-point crossover builds new arrays (601-610), uniform crossover writes in place (494-497). *)
Definition recombine_ind (f : list G -> list G -> result (list G * list G)) (fresh : bool)
    (w : world) (i j : nat) : result unit * world :=
  match f (genes w i) (genes w j) with
  | Err e => (Err e, w)
  | Ok (g1, g2) =>
      let w1 :=
        if fresh then
          let '(a1, wa) := new_arr w g1 in
          let '(a2, wb) := new_arr (upd_ind wa i (set_genome a1)) g2 in
          upd_ind wb j (set_genome a2)
        else upd_arr (upd_arr w (i_genome (w_ind w i)) g1) (i_genome (w_ind w j)) g2 in
      let w2 := upd_ind w1 i (fun x => set_parents (union (i_parents x) (i_parents (w_ind w1 j))) x) in
      let w3 := upd_ind w2 j (fun x => set_parents (union (i_parents x) (i_parents (w_ind w2 i))) x) in
      (Ok tt, upd_ind (upd_ind w3 j (set_fitness None)) i (set_fitness None))
  end.

(** leap_ec/ops.py:392: np.random.uniform() > self.p_xover; [u] is the draw, in [0,1) *)
Definition xover_skipped (p_xover u : Q) : bool := Qltb p_xover u.

(** leap_ec/ops.py:392-400 what happens to one pair *)
Definition xover_pair (skip : bool) (f : list G -> list G -> result (list G * list G)) (fresh : bool)
    (w : world) (i j : nat) : result unit * world :=
  if skip then (Ok tt, w) else recombine_ind f fresh w i j.
End Heap.
Arguments indiv : clear implicits.
Arguments world : clear implicits.
Arguments phenome : clear implicits.
Arguments phen_value : clear implicits.
