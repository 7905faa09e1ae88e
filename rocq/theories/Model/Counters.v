(** Generation counter, birth counter, step lookup and birth brander of leap_ec/util.py. *)
From Verif Require Import Model.Base.

(** ** leap_ec/util.py:104-149 inc_generation
    Closure state: the private counter, the value in context['leap']['generation'], and the calls
    made to the registered callbacks (callback number, argument).  Callbacks are assumed not to
    raise and not to touch the counter. *)
Record gen_counter := mk_gc { gc_curr : Z; gc_ctx : Z; gc_log : list (nat * Z) }.

(** leap_ec/util.py:123-126 *)
Definition inc_generation (start : Z) : gen_counter := mk_gc start start [].

(** leap_ec/util.py:128-129 generation() *)
Definition gc_generation (g : gen_counter) : Z := gc_curr g.

(** leap_ec/util.py:131-145 do_increment(): returns the new generation and the new state. *)
Definition gc_increment (callbacks : list nat) (g : gen_counter) : Z * gen_counter :=
  let curr := (gc_curr g + 1)%Z in
  (curr, mk_gc curr curr (gc_log g ++ map (fun f => (f, curr)) callbacks)).

(** ** leap_ec/util.py:155-237 inc_births: the context value is updated by [+=] / [-=]. *)
Record birth_counter := mk_bc { bc_curr : Z; bc_ctx : Z; bc_log : list (nat * Z) }.

(** leap_ec/util.py:196-199 *)
Definition inc_births (start : Z) : birth_counter := mk_bc start start [].

(** leap_ec/util.py:204-218 do_increment(size) *)
Definition bc_increment (callbacks : list nat) (size : Z) (b : birth_counter) : Z * birth_counter :=
  let curr := (bc_curr b + size)%Z in
  (curr, mk_bc curr (bc_ctx b + size)%Z (bc_log b ++ map (fun f => (f, curr)) callbacks)).

(** leap_ec/util.py:220-231 do_decrement() *)
Definition bc_decrement (b : birth_counter) : Z * birth_counter :=
  let curr := (bc_curr b - 1)%Z in
  (curr, mk_bc curr (bc_ctx b - 1)%Z (bc_log b)).

(** histories of the calls of leap_ec/util.py:155-237 *)
Inductive birth_op := BInc (size : Z) | BDec.

(** histories of the calls of leap_ec/util.py:155-237 *)
Definition birth_step (callbacks : list nat) (op : birth_op) (b : birth_counter) : Z * birth_counter :=
  match op with BInc n => bc_increment callbacks n b | BDec => bc_decrement b end.

(** a history of operations; the list of returned values *)
(** histories of the calls of leap_ec/util.py:155-237 *)
Fixpoint birth_run (callbacks : list nat) (ops : list birth_op) (b : birth_counter)
  : list Z * birth_counter :=
  match ops with
  | [] => ([], b)
  | op :: r =>
      let '(v, b') := birth_step callbacks op b in
      let '(vs, b'') := birth_run callbacks r b' in (v :: vs, b'')
  end.

(** histories of the calls of leap_ec/util.py:104-149 *)
Fixpoint gen_run (callbacks : list nat) (n : nat) (g : gen_counter) : list Z * gen_counter :=
  match n with
  | 0 => ([], g)
  | S n' =>
      let '(v, g') := gc_increment callbacks g in
      let '(vs, g'') := gen_run callbacks n' g' in (v :: vs, g'')
  end.

(** ** leap_ec/util.py:242-270 get_step.  [gen], [births]: context['leap'] entries if present.
    [ug], [ub]: the use_generation / use_births arguments (None, or a bool).
    Line 264 compares the two arguments with [!=], where None differs from both booleans.
    The function returns None when neither is truthy; modelled as [Ok None]. *)
Definition get_step (gen births : option Z) (ug ub : option bool) : result (option Z) :=
  let check (o : option Z) (flag : option bool) : bool :=   (* assertion holds *)
    match flag with Some true => match o with Some _ => true | None => false end | _ => true end in
  let present (o : option Z) := match o with Some _ => true | None => false end in
  let decide (ug ub : option bool) : result (option Z) :=
    let differ := match ug, ub with
                  | None, None => false
                  | Some a, Some b => negb (Bool.eqb a b)
                  | _, _ => true end in
    if differ then
      match ug with
      | Some true => match gen with Some g => Ok (Some g) | None => Err KeyError end
      | _ => match ub with
             | Some true => match births with Some b => Ok (Some b) | None => Err KeyError end
             | _ => Ok None
             end
      end
    else Err AssertionError in
  match ug, ub with
  | None, None =>
      if present gen || present births then decide (Some (present gen)) (Some (present births))
      else Err AssertionError
  | _, _ => if check gen ug && check births ub then decide ug ub else Err AssertionError
  end.

(** ** leap_ec/util.py:303-380 birth_brander
    Individuals are identified by numbers; [br_birth] is their [birth] attribute.  Closure state:
    the counter [num_births] and the shared variable [iterator] (None, or what is left of it).
    Iterating an individual iterates its genome (leap_ec/individual.py:191-196); a gene (a Python or
    numpy number) has no [birth] and does not accept one, so branding it raises AttributeError. *)
Inductive item := ItInd (i : nat) | ItGene.

(** leap_ec/util.py:303-380, continued *)
Record brander := mk_br { br_next : nat; br_iter : option (list item); br_birth : nat -> option nat }.

(** the individuals' attributes before branding are given *)
(** leap_ec/util.py:303-380 *)
Definition birth_brander (birth : nat -> option nat) : brander := mk_br 0 None birth.

(** leap_ec/util.py:333-341 brand *)
Definition brand (i : nat) (b : brander) : brander :=
  match br_birth b i with
  | Some _ => b
  | None => mk_br (S (br_next b)) (br_iter b)
              (fun j => if j =? i then Some (br_next b) else br_birth b j)
  end.

(** leap_ec/util.py:343-351 brand_population *)
Definition brand_population (l : list nat) (b : brander) : brander := fold_left (fun b i => brand i b) l b.

(** What the generator's variable [next_thing] holds: an upstream generator with what it will
    still yield, a list, or (after the first pull, line 367/372) the individual last branded. *)
(** leap_ec/util.py:303-380 *)
Inductive source := SGen (l : list nat) | SList (l : list nat) | SInd (i : nat).

(** leap_ec/util.py:353-376 do_birth_branding: one pull.  [genome_len i] is the length of an individual's
    genome.  A StopIteration raised inside a generator surfaces as RuntimeError. *)
Definition brand_pull (genome_len : nat -> nat) (src : source) (b : brander)
  : result (nat * source) * brander :=
  match src with
  | SGen [] => (Err RuntimeError, b)
  | SGen (x :: _) => (Ok (x, SInd x), brand x b)
  | SList l =>
      match (match br_iter b with None => map ItInd l | Some it => it end) with
      | [] => (Err RuntimeError, mk_br (br_next b) (Some []) (br_birth b))
      | ItInd x :: r => (Ok (x, SInd x), brand x (mk_br (br_next b) (Some r) (br_birth b)))
      | ItGene :: r => (Err AttributeError, mk_br (br_next b) (Some r) (br_birth b))
      end
  | SInd i =>
      match (match br_iter b with None => repeat ItGene (genome_len i) | Some it => it end) with
      | [] => (Err RuntimeError, mk_br (br_next b) (Some []) (br_birth b))
      | ItInd x :: r => (Ok (x, SInd x), brand x (mk_br (br_next b) (Some r) (br_birth b)))
      | ItGene :: r => (Err AttributeError, mk_br (br_next b) (Some r) (br_birth b))
      end
  end.

(** Histories: any interleaving of branding populations, starting generators from lists or upstream
    generators, pulling them, and cloning individuals (Individual.clone, leap_ec/individual.py:144,
    makes a shallow copy, which includes the [birth] attribute).  A generator that raised is finished
    (None). *)
Inductive br_op :=
| OBrandPop (l : list nat) | OStart (s : source) | OPull (g : nat) | OClone (original clone : nat).

(** leap_ec/individual.py:144, continued *)
Record br_world := mk_bw { bw_br : brander; bw_gens : list (option source); bw_out : list nat }.

(** leap_ec/individual.py:144, continued *)
Definition br_step (genome_len : nat -> nat) (op : br_op) (w : br_world) : br_world :=
  match op with
  | OBrandPop l => mk_bw (brand_population l (bw_br w)) (bw_gens w) (bw_out w)
  | OClone i j =>
      mk_bw (mk_br (br_next (bw_br w)) (br_iter (bw_br w))
               (fun n => if n =? j then br_birth (bw_br w) i else br_birth (bw_br w) n))
            (bw_gens w) (bw_out w)
  | OStart s => mk_bw (bw_br w) (bw_gens w ++ [Some s]) (bw_out w)
  | OPull g =>
      match nth_error (bw_gens w) g with
      | Some (Some s) =>
          let '(r, b') := brand_pull genome_len s (bw_br w) in
          let put v := firstn g (bw_gens w) ++ v :: skipn (S g) (bw_gens w) in
          match r with
          | Ok (x, s') => mk_bw b' (put (Some s')) (bw_out w ++ [x])
          | Err _ => mk_bw b' (put None) (bw_out w)
          end
      | _ => w
      end
  end.

(** leap_ec/individual.py:144, continued *)
Definition br_run (genome_len : nat -> nat) (ops : list br_op) (w : br_world) : br_world :=
  fold_left (fun w op => br_step genome_len op w) ops w.
