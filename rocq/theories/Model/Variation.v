(** Crossover and mutation at the level of genomes.  Random draws are arguments. *)
From Verif Require Import Model.Base.

(** ndarray.sort *)
(** leap_ec/ops.py:565-576 *)
Fixpoint insert_nat (x : nat) (l : list nat) : list nat :=
  match l with
  | [] => [x]
  | y :: r => if x <=? y then x :: l else y :: insert_nat x r
  end.
(** leap_ec/ops.py:565-576 *)
Definition sort_nat (l : list nat) : list nat := fold_right insert_nat [] l.

(** leap_ec/ops.py:565-576 NAryCrossover._pick_crossover_points *)
Definition pick_crossover_points (draws : list nat) (genome_size : nat) : list nat :=
  [0] ++ sort_nat draws ++ [genome_size].

Section Crossover.
Context {G : Type}.

(** genome[mask]: the selected elements (numpy boolean indexing); IndexError on a length mismatch *)
(** leap_ec/ops.py:483-499 *)
Fixpoint select_mask (mask : list bool) (l : list G) : list G :=
  match mask, l with
  | b :: mask', x :: l' => if b then x :: select_mask mask' l' else select_mask mask' l'
  | _, _ => []
  end.

(** genome[mask] = new *)
(** leap_ec/ops.py:483-499 *)
Fixpoint assign_mask (mask : list bool) (l new : list G) : list G :=
  match mask, l with
  | b :: mask', x :: l' =>
      if b then match new with
                | y :: new' => y :: assign_mask mask' l' new'
                | [] => x :: assign_mask mask' l' []
                end
      else x :: assign_mask mask' l' new
  | _, _ => l
  end.

(** leap_ec/ops.py:483-499 UniformCrossover.recombine.  [mask]: random_bernoulli_vector(min_length).  With
    genomes of different lengths the mask does not fit the longer one: IndexError. *)
Definition uniform_recombine (mask : list bool) (a b : list G) : result (list G * list G) :=
  if (length a =? length mask) && (length b =? length mask) then
    let tmp := select_mask mask a in
    let a' := assign_mask mask a (select_mask mask b) in
    let b' := assign_mask mask b tmp in
    Ok (a', b')
  else Err IndexError.

(** genome[start:stop] *)
(** leap_ec/ops.py:578-612 *)
Definition slice (start stop : nat) (l : list G) : list G := firstn (stop - start) (skipn start l).

(** toolz.sliding_window(2, xpts) *)
(** leap_ec/ops.py:585-600 *)
Fixpoint windows (xs : list nat) : list (nat * nat) :=
  match xs with
  | x :: ((y :: _) as r) => (x, y) :: windows r
  | _ => []
  end.

(** leap_ec/ops.py:585-600: the sections of the two children; [flip] is false while src1 = 0 *)
Fixpoint nary_sections (flip : bool) (ws : list (nat * nat)) (a b : list G) : list G * list G :=
  match ws with
  | [] => ([], [])
  | (start, stop) :: r =>
      let '(s1, s2) := nary_sections (negb flip) r a b in
      let x := slice start stop (if flip then b else a) in
      let y := slice start stop (if flip then a else b) in
      (x ++ s1, y ++ s2)
  end.

(** leap_ec/ops.py:578-612 NAryCrossover.recombine.  [draws]: the random choice, without replacement, of
    num_points numbers from range(len(a)) made by _pick_crossover_points. *)
Definition nary_recombine (num_points : nat) (draws : list nat) (a b : list G)
  : result (list G * list G) :=
  if (length a <? num_points) || (length b <? num_points) then Err RuntimeError
  else Ok (nary_sections false (windows (pick_crossover_points draws (length a))) a b).
End Crossover.

(** ** Mutation *)

(** leap_ec/ops.py:1453-1469 compute_expected_probability (exact arithmetic); 1.0/0 raises *)
Definition compute_expected_probability (expected : Q) (len : nat) : result Q :=
  if len =? 0 then Err ZeroDivisionError else Ok (1 / inject_Z (Z.of_nat len) * expected)%Q.

(** leap_ec/ops.py:1501-1518 random_bernoulli_vector: [us] are the draws of np.random.rand, each in [0,1) *)
Definition random_bernoulli_vector (us : list Q) (p : Q) : result (list bool) :=
  if Qle_bool 0 p && Qle_bool p 1 then Ok (map (fun u => Qltb u p) us) else Err AssertionError.

(** The checks at the head of mutate_bitflip (leap_ec/binary_rep/ops.py:40-45), mutate_randint
    (leap_ec/int_rep/ops.py:39-44) and mutate_binomial (leap_ec/int_rep/ops.py:204-209); [e] is ValueError there.
    The per-genome functions repeat them as assertions (leap_ec/binary_rep/ops.py:77-79, leap_ec/int_rep/ops.py:81-83,
    250-252), [e] = AssertionError. *)
Definition check_rate (e : exn) (expected probability : option Q) : result unit :=
  match expected, probability with
  | Some _, Some _ => Err e
  | None, None => Err e
  | None, Some p => if Qltb p 0 || Qltb 1 p then Err e else Ok tt
  | Some _, None => Ok tt
  end.

(** The mask of genes to mutate: leap_ec/binary_rep/ops.py:85-93, leap_ec/int_rep/ops.py:91-96, 272-277 *)
Definition mutation_mask (expected probability : option Q) (us : list Q) (len : nat) : result (list bool) :=
  match probability, expected with
  | Some p, _ => random_bernoulli_vector us p
  | None, Some e => bind (compute_expected_probability e len) (random_bernoulli_vector us)
  | None, None => Err TypeError
  end.

(** leap_ec/binary_rep/ops.py:62-96 genome_mutate_bitflip; [us] has one draw per gene *)
Definition genome_mutate_bitflip (expected probability : option Q) (us : list Q) (genome : list Z)
  : result (list Z) :=
  bind (check_rate AssertionError expected probability) (fun _ =>
  bind (mutation_mask expected probability us (length genome)) (fun mask =>
  Ok (assign_mask mask genome (map (fun g => Z.modulo (g + 1) 2) (select_mask mask genome))))).

(** Bounds: one pair for all genes, or one pair per gene (leap_ec/real_rep/ops.py:168-179) *)
Inductive bounds (N : Type) := BScalar (low high : N) | BEach (bs : list (N * N)).
Arguments BScalar {N} low high.
Arguments BEach {N} bs.

(** leap_ec/real_rep/ops.py:145-181 apply_hard_bounds = np.clip(genome, low, high), which is
    minimum(maximum(x, low), high) per gene.  numpy raises ValueError when the shapes differ
    (broadcasting a list of one pair is not modelled). *)
Definition clip_with {N} (clip : N -> N -> N -> N) (genome : list N) (b : bounds N) : result (list N) :=
  match b with
  | BScalar low high => Ok (map (clip low high) genome)
  | BEach bs =>
      if length bs =? length genome
      then Ok (map (fun xb => clip (fst (snd xb)) (snd (snd xb)) (fst xb)) (combine genome bs))
      else Err ValueError
  end.

(** maximum/minimum of extended numbers; NaN genes and bounds are not modelled *)
(** for np.clip at leap_ec/real_rep/ops.py:145-181 *)
Definition ext_max (x y : ext) : ext := if ext_ltb x y then y else x.
(** for np.clip at leap_ec/real_rep/ops.py:145-181 *)
Definition ext_min (x y : ext) : ext := if ext_ltb y x then y else x.
(** np.clip at leap_ec/real_rep/ops.py:181 *)
Definition ext_clip (low high x : ext) : ext := ext_min (ext_max x low) high.
(** np.clip on integers, leap_ec/real_rep/ops.py:181 called by leap_ec/int_rep/ops.py:261-294 *)
Definition Z_clip (low high x : Z) : Z := Z.min (Z.max x low) high.

(** the mutated value of a real gene, leap_ec/real_rep/ops.py:129-133: slope * (x + noise*std) + intercept.
    An infinite gene stays infinite when the slope is positive; genes are taken finite here. *)
Definition gaussian_gene (slope intercept noise std x : Q) : Q :=
  (slope * (x + noise * std) + intercept)%Q.

(** leap_ec/real_rep/ops.py:129-133, continued *)
Fixpoint map3 {A B C D} (f : A -> B -> C -> D) (la : list A) (lb : list B) (lc : list C) : list D :=
  match la, lb, lc with
  | a :: ra, b :: rb, c :: rc => f a b c :: map3 f ra rb rc
  | _, _, _ => []
  end.

(** leap_ec/real_rep/ops.py:79-139 genome_mutate_gaussian on float genomes.  [expected] = None stands for
    'isotropic'; [stds]: a scalar or one per gene (boolean indexing of a std vector of the wrong
    length raises IndexError); [noise]: the normal deviates, in the order of the selected genes.
    Returns the array left behind by the in-place assignment (line 134) and the new clipped array
    (line 137). *)
Definition genome_mutate_gaussian (stds : Q + list Q) (expected : option Q) (b : bounds ext)
    (slope intercept : Q) (us noise : list Q) (genome : list Q) : result (list Q * list ext) :=
  bind (match stds with
        | inl s => if Qltb s 0 then Err AssertionError else Ok tt
        | inr _ => Ok tt
        end) (fun _ =>
  bind (match expected with
        | None => Ok 1%Q
        | Some e => compute_expected_probability e (length genome)
        end) (fun p =>
  bind (random_bernoulli_vector us p) (fun mask =>
  bind (match stds with
        | inl s => Ok (map (fun _ => s) (select_mask mask genome))
        | inr l => if length l =? length mask then Ok (select_mask mask l) else Err IndexError
        end) (fun stds_selected =>
  let inplace := assign_mask mask genome
                   (map3 (gaussian_gene slope intercept) noise stds_selected (select_mask mask genome)) in
  bind (clip_with ext_clip (map Fin inplace) b) (fun out => Ok (inplace, out)))))).

(** leap_ec/real_rep/ops.py:20-73 mutate_gaussian: expected_num_mutations must be given, then
    genome_mutate_gaussian does the work.  [expected] = None here is Python's None; [Some None] is
    'isotropic'. *)
Definition mutate_gaussian (stds : Q + list Q) (expected : option (option Q)) (b : bounds ext)
    (slope intercept : Q) (us noise : list Q) (genome : list Q) : result (list Q * list ext) :=
  match expected with
  | None => Err ValueError
  | Some e => genome_mutate_gaussian stds e b slope intercept us noise genome
  end.

(** np.random.randint(low, high) with high exclusive: some integer of the range, ValueError when the
    range is empty.  [d] is an arbitrary integer deciding which. *)
(** leap_ec/int_rep/ops.py:99-104 *)
Definition randint_gene (d low high : Z) : result Z :=
  if (high <=? low)%Z then Err ValueError else Ok (low + d mod (high - low))%Z.

(** leap_ec/int_rep/ops.py:99-104 *)
Fixpoint randint_genes (ds : list Z) (bs : list (Z * Z)) : result (list Z) :=
  match ds, bs with
  | d :: ds', (low, high) :: bs' =>
      bind (randint_gene d low (high + 1)) (fun x =>
      bind (randint_genes ds' bs') (fun r => Ok (x :: r)))
  | _, _ => Ok []
  end.

(** leap_ec/int_rep/ops.py:64-108 individual_mutate_randint: bounds are per gene; a bounds list of another
    length than the genome fails the boolean indexing with IndexError *)
Definition individual_mutate_randint (bs : list (Z * Z)) (expected probability : option Q)
    (us : list Q) (ds : list Z) (genome : list Z) : result (list Z) :=
  bind (check_rate AssertionError expected probability) (fun _ =>
  bind (mutation_mask expected probability us (length genome)) (fun mask =>
  if length bs =? length mask then
    bind (randint_genes ds (select_mask mask bs)) (fun new => Ok (assign_mask mask genome new))
  else Err IndexError)).

(** leap_ec/int_rep/ops.py:233-294 genome_mutate_binomial's mutator on integer genomes.  [ks]: the binomial
    samples for the selected genes; [fls]: floor(n*p) for each of them (p comes from a square root and
    is left abstract; line 284).  Returns the array modified in place (line 286) and the new array. *)
Definition genome_mutate_binomial (b : bounds Z) (expected probability : option Q)
    (us : list Q) (ks fls : list Z) (genome : list Z) : result (list Z * list Z) :=
  bind (check_rate AssertionError expected probability) (fun _ =>
  bind (mutation_mask expected probability us (length genome)) (fun mask =>
  let inplace := assign_mask mask genome
                   (map3 (fun k fl x => x + (k - fl))%Z ks fls (select_mask mask genome)) in
  bind (clip_with Z_clip inplace b) (fun out => Ok (inplace, out)))).
