(** Genomes and draws of the examples' (mu + lambda) programs. *)
From Coq Require Import Permutation.
From Verif Require Import Model.Base Model.Scalar Model.Counters Model.Heap Model.Pipeline Model.Variation
  Spec.Order Spec.Variation Spec.RealProblems Spec.HeapEa.

(** genomes of four numbers *)
Definition four (g : list Q) : Prop := length g = 4.
(** as many draws as one mutation of four genes asks for, each gene being mutated with probability [p] *)
Definition fitting (p : Q) (us noise : list Q) : Prop := length us = 4 /\ length noise = selected_before us p 4.
(** draws of an initial genome *)
Definition uniform_four (us : list Q) : Prop := length us = 4 /\ Forall (fun u => 0 <= u /\ u < 1)%Q us.

(** the run [r] finishes after [n] generations, all populations have [pop_size] members and all broods thrice as many, every
    one of them four numbers with the sum of their squares as fitness, and [step] holds of the step size of each generation *)
Definition ran (n pop_size : nat) (r : option (result (list nat * world Q unit num * list (list nat) * list (Q * list nat)) * gen_counter))
    (step : nat -> Q -> Prop) : Prop :=
  exists final w' earlier used gc', r = Some (Ok (final, w', earlier, used), gc') /\
    length earlier = n /\ length used = n /\ gc_ctx gc' = Z.of_nat n /\
    (forall q, In q (earlier ++ [final]) -> length q = pop_size) /\
    (forall s o, In (s, o) used -> length o = pop_size * 3) /\
    (forall q i, In q (earlier ++ [final]) \/ In q (map snd used) -> In i q -> four (genes w' i) /\
      exists v, i_fitness (w_ind w' i) = Some (NFlt true (Fin v)) /\ v == sq_length (genes w' i))%Q /\
    (forall j s o, nth_error used j = Some (s, o) -> step j s).

(** example: one individual of two bits, a brood of two; the first child is a copy of its parent, the second has both
    bits flipped *)
Definition ex_flips (k : nat) : list Q := if k =? 0 then [9 # 10; 9 # 10]%Q else [1 # 10; 1 # 10]%Q.
Definition ex_stages (_ : nat) (_ : Q) : list (op Z) := [OpEval; bitflip_op 1 ex_flips; OpClone].

(** one mutation of the genome [g]: where the gene's draw is below [p] its deviate times [step] is added, elsewhere the gene
    stays *)
Definition stepped (p step : Q) (us noise : list Q) (g g' : list Q) : Prop :=
  changed_where (drawn us p) (fun i x x' => exists z, nth_error noise (selected_before us p i) = Some z /\ x' == x + z * step)%Q
    (fun _ x x' => x' == x)%Q g g'.
(** the k-th child of generation j is such a mutant of the parent that the selection operator picked as its k-th *)
Definition bred_by (p : Q) (step : nat -> Q) (us noise : nat -> nat -> list Q)
    (pick : nat -> world Q unit num -> list nat -> nat -> nat) (w' : world Q unit num) (j : nat) (brood parents : list nat) : Prop :=
  exists wj, forall k c, nth_error brood k = Some c ->
    exists y, nth_error parents (pick j wj parents k) = Some y /\ stepped p (step j) (us j k) (noise j k) (genes w' y) (genes w' c).

Definition worth {G P} (w : world G P num) (i : nat) : num := match i_fitness (w_ind w i) with Some f => f | None => NNan end.

(** the best of brood and parents are the next parents *)
Definition best_go_on {G P} (maximize : bool) (w : world G P num) (brood parents next : list nat) : Prop :=
  length next = length parents /\ exists rest, Permutation (brood ++ parents) (next ++ rest) /\
    forall kept dropped, In kept next -> In dropped rest -> ~ better maximize (worth w dropped) (worth w kept).
(** the first child may take the place of the parent in slot [k], of nobody else; no slot gets worse by more than the
    tolerance, and the child takes its place unless that parent is better *)
Definition one_slot {G P} (maximize : bool) (k : nat) (w : world G P num) (brood parents next : list nat) : Prop :=
  length next = length parents /\ exists child, hd_error brood = Some child /\
    forall j x, nth_error parents j = Some x ->
      exists y, nth_error next j = Some y /\ (y = x \/ j = k /\ y = child) /\
        (better maximize (worth w x) (worth w y) -> within_rel tol (worth w x) (worth w y)) /\
        (j = k -> viable (worth w child) -> ~ better maximize (worth w x) (worth w child) -> y = child).

(** [P] holds of every generation of a run that finishes: of the final state, the generation's number, its brood, its
    parents and the next ones *)
Definition each_generation {G P} (r : option (result (list nat * world G P num * list (list nat) * list (Q * list nat)) * gen_counter))
    (R : world G P num -> nat -> list nat -> list nat -> list nat -> Prop) : Prop :=
  forall final w' earlier used gc', r = Some (Ok (final, w', earlier, used), gc') ->
  forall j s o p q, nth_error used j = Some (s, o) ->
    nth_error (earlier ++ [final]) j = Some p -> nth_error (earlier ++ [final]) (S j) = Some q -> R w' j o p q.

(** example: everybody starts at 2.56 in all places; of each brood the second child steps towards the minimum, the others away
    from it or not at all *)
Definition ex_real_world : world Q unit num :=
  mk_world (fun _ => mk_indiv 0 0 0 None None 0 [] false None None) (fun _ => []) 0 0 0.
Definition ex_corner (_ : nat) : list Q := repeat (3 # 4)%Q 4.
Definition ex_real_us (_ _ : nat) : list Q := [1 # 10; 1 # 2; 1 # 2; 1 # 2]%Q.
Definition ex_deviate (k : nat) : Q := if k =? 1 then (-1)%Q else inject_Z (Z.of_nat k).
Definition ex_cyclic (_ : nat) (_ : world Q unit num) (l : list nat) (k : nat) : nat := k mod length l.
Definition ex_heads (r : option (result (list nat * world Q unit num * list (list nat) * list (Q * list nat)) * gen_counter)) : list (list Q) :=
  match r with
  | Some (Ok (final, w', earlier, _), _) => map (map (fun i => Qred (nth 0 (genes w' i) 0%Q))) (earlier ++ [final])
  | _ => []
  end.
