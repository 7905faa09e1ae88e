(** Pitt-approach rule systems: leap_ec/executable_rep/rules.py.
    Genes and inputs are exact rationals or NaN ([None]); infinities are not modelled.  Genomes are lists
    of segments (lists of genes) and contain no Python [None]. *)
From Coq Require Import Qround Qabs.
From Verif Require Import Model.Base.

(** the genes of leap_ec/executable_rep/rules.py:509-591 *)
Definition gene := option Q.
(** IEEE comparisons and arithmetic: NaN compares false with everything and is contagious. *)
(** leap_ec/executable_rep/rules.py:509-591 *)
Definition gene_ltb (a b : gene) : bool := match a, b with Some x, Some y => Qltb x y | _, _ => false end.
(** leap_ec/executable_rep/rules.py:509-591 *)
Definition gene_leb (a b : gene) : bool := match a, b with Some x, Some y => Qle_bool x y | _, _ => false end.
(** leap_ec/executable_rep/rules.py:509-591 *)
Definition gene_eqb (a b : gene) : bool := match a, b with Some x, Some y => Qeq_bool x y | _, _ => false end.
(** leap_ec/executable_rep/rules.py:509-591 *)
Definition lift2 (f : Q -> Q -> Q) (a b : gene) : gene :=
  match a, b with Some x, Some y => Some (f x y) | _, _ => None end.
(** abs(a - b) *)
(** leap_ec/executable_rep/rules.py:575 *)
Definition gene_gap (a b : gene) : gene := lift2 (fun x y => Qabs (x - y)) a b.
(** Python's min(a, b) *)
(** leap_ec/executable_rep/rules.py:575 *)
Definition gene_min (a b : gene) : gene := if gene_ltb b a then b else a.

(** leap_ec/executable_rep/rules.py:432 Rule *)
Record rule := mk_rule { conditions : list (gene * gene); actions : list gene }.

(** ** PittRulesExecutable *)

(** leap_ec/executable_rep/rules.py:569-575: distance from one input to one condition *)
Definition cond_diff (c : gene * gene) (x : gene) : gene :=
  let '(low, high) := c in
  if gene_ltb high low then Some 0%Q
  else if gene_leb low x && gene_leb x high then Some 0%Q
  else gene_min (gene_gap low x) (gene_gap high x).

(** leap_ec/executable_rep/rules.py:560-577 compute_match_score: [all_input] is the input followed by the memory; a rule with
    fewer conditions raises IndexError, superfluous conditions are ignored *)
Fixpoint match_score (cs : list (gene * gene)) (all_input : list gene) (score : gene) : result gene :=
  match all_input with
  | [] => Ok score
  | x :: xs =>
    match cs with
    | [] => Err IndexError
    | c :: cs' => let diff := cond_diff c x in match_score cs' xs (lift2 Qplus score (lift2 Qmult diff diff))
    end
  end.

(** leap_ec/executable_rep/rules.py:583-590: the loop over the rules, [r] the index of the next one *)
Fixpoint match_loop (rules : list rule) (all_input : list gene) (r : nat) (match_list : list nat) (best : gene)
  : result (list nat * gene) :=
  match rules with
  | [] => Ok (match_list, best)
  | rl :: rest =>
    bind (match_score (conditions rl) all_input (Some 0%Q)) (fun score =>
    if (match match_list with [] => true | _ => false end) || gene_ltb score best then
      match_loop rest all_input (S r) [r] score
    else if gene_eqb score best then match_loop rest all_input (S r) (match_list ++ [r]) best
    else match_loop rest all_input (S r) match_list best)
  end.
(** leap_ec/executable_rep/rules.py:509-591 _match_set *)
Definition match_set (rules : list rule) (memory input : list gene) : result (list nat * gene) :=
  match_loop rules (input ++ memory) 0 [] (Some (-1)%Q).

(** leap_ec/executable_rep/rules.py:476 PriorityMetric *)
Inductive metric := RULE_ORDER | GENERALITY | PERIMETER.
(** leap_ec/executable_rep/rules.py:497-507 __priority; an absent metric is not recognised either *)
Definition priority (rule_order : nat) (m : option metric) : result nat :=
  match m with Some RULE_ORDER => Ok rule_order | _ => Err ValueError end.

(** leap_ec/executable_rep/rules.py:497-507, continued *)
Fixpoint priorities_from (r n : nat) (m : option metric) : result (list nat) :=
  match n with
  | 0 => Ok []
  | S n' => bind (priority r m) (fun p => bind (priorities_from (S r) n' m) (fun ps => Ok (p :: ps)))
  end.

(** leap_ec/executable_rep/rules.py:497-507, continued *)
Record executable := mk_exec { ex_outputs : nat; ex_memory : list gene; ex_rules : list rule; ex_priorities : list nat }.
(** leap_ec/executable_rep/rules.py:478-495 __init__ ([num_outputs] from the output space) *)
Definition make_executable (num_outputs : nat) (rules : list rule) (m : option metric) (init_mem : list gene) : result executable :=
  match rules with
  | [] => Err AssertionError
  | _ => bind (priorities_from 0 (length rules) m) (fun ps => Ok (mk_exec num_outputs init_mem rules ps))
  end.

(** numpy.round (half to even) and astype(int) (int64; values without an int64 become the smallest one) *)
(** leap_ec/executable_rep/rules.py:701-705 *)
Definition round_even (q : Q) : Z :=
  let f := Qfloor q in
  let r := (q - inject_Z f)%Q in
  if Qltb r (1 # 2) then f else if Qltb (1 # 2) r then (f + 1)%Z else if Z.even f then f else (f + 1)%Z.
(** leap_ec/executable_rep/rules.py:701-705 *)
Definition int64_min : Z := (- 2 ^ 63)%Z.
(** leap_ec/executable_rep/rules.py:701-705 *)
Definition to_int (g : gene) : Z :=
  match g with
  | None => int64_min
  | Some q => let z := round_even q in if (int64_min <=? z)%Z && (z <? 2 ^ 63)%Z then z else int64_min
  end.

(** leap_ec/executable_rep/rules.py:593-623 _fire *)
Definition fire (e : executable) (w : nat) : result (list gene) :=
  match nth_error (ex_rules e) w with
  | None => Err IndexError
  | Some rl =>
    match ex_memory e with
    | _ :: _ => Err ValueError
    | [] => if length (actions rl) =? ex_outputs e then Ok (actions rl) else Err AssertionError
    end
  end.

(** Python's min(l, key=...): the first smallest; [ps] the priorities *)
(** leap_ec/executable_rep/rules.py:687-689 *)
Fixpoint min_by (ps : list nat) (best : nat) (l : list nat) : nat :=
  match l with
  | [] => best
  | x :: r => min_by ps (if nth x ps 0 <? nth best ps 0 then x else best) r
  end.

(** leap_ec/executable_rep/rules.py:701-705 *)
Inductive output := Many (l : list Z) | One (z : Z).
(** leap_ec/executable_rep/rules.py:703-706 *)
Definition to_output (num_outputs : nat) (l : list Z) : result output :=
  if 1 <? num_outputs then Ok (Many l) else match l with z :: _ => Ok (One z) | [] => Err IndexError end.

(** leap_ec/executable_rep/rules.py:625-706 __call__; [d] draws from the match list (np.random.choice) *)
Definition call (e : executable) (input : list gene) (d : nat) : result output :=
  bind (match_set (ex_rules e) (ex_memory e) input) (fun '(match_list, best) =>
  let match_list :=
    if gene_eqb best (Some 0%Q) then
      match match_list with
      | [] => []
      | x :: r => let top := nth (min_by (ex_priorities e) x r) (ex_priorities e) 0 in
                  filter (fun i => nth i (ex_priorities e) 0 <=? top) match_list
      end
    else match_list in
  match nth_error match_list (d mod length match_list) with
  | None => Err ValueError
  | Some winner => bind (fire e winner) (fun a => to_output (ex_outputs e) (map to_int a))
  end).

(** ** PittRulesDecoder *)

(** The output space: gym's Discrete(n), or a Box with that many entries. *)
(** leap_ec/executable_rep/rules.py:83-100, 161-181 *)
Inductive out_space := Discrete (n : nat) | OBox (k : nat).
(** The input space is a Box, given by the bounds of its entries in flattened order; [dec_memory] is the
    dimension of the memory space, 0 if there is none (leap_ec/executable_rep/rules.py:56-62). *)
Record decoder := mk_decoder { dec_bounds : list (ext * ext); dec_out : out_space; dec_memory : nat; dec_metric : option metric }.
(** leap_ec/executable_rep/rules.py:64-81 num_inputs (leap_ec/executable_rep/problems.py:65-90 space_dimensions) *)
Definition num_inputs (dc : decoder) : nat := length (dec_bounds dc).
(** leap_ec/executable_rep/rules.py:83-100 num_outputs *)
Definition num_outputs (dc : decoder) : nat := match dec_out dc with Discrete _ => 1 | OBox k => k end.
(** leap_ec/executable_rep/rules.py:102-107, 109-130 num_genes_per_rule *)
Definition num_genes_per_rule (dc : decoder) : nat := num_inputs dc * 2 + dec_memory dc * 2 + num_outputs dc.

(** leap_ec/executable_rep/rules.py:132-158 condition_bounds *)
Definition condition_bounds (dc : decoder) : list (ext * ext) := concat (map (fun b => [b; b]) (dec_bounds dc)).
(** leap_ec/executable_rep/rules.py:161-181 action_bounds (a Box has no attribute n) *)
Definition action_bounds (dc : decoder) : result (list (ext * ext)) :=
  match dec_out dc with
  | Discrete n => Ok [(Fin 0, Fin (inject_Z (Z.of_nat n - 1)))]
  | OBox _ => Err AttributeError
  end.
(** leap_ec/executable_rep/rules.py:183-199 bounds *)
Definition bounds (dc : decoder) (num_rules : nat) : result (list (list (ext * ext))) :=
  if 0 <? dec_memory dc then Err ValueError
  else bind (action_bounds dc) (fun ab => Ok (repeat (condition_bounds dc ++ ab) num_rules)).

(** leap_ec/executable_rep/rules.py:227-245 create_rule.  [low], [high]: samples of the input space, as lists of rows (of one
    number each if the space is one-dimensional); [act]: a sample of a Discrete output space (an array
    sampled from a Box cannot be concatenated). *)
Definition create_rule (dc : decoder) (low high : list (list gene)) (act : gene) : result (list gene) :=
  let condition_genes := concat (map (fun '(l, h) => l ++ h) (combine low high)) in
  if 0 <? dec_memory dc then Err ValueError
  else match dec_out dc with
       | OBox _ => Err ValueError
       | Discrete _ => let segment := condition_genes ++ [act] in
                       if length segment =? num_genes_per_rule dc then Ok segment else Err AssertionError
       end.
(** leap_ec/executable_rep/rules.py:201-250 initializer, via leap_ec/segmented_rep/initializers.py:36-45: one sample triple per rule *)
Fixpoint create_rule_set (dc : decoder) (samples : list (list (list gene) * list (list gene) * gene)) : result (list (list gene)) :=
  match samples with
  | [] => Ok []
  | (low, high, act) :: r => bind (create_rule dc low high act) (fun s => bind (create_rule_set dc r) (fun ss => Ok (s :: ss)))
  end.

(** Python's l[-k:] *)
(** leap_ec/executable_rep/rules.py:289-293 *)
Definition last_k {A} (k : nat) (l : list A) : list A := if k =? 0 then l else skipn (length l - k) l.
(** leap_ec/executable_rep/rules.py:252-296 _split_rule *)
Definition split_rule (dc : decoder) (seg : list gene) : result (list gene * list gene * list gene) :=
  if negb (length seg =? num_genes_per_rule dc) then Err AssertionError
  else
    let cond := firstn (num_inputs dc * 2) seg in
    let '(act, mem) :=
      if dec_memory dc =? 0 then (last_k (num_outputs dc) seg, [])
      else (skipn (length seg - (num_outputs dc + dec_memory dc)) (firstn (length seg - dec_memory dc) seg),
            last_k (dec_memory dc) seg) in
    if length cond + length act + length mem =? length seg then Ok (cond, act, mem) else Err AssertionError.

(** leap_ec/executable_rep/rules.py:394-395: consecutive pairs, zip(it, it) *)
Fixpoint pairs {A} (l : list A) : list (A * A) :=
  match l with a :: b :: r => (a, b) :: pairs r | _ => [] end.

(** leap_ec/executable_rep/rules.py:394-395, continued *)
Fixpoint rules_of (dc : decoder) (genome : list (list gene)) : result (list rule) :=
  match genome with
  | [] => Ok []
  | seg :: r =>
    bind (split_rule dc seg) (fun '(cond, act, _) =>
    bind (rules_of dc r) (fun rs => Ok (mk_rule (pairs cond) act :: rs)))
  end.
(** leap_ec/executable_rep/rules.py:363-400 genome_to_rules (the length check of line 388 is the one of _split_rule) *)
Definition genome_to_rules (dc : decoder) (genome : list (list gene)) : result (list rule) :=
  match genome with [] => Err AssertionError | _ => rules_of dc genome end.
(** leap_ec/executable_rep/rules.py:62,402-426 decode; no metric means RULE_ORDER *)
Definition decode (dc : decoder) (genome : list (list gene)) : result executable :=
  bind (genome_to_rules dc genome) (fun rules =>
  make_executable (num_outputs dc) rules (Some (match dec_metric dc with Some m => m | None => RULE_ORDER end)) []).

(** leap_ec/executable_rep/rules.py:326-340 _single_rule_mutator; the mutators are arbitrary, [k] numbers their calls *)
Definition mutate_rule (dc : decoder) (cm am : nat -> list gene -> result (list gene)) (k : nat) (seg : list gene)
  : result (list gene) :=
  bind (split_rule dc seg) (fun '(cond, act, _) =>
  bind (cm k cond) (fun c => bind (am k act) (fun a => Ok (c ++ a)))).
(** leap_ec/executable_rep/rules.py:345-359: one turn of _rulset_mutate: the new genome and fitness *)
Fixpoint mutate_rules (dc : decoder) (cm am : nat -> list gene -> result (list gene)) (k : nat) (genome : list (list gene))
  : result (list (list gene)) :=
  match genome with
  | [] => Ok []
  | seg :: r => bind (mutate_rule dc cm am k seg) (fun s => bind (mutate_rules dc cm am (S k) r) (fun ss => Ok (s :: ss)))
  end.
(** leap_ec/executable_rep/rules.py:345-359, continued *)
Definition ruleset_mutate (dc : decoder) cm am (genome : list (list gene)) (fitness : option num)
  : result (list (list gene) * option num) :=
  bind (mutate_rules dc cm am 0 genome) (fun g => Ok (g, None)).
