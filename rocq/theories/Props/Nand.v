(** Property C105: NAND circuits can solve every truth table *)
From Coq Require Import QArith.
From Verif Require Import Model.Base Model.Cgp Model.CgpPrims Model.Executable Spec.Cgp Spec.Executable Spec.Nand Model.Variation Spec.Variation Proofs.Nand.
From Verif Require Import Model.Cgp.
Local Open Scope nat_scope.

(** what NAND and NotX give, and on which argument lists they raise *)
Theorem C105_nand (args : list Z) :
  match args with
  | [] => p_call nand args = Err IndexError
  | [a] => p_call nand args = if (a =? 0)%Z then Ok 1%Z else Err IndexError
  | a :: b :: _ => p_call nand args = Ok (if (a =? 0)%Z || (b =? 0)%Z then 1%Z else 0%Z)
  end.
Proof. exact (nand_spec args). Qed.
Print Assumptions C105_nand.

Theorem C105_not (a : Z) (r : list Z) : p_call not_x (a :: r) = p_call nand [a; a].
Proof. exact (not_x_is_nand a r). Qed.
Print Assumptions C105_not.

(** wrapping a function with an arity fails exactly for negative arities *)
Theorem C105_wrapper (g : list Z -> result Z) (a : Z) :
  (forall q, function_primitive g a = Ok q <-> (0 <= a)%Z /\ q = mk_prim (Some (Z.to_nat a)) g) /\
  (forall e, function_primitive g a = Err e <-> (a < 0)%Z /\ e = AssertionError).
Proof. exact (function_primitive_spec g a). Qed.
Print Assumptions C105_wrapper.

(** whatever the Boolean function, whatever other primitives there are, whatever the width and the arity: with
    enough layers some genome inside the decoder's bounds decodes, pruned or not, to a circuit that computes the
    function on every input, whatever was left over from earlier calls, and that scores 1 on its truth table *)
Theorem C105_complete (prims : list (prim Z)) (p n m w arity : nat) (f : list Z -> list Z) :
  nth_error prims p = Some nand -> 0 < n -> 0 < m -> 0 < w -> 2 <= arity -> boolean_function n m f ->
  exists L0, forall L, L0 <= L -> exists d genome, make_decoder prims n m L w arity None = Ok d /\
  within genome (bounds d) /\ forall prune, exists g, decode d prune genome = Ok g /\
  (forall o i, bit_vector n i -> exists o', call g n m o i = Ok (o', f i)) /\
  forall left_over (out_eqb : list Z -> list Z -> bool) k, (forall l, out_eqb l l = true) ->
    exists q, tt_evaluate out_eqb (fun i => Ok (f i)) (runs_as g n m left_over) k false n = Ok q /\ (q == 1)%Q.
Proof. exact (complete_score prims p n m w arity f). Qed.
Print Assumptions C105_complete.

(** one mutation can turn any genome of the right length into any genome within the bounds, that one included *)
Theorem C105_one_mutation (d : decoder Z) (expected probability : option Q) (p : Q) (g h : list Z) :
  rate_is expected probability (length g) p -> (0 < p)%Q -> (p <= 1)%Q -> length g = num_genes d ->
  proper d -> within h (bounds d) ->
  exists us ds, length us = length g /\ unit_draws us /\ length ds = length g /\ cgp_mutate d expected probability us ds g = Ok h.
Proof. exact (cgp_reaches d expected probability p g h). Qed.
Print Assumptions C105_one_mutation.

(** circuits of functions with at most one argument never combine inputs: every output depends on one input only,
    whatever the genome, the layers and the values *)
Theorem C105_unary {V} (d : decoder V) (genome : list Z) (prune : bool) (g : graph V) : proper d ->
  (forall p, In p (c_prims d) -> exists a, p_arity p = Some a /\ a <= 1) ->
  within genome (bounds d) -> decode d prune genome = Ok g ->
  forall q, q < c_outputs d -> exists k, k < c_inputs d /\ forall i i' o o' r r' vs vs',
    length i = c_inputs d -> length i' = c_inputs d -> nth_error i k = nth_error i' k ->
    call g (c_inputs d) (c_outputs d) o i = Ok (r, vs) -> call g (c_inputs d) (c_outputs d) o' i' = Ok (r', vs') ->
    nth_error vs q = nth_error vs' q.
Proof. exact (unary_circuits d genome prune g). Qed.
Print Assumptions C105_unary.

(** so NotX alone does not do what NAND does *)
Theorem C105_not_alone (d : decoder Z) (genome : list Z) (prune : bool) (g : graph Z) (L w arity : nat) (back : option Z) :
  make_decoder [not_x] 2 1 L w arity back = Ok d -> within genome (bounds d) -> decode d prune genome = Ok g ->
  ~ forall i, bit_vector 2 i -> exists o r, call g 2 1 o i = Ok (r, [Z.land (nth 0 i 0) (nth 1 i 0)]%Z).
Proof. exact (not_alone d genome prune g L w arity back). Qed.
Print Assumptions C105_not_alone.

(** a half adder: five NANDs in three layers of two; the hypotheses hold and the circuit scores 1 *)
Example C105_half_adder_boolean : boolean_function 2 2 half_adder.
Proof.
  intros [|a [|b [|c r]]] [L F]; try discriminate. inversion F as [|? ? Ha F1]. inversion F1 as [|? ? Hb F2].
  destruct Ha as [-> | ->], Hb as [-> | ->]; (split; [reflexivity|]); repeat (apply Forall_cons; [vm_compute; auto|]); apply Forall_nil.
Qed.
Example C105_half_adder :
  match make_decoder [nand] 2 2 3 2 2 None with
  | Ok d => match decode d false half_adder_genome, decode d true half_adder_genome with
            | Ok g, Ok g' =>
                let score g := tt_evaluate (fun a b => if list_eq_dec Z.eq_dec a b then true else false)
                  (fun i => Ok (half_adder i)) (runs_as g 2 2 (fun _ _ => None)) 2 false 2 in
                (score g, score g') = (Ok (inject_Z 4 / inject_Z 4)%Q, Ok (inject_Z 4 / inject_Z 4)%Q) /\
                length (g_nodes g) = 10 /\ length (g_nodes g') = 9
            | _, _ => False
            end
  | Err _ => False
  end.
Proof. vm_compute. auto. Qed.
Example C105_nand_ex : (p_call nand [1; 1]%Z, p_call nand [1; 0]%Z, p_call nand [0]%Z, p_call nand [5]%Z) =
  (Ok 0%Z, Ok 1%Z, Ok 1%Z, Err IndexError).
Proof. reflexivity. Qed.

(** hypotheses of the last theorems: an inverter of the second input *)
Example C105_not_alone_ex :
  match make_decoder [not_x] 2 1 1 1 1 None with
  | Ok d => (bounds d, match decode d true [0; 1; 2]%Z with
              | Ok g => map (runs_as g 2 1 (fun _ _ => None)) [[0; 0]; [1; 0]; [0; 1]; [1; 1]]%Z
              | Err _ => [] end) = ([(0, 0); (0, 1); (0, 2)], [Ok [1]; Ok [1]; Ok [0]; Ok [0]])%Z
  | Err _ => False
  end.
Proof. vm_compute. reflexivity. Qed.
Example C105_one_mutation_ex :
  match make_decoder [nand] 2 2 3 2 2 None with
  | Ok d => cgp_mutate d None (Some (1 # 2)%Q) (repeat 0%Q 20)
      half_adder_genome (repeat 0%Z 20) = Ok half_adder_genome
  | Err _ => False
  end.
Proof. vm_compute. reflexivity. Qed.
