(** Examples of island runs. *)
From Verif Require Import Model.Base Model.Scalar Model.Heap Model.Pipeline Model.Problems Spec.Heap Spec.HeapEa.

Section Spec.
Context {G P : Type}.
(** all individuals of the recorded generations *)
Definition everybody (l : list (world G P num * list (list nat))) : list nat := concat (map (fun s => concat (snd s)) l).
End Spec.

(** problem 0: MaxOnes; problem 1: count the zeroes *)
Definition two_problems (p : nat) (v : phen_value Z unit) : result num :=
  match v with
  | VArr g =>
      match p with
      | 0 => bind (max_ones None (BArr g)) (fun z => Ok (NInt z))
      | _ => bind (max_ones None (BArr g)) (fun z => Ok (NInt (Z.of_nat (length g) - z)))
      end
  | VVal _ => Err TypeError
  end.
(** island 0 starts with three ones, island 1 without any *)
Definition ex_island_init (i _ : nat) : list Z := match i with 0 => [1; 1; 1]%Z | _ => [0; 0; 0]%Z end.
(** clone, flip no bit, evaluate *)
Definition ex_island_ops (_ _ : nat) : list (op Z) := [OpEval; bitflip_op 0 (fun _ => [1 # 2; 1 # 2; 1 # 2]%Q); OpClone].
(** clone, flip the first bit in island 0, evaluate *)
Definition ex_island_ops1 (_ i : nat) : list (op Z) :=
  [OpEval; bitflip_op 1 (fun _ => match i with 0 => [1 # 10; 1 # 2; 1 # 2]%Q | _ => [1 # 2; 1 # 2; 1 # 2]%Q end); OpClone].
Definition other_island (i : nat) : list nat := match i with 0 => [1] | _ => [0] end.
Definition ex_at (n : nat) (_ : world Z unit num) (_ : list nat) : nat := n.
