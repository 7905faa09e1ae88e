(** C117: the calls of the generation counter's callbacks. *)
From Verif Require Import Model.Base Model.Scalar Model.Counters Model.Heap Model.Pipeline Model.Strategies Spec.HeapEa Spec.Strategies Spec.Drift Proofs.Told.

(** whether a run ends or raises: after n generations every callback has been called with 1, 2, ... n, in the order in which they are registered *)
Theorem C117_callbacks :
  forall G P (decoder_of : nat -> option (list G -> result P)) (problem_of : nat -> phen_value G P -> result num)
    maximize coin max_generation brood mode (operators : nat -> Q -> list (op G)) pick callbacks
    initialize problem decoder pop_size std w r gc',
  strategy decoder_of problem_of maximize coin max_generation brood mode operators pick callbacks initialize problem decoder pop_size std w
    = Some (r, gc') ->
  exists n, gc_curr gc' = Z.of_nat n /\
    gc_log gc' = flat_map (fun g => map (fun f => (f, Z.of_nat g)) (seq 0 (length callbacks))) (seq 1 n) /\
    (forall final w' earlier used, r = Ok (final, w', earlier, used) -> n = length earlier).
Proof. exact @run_told. Qed.
Print Assumptions C117_callbacks.

(** two callbacks, two generations; and a run that raises in its third generation *)
Example C117_callbacks_example :
  let run operators n := strategy identity_decoder gene_problem false (fun _ _ _ => true) n 1 Plus operators (fun _ _ _ _ => 0)
    [(fun _ s => s); (fun _ s => s + 1)%Q] (fun _ => [1%Q]) 0 0 1 0 ex_real_world in
  match run slip_stages 2%Z with
  | Some (Ok (_, _, earlier, used), gc) => map fst used = [0; 1]%Q /\ gc_log gc = [(0, 1%Z); (1, 1%Z); (0, 2%Z); (1, 2%Z)]
  | _ => False
  end /\
  match run (fun i s => if i =? 2 then [OpEval; OpMutate (fun _ _ => Err ValueError) false; OpClone] else slip_stages i s) 9%Z with
  | Some (Err e, gc) => e = ValueError /\ gc_log gc = [(0, 1%Z); (1, 1%Z); (0, 2%Z); (1, 2%Z)]
  | _ => False
  end.
Proof. vm_compute. repeat split; reflexivity. Qed.
