(** A lineage in which every child is slightly worse than its parent (for C117). *)
From Verif Require Import Model.Base Model.Scalar Model.Counters Model.Heap Model.Pipeline Model.Strategies
  Spec.Heap Spec.HeapEa Spec.Strategies.

(** example: one gene, which is the fitness; every mutation makes it worse by a billionth *)
Definition gene_problem (_ : nat) (v : phen_value Q unit) : result num :=
  match v with VArr (x :: _) => Ok (NFlt true (Fin x)) | _ => Err TypeError end.
Definition slip (g : list Q) : list Q := map (fun x => x * (1 + (1 # 1000000000)))%Q g.
Definition slip_stages (_ : nat) (_ : Q) : list (op Q) := [OpEval; OpMutate (fun _ g => Ok (g, Some (slip g))) false; OpClone].
Definition one_positive (g : list Q) : Prop := exists x, g = [x] /\ (0 < x)%Q.
Definition slip_run coin n :=
  strategy identity_decoder gene_problem false coin n 1 Plus slip_stages (fun _ _ _ _ => 0) [] (fun _ => [1%Q]) 0 0 1 0%Q ex_real_world.

(** the same without genomes: an offspring is worse than its parent by a billionth *)
Definition slipped (x : sind) : sind :=
  mk_sind (S (si_id x)) (match si_fit x with NFlt b (Fin v) => NFlt b (Fin (v * (1 + (1 # 1000000000)))) | f => f end)%Q.
Definition slipping (_ : nat) (_ : Z) (p : list sind) : result (list sind) := Ok (map slipped p).
