(** Specifications for probes that draw the best individual *)
From Verif Require Import Model.Base Model.Scalar Model.Rules Model.ExecProbe Spec.Order Spec.Rules.

(** best is a best individual of the population, up to the tolerance of comparisons *)
Definition best_in {G} (mx : bool) (pop : list (pind G)) (best : pind G) : Prop :=
  In best pop /\ forall y, In y pop -> better mx (si_fit (p_sind y)) (si_fit (p_sind best)) ->
    within_rel tol (si_fit (p_sind y)) (si_fit (p_sind best)).
(** the rectangle contains the point *)
Definition contains (b : rectangle) (x y : Q) : Prop :=
  exists x0 y0 w h, r_x b = Some x0 /\ r_y b = Some y0 /\ r_width b = Some w /\ r_height b = Some h /\
    (x0 <= x /\ x <= x0 + w /\ y0 <= y /\ y <= y0 + h)%Q.
(** a genome of rules with n inputs and k outputs *)
Definition rule_genome (n k : nat) (g : list (list gene)) : Prop := g <> [] /\ Forall (fun seg => length seg = n * 2 + k) g.
(** x is within the limits *)
Definition within (lim : Q * Q) (x : Q) : Prop := (fst lim <= x /\ x <= snd lim)%Q.
(** the point satisfies the first two conditions of the rule whose genes are seg; an empty interval asks nothing *)
Definition satisfies (seg : list Q) (x y : Q) : Prop :=
  match seg with
  | x_low :: x_high :: y_low :: y_high :: _ => (x_high < x_low \/ x_low <= x /\ x <= x_high)%Q /\ (y_high < y_low \/ y_low <= y /\ y <= y_high)%Q
  | _ => False
  end.
(** the first gene after the conditions rounds to zero *)
Definition acts_zero (n : nat) (seg : list Q) : Prop := exists a, nth_error seg (n * 2) = Some a /\ rounded a 0.

(** examples *)
Definition ex_dc : decoder := mk_decoder [(Fin 0, Fin 1); (Fin 0, Fin 1)]%Q (Discrete 2) 0 None.
Definition ex_genome : list (list Q) := [[0; 3 # 5; 0; 1 # 2; 0]; [2 # 5; 1; 1; 1 # 2; 1]]%Q.
Definition ex_pop : list (pind (list (list gene))) :=
  [mk_pind (mk_sind 0 (NInt 3)) []; mk_pind (mk_sind 1 (NInt 5)) (map (map Some) ex_genome)].
