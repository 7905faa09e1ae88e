(** Probes that draw the best individual of a population: PlotPittRuleProbe (leap_ec/executable_rep/rules.py) and
    GraphPhenotypeProbe (leap_ec/executable_rep/neural_network.py).  The drawing itself is matplotlib's and networkx';
    what is modelled is what they are asked to draw.  Fitnesses are numbers; genes are as in Model/Rules.v. *)
From Verif Require Import Model.Base Model.PyList Model.Scalar Model.Rules Model.NeuralNet.

(** an individual: its fitness and its genome; leap_ec/individual.py:68-76 *)
Record pind (G : Type) := mk_pind { p_sind : sind; p_genome : G }.
Arguments mk_pind {G}.
Arguments p_sind {G}.
Arguments p_genome {G}.

Section Best.
(** whether fitness is maximized, and the coin of comparisons of NaN: leap_ec/problem.py:117-136 *)
Variable maximize : bool.
Variable coin : sind -> sind -> bool.
(** max(population), leap_ec/executable_rep/rules.py:810 *)
Definition best_pind {G} (pop : list (pind G)) : result (pind G) :=
  match pymax (fun a b => ind_gt maximize coin (p_sind a) (p_sind b)) pop with Some x => Ok x | None => Err ValueError end.

(** ** rules *)

(** a patch on the axes, leap_ec/executable_rep/rules.py:833: corner, width, height and whether it is blue *)
Record rectangle := mk_rect { r_x : gene; r_y : gene; r_width : gene; r_height : gene; r_blue : bool }.
(** np.round(action) == 0, leap_ec/executable_rep/rules.py:832 *)
Definition rounds_to_zero (a : gene) : bool := match a with Some q => (round_even q =? 0)%Z | None => false end.
(** leap_ec/executable_rep/rules.py:815-833: the rectangle of a rule *)
Definition rule_box (xlim ylim : Q * Q) (r : rule) : result rectangle :=
  match conditions r with
  | cx :: cy :: _ =>
      let '(x_low, x_high) := if gene_ltb (snd cx) (fst cx) then (Some (fst xlim), Some (snd xlim)) else cx in
      let '(y_low, y_high) := if gene_ltb (snd cy) (fst cy) then (Some (fst ylim), Some (snd ylim)) else cy in
      let width := lift2 Qminus x_high x_low in
      let height := lift2 Qminus y_high y_low in
      match actions r with
      | [] => Err IndexError
      | action :: _ => Ok (mk_rect x_low y_low width height (rounds_to_zero action))
      end
  | _ => Err ValueError
  end.
(** leap_ec/executable_rep/rules.py:815-833: the loop; [patches] are those drawn so far *)
Fixpoint draw_rules (xlim ylim : Q * Q) (rules : list rule) (patches : list rectangle) : result unit * list rectangle :=
  match rules with
  | [] => (Ok tt, patches)
  | r :: rest =>
      match rule_box xlim ylim r with
      | Err e => (Err e, patches)
      | Ok b => draw_rules xlim ylim rest (patches ++ [b])
      end
  end.
(** leap_ec/executable_rep/rules.py:802-836 __plot_rules: the patches on the axes before and after *)
Definition plot_rules (dc : decoder) (xlim ylim : Q * Q) (pop : list (pind (list (list gene)))) (patches : list rectangle)
  : result unit * list rectangle :=
  match best_pind pop with
  | Err e => (Err e, [])
  | Ok best =>
      match genome_to_rules dc (p_genome best) with
      | Err e => (Err e, [])
      | Ok rules => draw_rules xlim ylim rules []
      end
  end.
(** leap_ec/executable_rep/rules.py:839-856 __call__, with a generation in the context; [plot_dimensions] is stored but not
    used, and line 850 names a variable that does not exist *)
Definition plot_rules_call (dc : decoder) (plot_dimensions : nat * nat) (xlim ylim : Q * Q) (modulo : Z) (generation : Z)
    (pop : list (pind (list (list gene)))) (patches : list rectangle)
  : result (list (pind (list (list gene)))) * list rectangle :=
  if (1 <? modulo)%Z then (Err NameError, patches)
  else let '(r, patches') := plot_rules dc xlim ylim pop patches in (bind r (fun _ => Ok pop), patches').

(** ** graphs *)

(** what is on the axes, leap_ec/executable_rep/neural_network.py:241-254: the nodes, and the edges with their widths, if
    given *)
Record drawn := mk_drawn { dr_nodes : list node; dr_edges : list (node * node); dr_widths : option (list Q) }.
(** leap_ec/executable_rep/neural_network.py:229-254 __call__; [decode] is the individuals' decoder, [shown] what is on the
    axes, networkx keeps the edges in one order for both calls *)
Definition graph_call (decode : list Q -> result (list (list (list Q)))) (modulo : Z) (weights : bool) (weight_multiplier : Q) (generation : Z)
    (pop : list (pind (list Q))) (shown : option drawn) : result (list (pind (list Q))) * option drawn :=
  if (generation mod modulo =? 0)%Z then
    match best_pind pop with
    | Err e => (Err e, shown)
    | Ok best =>
        match bind (decode (p_genome best)) nn_graph with
        | Err e => (Err e, shown)
        | Ok (nodes, edges) =>
            (Ok pop, Some (mk_drawn nodes (map fst edges) (if weights then Some (map (fun e => weight_multiplier * snd e)%Q edges) else None)))
        end
    end
  else (Ok pop, shown).
End Best.
