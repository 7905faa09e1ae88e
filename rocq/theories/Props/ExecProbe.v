(** Property C84: probes that draw the best individual *)
From Coq Require Import Lqa Lia.
From Verif Require Import Model.Base Model.PyList Model.Scalar Model.NeuralNet Spec.NeuralNet Model.Rules Model.ExecProbe Spec.Order Spec.Rules Spec.ExecProbe
  Proofs.ExecProbe.

(** one rectangle per rule of a best individual, containing the points on the axes that meet its first two conditions, blue
    if its first action rounds to zero *)
Theorem C84_boxes (mx : bool) (coin : sind -> sind -> bool) (dc : decoder) (dims : nat * nat) (xl yl : Q * Q) (modulo generation : Z)
  (pop : list (pind (list (list gene)))) (patches : list rectangle) :
  (modulo <= 1)%Z -> dec_memory dc = 0 -> 2 <= num_inputs dc -> 0 < num_outputs dc -> pop <> [] ->
  exists best, best_in mx pop best /\
    forall g, p_genome best = map (map Some) g -> rule_genome (num_inputs dc) (num_outputs dc) (p_genome best) ->
    exists bs, plot_rules_call mx coin dc dims xl yl modulo generation pop patches = (Ok pop, bs) /\
      Forall2 (fun seg b => (r_blue b = true <-> acts_zero (num_inputs dc) seg) /\
        forall x y, within xl x -> within yl y -> (contains b x y <-> satisfies seg x y)) g bs.
Proof. exact (boxes_spec mx coin dc dims xl yl modulo generation pop patches). Qed.
Print Assumptions C84_boxes.

(** with two inputs and one output the picture tells what the rule system does: at a point of the axes it answers 0 just
    when the first rectangle there is blue *)
Theorem C84_picture_predicts (mx : bool) (coin : sind -> sind -> bool) (dc : decoder) (dims : nat * nat) (xl yl : Q * Q) (modulo generation : Z)
  (pop : list (pind (list (list gene)))) (patches : list rectangle) :
  (modulo <= 1)%Z -> dec_memory dc = 0 -> num_inputs dc = 2 -> num_outputs dc = 1 ->
  (dec_metric dc = None \/ dec_metric dc = Some RULE_ORDER) -> pop <> [] ->
  exists best, best_in mx pop best /\
    forall g, p_genome best = map (map Some) g -> rule_genome 2 1 (p_genome best) -> Forall (Forall small) g ->
    exists bs e, plot_rules_call mx coin dc dims xl yl modulo generation pop patches = (Ok pop, bs) /\ decode dc (p_genome best) = Ok e /\
      forall x y w b, within xl x -> within yl y -> nth_error bs w = Some b -> contains b x y ->
        (forall i b', i < w -> nth_error bs i = Some b' -> ~ contains b' x y) ->
        forall d, exists z, call e [Some x; Some y] d = Ok (One z) /\ (z = 0%Z <-> r_blue b = true).
Proof. exact (picture_predicts mx coin dc dims xl yl modulo generation pop patches). Qed.
Print Assumptions C84_picture_predicts.
Example C84_boxes_ex : exists b1 b2, plot_rules_call true (fun _ _ => false) ex_dc (0, 1) (0, 1)%Q (0, 1)%Q 1 7 ex_pop [] = (Ok ex_pop, [b1; b2]) /\
  contains b1 (1 # 2) (1 # 4) /\ r_blue b1 = true /\ ~ contains b1 (1 # 2) (3 # 4) /\ contains b2 (1 # 2) (3 # 4) /\ r_blue b2 = false /\
  rule_genome 2 1 (map (map Some) ex_genome) /\ Forall (Forall small) ex_genome /\
  (exists e, decode ex_dc (map (map Some) ex_genome) = Ok e /\ call e [Some (1 # 2); Some (3 # 4)]%Q 0 = Ok (One 1) /\
     call e [Some (1 # 2); Some (1 # 4)]%Q 0 = Ok (One 0)).
Proof.
  do 2 eexists. split; [vm_compute; reflexivity|]. split; [do 4 eexists; repeat (split; [reflexivity|]); cbn; lra|]. split; [reflexivity|].
  split; [intros (x0 & y0 & w & h & E1 & E2 & E3 & E4 & I); injection E1 as <-; injection E2 as <-; injection E3 as <-; injection E4 as <-; lra|].
  split; [do 4 eexists; repeat (split; [reflexivity|]); cbn; lra|]. split; [reflexivity|].
  split; [split; [discriminate|repeat constructor]|]. split; [repeat (constructor; try (unfold small; split; vm_compute; discriminate))|].
  eexists. split; [vm_compute; reflexivity|]. split; vm_compute; reflexivity.
Qed.

(** calls that fail; the rectangles of the call before are gone *)
Theorem C84_failures (mx : bool) (coin : sind -> sind -> bool) (dc : decoder) (dims : nat * nat) (xl yl : Q * Q) (modulo generation : Z)
  (pop : list (pind (list (list gene)))) (patches : list rectangle) :
  let call := plot_rules_call mx coin dc dims xl yl modulo generation pop patches in
  ((1 < modulo)%Z -> call = (Err NameError, patches)) /\
  ((modulo <= 1)%Z ->
    (pop = [] -> call = (Err ValueError, [])) /\
    (dec_memory dc = 0 -> 0 < num_outputs dc -> num_inputs dc < 2 -> pop <> [] -> (forall i, In i pop -> rule_genome (num_inputs dc) (num_outputs dc) (p_genome i)) -> call = (Err ValueError, [])) /\
    (dec_memory dc = 0 -> 0 < num_outputs dc -> pop <> [] -> (forall i, In i pop -> ~ rule_genome (num_inputs dc) (num_outputs dc) (p_genome i)) -> call = (Err AssertionError, []))).
Proof. exact (rules_failures mx coin dc dims xl yl modulo generation pop patches). Qed.
Print Assumptions C84_failures.
Example C84_failures_ex : exists b,
  plot_rules_call true (fun _ _ => false) ex_dc (0, 1) (0, 1)%Q (0, 1)%Q 1 7 [] [b] = (Err ValueError, []) /\
  plot_rules_call true (fun _ _ => false) (mk_decoder [(Fin 0, Fin 1)]%Q (Discrete 2) 0 None) (0, 1) (0, 1)%Q (0, 1)%Q 1 7
    [mk_pind (mk_sind 0 (NInt 3)) [[Some 0; Some 1; Some 0]]%Q] [b] = (Err ValueError, []) /\
  plot_rules_call true (fun _ _ => false) ex_dc (0, 1) (0, 1)%Q (0, 1)%Q 0 7
    [mk_pind (mk_sind 0 (NInt 3)) [[Some 0; Some 1; Some 0]]%Q] [b] = (Err AssertionError, []).
Proof. exists (mk_rect None None None None true). repeat split; vm_compute; reflexivity. Qed.

(** plotting at intervals is not possible: a probe with an interval above 1 fails in every generation *)
Theorem C84_interval_refuted : exists dc pop, pop <> [] /\
  (exists bs, bs <> [] /\ plot_rules_call true (fun _ _ => false) dc (0, 1) (0, 1)%Q (0, 1)%Q 1 0 pop [] = (Ok pop, bs)) /\
  forall generation, plot_rules_call true (fun _ _ => false) dc (0, 1) (0, 1)%Q (0, 1)%Q 10 generation pop [] = (Err NameError, []).
Proof.
  exists ex_dc, ex_pop. split; [discriminate|]. split; [eexists; split; [|vm_compute; reflexivity]; discriminate|reflexivity].
Qed.
Print Assumptions C84_interval_refuted.
(** the choice of dimensions has no effect: a rule on the second and third input is drawn by its first and second *)
Theorem C84_dimensions_refuted : exists dc pop b, num_inputs dc = 3 /\
  pop = [mk_pind (mk_sind 0 (NInt 3)) [[Some 0; Some (1 # 4); Some (1 # 4); Some (1 # 2); Some (3 # 4); Some 1; Some 0]]%Q] /\
  plot_rules_call true (fun _ _ => false) dc (1, 2) (0, 1)%Q (0, 1)%Q 1 0 pop [] = (Ok pop, [b]) /\
  r_x b = Some 0%Q /\ r_y b = Some (1 # 4)%Q.
Proof.
  exists (mk_decoder [(Fin 0, Fin 1); (Fin 0, Fin 1); (Fin 0, Fin 1)]%Q (Discrete 2) 0 None). do 2 eexists.
  split; [reflexivity|]. split; [reflexivity|]. split; [vm_compute; reflexivity|]. split; reflexivity.
Qed.
Print Assumptions C84_dimensions_refuted.

(** in every modulo-th generation the graph of a best individual's network is drawn, with all its nodes and edges, and, if
    asked for, with widths proportional to the weights *)
Theorem C84_graph (mx : bool) (coin : sind -> sind -> bool) (decode : list Q -> result (list (list (list Q)))) (modulo : Z) (weights : bool) (m : Q)
  (generation : Z) (pop : list (pind (list Q))) (shown : option drawn) (a b : nat) (r : list nat) :
  (0 < modulo)%Z -> (generation mod modulo = 0)%Z -> pop <> [] ->
  exists best, best_in mx pop best /\
    forall net, decode (p_genome best) = Ok net -> fits (a :: b :: r) net ->
    exists d, graph_call mx coin decode modulo weights m generation pop shown = (Ok pop, Some d) /\
      NoDup (dr_nodes d) /\ (forall n, In n (dr_nodes d) <-> network_nodes (S (length r)) (a :: b :: r) n) /\
      (weights = false -> dr_widths d = None) /\
      (weights = true -> exists ws, dr_widths d = Some ws /\ length ws = length (dr_edges d) /\
        ws = map (fun w => m * w)%Q (all_weights net) /\
        forall e s t v, nth_error (dr_edges d) e = Some (s, t) -> nth_error ws e = Some v ->
          exists l mt i j row u w, v = (m * w)%Q /\ nth_error net l = Some mt /\ nth_error mt i = Some row /\ nth_error row j = Some w /\
            nth_error (a :: b :: r) l = Some u /\ s = row_node (S (length r)) l u i /\ t = unit_node (S (length r)) (S l) j) /\
      length (dr_edges d) = length (all_weights net) /\
      forall s t, In (s, t) (dr_edges d) <-> exists l mt i j row u w, nth_error net l = Some mt /\ nth_error mt i = Some row /\ nth_error row j = Some w /\
        nth_error (a :: b :: r) l = Some u /\ s = row_node (S (length r)) l u i /\ t = unit_node (S (length r)) (S l) j.
Proof. exact (graph_drawn mx coin decode modulo weights m generation pop shown a b r). Qed.
Print Assumptions C84_graph.
(** otherwise the picture stays as it was *)
Theorem C84_graph_otherwise (mx : bool) (coin : sind -> sind -> bool) (decode : list Q -> result (list (list (list Q)))) (modulo : Z) (weights : bool) (m : Q)
  (generation : Z) (pop : list (pind (list Q))) (shown : option drawn) : (0 < modulo)%Z ->
  ((generation mod modulo <> 0)%Z -> graph_call mx coin decode modulo weights m generation pop shown = (Ok pop, shown)) /\
  ((generation mod modulo = 0)%Z -> pop = [] -> graph_call mx coin decode modulo weights m generation pop shown = (Err ValueError, shown)) /\
  ((generation mod modulo = 0)%Z -> pop <> [] -> exists best, best_in mx pop best /\ forall e, decode (p_genome best) = Err e ->
     graph_call mx coin decode modulo weights m generation pop shown = (Err e, shown)).
Proof. exact (graph_other mx coin decode modulo weights m generation pop shown). Qed.
Print Assumptions C84_graph_otherwise.
Example C84_graph_ex :
  let pop := [mk_pind (mk_sind 0 (NInt 3)) [5; 6]%Q; mk_pind (mk_sind 1 (NInt 2)) [1; 2]%Q] in
  let call := graph_call true (fun _ _ => false) (nn_decode [(2, 1)]) 2 true 3 in
  call 4%Z pop None = (Ok pop, Some (mk_drawn [Bias; In_ 0; Out 0] [(In_ 0, Out 0); (Bias, Out 0)] (Some [15; 18]%Q))) /\
  call 5%Z pop None = (Ok pop, None) /\ call 4%Z [mk_pind (mk_sind 0 (NInt 3)) [5]%Q] None = (Err ValueError, None).
Proof. repeat split; vm_compute; reflexivity. Qed.
