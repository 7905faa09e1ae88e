(** C115: the ready-made primitives for evolved images. *)
From Coq Require Import Reals.
From Verif Require Import Model.Base Model.Cgp Model.CgpArt Spec.Cgp Spec.CgpParams Spec.CgpArt Proofs.CgpArt.
Local Open Scope list_scope.

(** Eleven of the fifteen primitives make colour values (0 to 255) of colour values ... *)
Theorem C115_eleven_keep_colours :
  Forall (fun k => returns_at colour cgp_art_primitives k (fun _ _ _ v => colour v)) [0; 1; 2; 5; 6; 7; 9; 10; 12; 13; 14]%nat.
Proof. exact eleven_keep. Qed.
Print Assumptions C115_eleven_keep_colours.

(** ... the other four do not: products and sums are scaled by 255 once too often, one may reach 256 and the tangent of
    degrees has no bound. *)
Theorem C115_wide_ranges :
  returns_at colour cgp_art_primitives 3 (fun x y _ v => 0 <= v <= 255 ^ 3 /\ (v = 255 ^ 3 <-> x = 255 /\ y = 255))%R /\
  returns_at colour cgp_art_primitives 4 (fun x y _ v => 0 <= v <= 130050 /\ (v = 130050 <-> x = 255 /\ y = 255))%R /\
  returns_at colour cgp_art_primitives 8 (fun _ _ _ v => 0 <= v)%R /\
  returns_at colour cgp_art_primitives 11 (fun _ _ p v => 255 - p <= v < 256)%R.
Proof. exact wide_ranges. Qed.
Print Assumptions C115_wide_ranges.

Theorem C115_tangent_unbounded :
  forall B, exists x v, colour x /\ (0 <= x < 1)%R /\ (forall y p, p_call (art_prim art_tan_degrees) [x; y; p] = Ok v) /\ (B < v)%R.
Proof. exact tan_wide. Qed.
Print Assumptions C115_tangent_unbounded.

Theorem C115_modulo_reaches :
  forall t, (255 <= t < 256)%R -> forall y, p_call (art_prim art_modulo) [(t - 255)%R; y; 0%R] = Ok t.
Proof. exact modulo_wide. Qed.
Print Assumptions C115_modulo_reaches.

(** What single primitives give: the division at most x, the fifth the distance of x and y, the mean something between
    them, the ratio 255 exactly if they are equal, and the two remainders less than 255. *)
Theorem C115_values :
  returns_at colour cgp_art_primitives 2 (fun x _ _ v => colour v /\ (v <= x)%R) /\
  returns_at colour cgp_art_primitives 5 (fun x y _ v => colour v /\ v = Rabs (x - y)) /\
  returns_at colour cgp_art_primitives 9 (fun _ _ _ v => 0 <= v < 255)%R /\
  returns_at colour cgp_art_primitives 12 (fun x y _ v => colour v /\ Rmin x y <= v <= Rmax x y)%R /\
  returns_at colour cgp_art_primitives 13 (fun x y _ v => 0 < v <= 255 /\ (v = 255 <-> x = y))%R /\
  returns_at colour cgp_art_primitives 14 (fun _ _ _ v => 0 <= v < 255)%R.
Proof. exact (conj divide_keeps (conj distance_keeps (conj tan_keeps (conj mean_keeps (conj ratio_keeps root_keeps))))). Qed.
Print Assumptions C115_values.

(** The exact values: a bitwise or and a bitwise and of whole parts; a quotient; a complement; the size of a cosine; remainders
    of division by 255 (or by p + 1); a distance from (p, p) cut off at 255; the ratio of the smaller to the larger. *)
Theorem C115_bits :
  forall x y p a b c, (0 <= IZR a <= x)%R -> (x < IZR a + 1)%R -> (0 <= IZR b <= y)%R -> (y < IZR b + 1)%R -> (0 <= IZR c <= p)%R -> (p < IZR c + 1)%R ->
  (exists f v, nth_error cgp_art_primitives 0 = Some f /\ p_call f [x; y; p] = Ok (IZR v) /\
     forall n, (0 <= n)%Z -> Z.testbit v n = Z.testbit a n || Z.testbit b n) /\
  (exists f v, nth_error cgp_art_primitives 1 = Some f /\ p_call f [x; y; p] = Ok (IZR v) /\
     forall n, (0 <= n)%Z -> Z.testbit v n = Z.testbit a n && Z.testbit c n).
Proof. exact bit_values. Qed.
Print Assumptions C115_bits.

Theorem C115_exact_values :
  (returns_at colour cgp_art_primitives 2 (fun x y p v => v * (1 + y + p) = x) /\
   returns_at colour cgp_art_primitives 6 (fun x _ _ v => v + x = 255) /\
   returns_at colour cgp_art_primitives 7 (fun x _ _ v => 0 <= v /\ v ^ 2 = 255 ^ 2 * (1 - sin x ^ 2)) /\
   returns_at colour cgp_art_primitives 9 (fun x _ _ v => exists k, v + 255 * IZR k = 255 * Rabs (tan x)) /\
   returns_at colour cgp_art_primitives 10 (fun x y p v => 0 <= v /\ v ^ 2 = Rmin ((x - p) ^ 2 + (y - p) ^ 2) (255 ^ 2)) /\
   returns_at colour cgp_art_primitives 11 (fun x _ p v => exists k, v = x - IZR k * (p + 1) + (255 - p)) /\
   returns_at colour cgp_art_primitives 13 (fun x y _ v => v * (Rmax x y + 1) = 255 * (Rmin x y + 1)) /\
   returns_at colour cgp_art_primitives 14 (fun x y p v => exists k, 0 <= v + 255 * IZR k /\ (v + 255 * IZR k) ^ 2 = Rabs (x ^ 2 + y ^ 2 - 2 * p ^ 2)))%R.
Proof. exact exact_values. Qed.
Print Assumptions C115_exact_values.

(** Six primitives ignore their second source, ten the parameter: changing those genes changes nothing.  Eight are symmetric
    in their sources. *)
Theorem C115_ignored_arguments :
  Forall (ignores_second cgp_art_primitives) [1; 6; 7; 8; 9; 11]%nat /\
  Forall (ignores_parameter cgp_art_primitives) [0; 3; 4; 5; 6; 7; 8; 9; 12; 13]%nat /\
  Forall (symmetric cgp_art_primitives) [0; 3; 4; 5; 10; 12; 13; 14]%nat.
Proof. exact (conj second_ignored (conj parameter_ignored symmetric_ones)). Qed.
Print Assumptions C115_ignored_arguments.

(** Any circuit whose primitives keep to some kind of values answers, with values of that kind. *)
Theorem C115_circuits_keep :
  forall V (S : V -> Prop) (d : decoder V) np genome nodes outs pars prog input, proper d ->
  layout d genome nodes outs -> feasible d nodes outs -> length pars = np * (c_layers d * c_width d) -> Forall S pars ->
  program d (params_of np pars) nodes prog -> length input = c_inputs d -> Forall S input ->
  (forall j p srcs par, nth_error prog j = Some (p, srcs, par) -> p_arity p = None /\ keeps S (c_arity d + np) p) ->
  exists g vs, decode_with_parameters d np true genome pars = Ok g /\ length vs = c_outputs d /\ Forall S vs /\
    Forall2 (value (c_inputs d) prog input) outs vs /\ forall o, exists o', call g (c_inputs d) (c_outputs d) o input = Ok (o', vs).
Proof. exact @circuits_keep. Qed.
Print Assumptions C115_circuits_keep.

(** So a circuit of the eleven paints colours wherever coordinates and parameters are between 0 and 255. *)
Theorem C115_images_keep_colours :
  forall (d : decoder R) genome nodes outs pars input, proper d -> c_prims d = cgp_art_primitives -> c_arity d = 2 ->
  layout d genome nodes outs -> feasible d nodes outs -> Forall (fun nd => In (fst nd) [0; 1; 2; 5; 6; 7; 9; 10; 12; 13; 14]%Z) nodes ->
  length pars = c_layers d * c_width d -> Forall colour pars -> length input = c_inputs d -> Forall colour input ->
  exists g vs, decode_with_parameters d 1 true genome pars = Ok g /\ length vs = c_outputs d /\ Forall colour vs /\
    forall o, exists o', call g (c_inputs d) (c_outputs d) o input = Ok (o', vs).
Proof. exact images_keep. Qed.
Print Assumptions C115_images_keep_colours.

(** a genome of the mean of both inputs and its distance from the first: of 10 and 20 the mean is 15, at distance 5 *)
Example C115_example :
  (proper ex_art /\ layout ex_art [12; 0; 1; 5; 0; 2; 3]%Z [(12, [0; 1]); (5, [0; 2])]%Z [3]%Z /\ feasible ex_art [(12, [0; 1]); (5, [0; 2])]%Z [3]%Z) /\
  (p_call (art_prim art_mean) [10; 20; 7]%R = Ok 15%R /\ p_call (art_prim art_distance) [10; 15; 7]%R = Ok 5%R).
Proof. exact (conj ex_art_ok ex_art_values). Qed.
