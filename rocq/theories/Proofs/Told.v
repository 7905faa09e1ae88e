(** The calls of the generation counter's callbacks in a run with broods (for C117). *)
From Coq Require Import Lia.
From Verif Require Import Model.Base Model.PyList Model.Scalar Model.Counters Model.Heap Model.Pipeline Model.HeapEa Model.Strategies.

Section Told.
Context {G P : Type}.
Variables (decoder_of : nat -> option (list G -> result P)) (problem_of : nat -> phen_value G P -> result num).
Variables (maximize : bool) (coin : nat -> sind -> sind -> bool) (max_generation : Z) (brood : nat) (mode : replacement)
  (operators : nat -> Q -> list (op G)) (pick : nat -> world G P num -> list nat -> nat -> nat) (callbacks : list (Z -> Q -> Q)).

Definition calls_of (n : nat) : list (nat * Z) := flat_map (fun g => map (fun f => (f, Z.of_nat g)) (seq 0 (length callbacks))) (seq 1 n).

Lemma calls_S n : calls_of (S n) = calls_of n ++ map (fun f => (f, Z.of_nat (S n))) (seq 0 (length callbacks)).
Proof. unfold calls_of. rewrite seq_S, flat_map_app. cbn [flat_map]. rewrite app_nil_r. reflexivity. Qed.

Lemma loop_told fuel : forall i gc std w earlier used parents r gc',
  gc_curr gc = Z.of_nat (length earlier) -> gc_log gc = calls_of (length earlier) ->
  strategy_loop decoder_of problem_of maximize coin max_generation brood mode operators pick callbacks fuel i gc std w earlier used parents
    = Some (r, gc') ->
  exists n, gc_curr gc' = Z.of_nat n /\ gc_log gc' = calls_of n /\
    (forall final w' all bred, r = Ok (final, w', all, bred) -> n = length all).
Proof.
  induction fuel as [|fuel IH]; intros i gc std w earlier used parents r gc' Hc Hl H; cbn [strategy_loop] in H;
    destruct (Z.ltb (gc_generation gc) max_generation).
  - discriminate.
  - injection H as <- <-. exists (length earlier). split; [auto|]. split; [auto|]. intros final w' all bred E. injection E; intros; subst. reflexivity.
  - destruct (pool _ _ _ _ _ _ _) as [[[offspring sts] w1]|e].
    + destruct (replaced _ _ _ _ _ _ _) as [survivors|e].
      * cbn [gc_increment] in H. eapply IH in H; [exact H| |].
        -- cbn [gc_curr]. rewrite Hc, app_length. cbn [length]. lia.
        -- cbn [gc_log]. rewrite app_length, Hl, Hc, Nat.add_1_r, calls_S. rewrite Nat2Z.inj_succ. reflexivity.
      * injection H as <- <-. exists (length earlier). split; [auto|]. split; [auto|]. discriminate.
    + injection H as <- <-. exists (length earlier). split; [auto|]. split; [auto|]. discriminate.
  - injection H as <- <-. exists (length earlier). split; [auto|]. split; [auto|]. intros final w' all bred E. injection E; intros; subst. reflexivity.
Qed.

Lemma run_told initialize problem decoder pop_size std w r gc' :
  strategy decoder_of problem_of maximize coin max_generation brood mode operators pick callbacks initialize problem decoder pop_size std w
    = Some (r, gc') ->
  exists n, gc_curr gc' = Z.of_nat n /\
    gc_log gc' = flat_map (fun g => map (fun f => (f, Z.of_nat g)) (seq 0 (length callbacks))) (seq 1 n) /\
    (forall final w' earlier used, r = Ok (final, w', earlier, used) -> n = length earlier).
Proof.
  unfold strategy. destruct (create_all _ _ _ _ _ _ _) as [l w1]. destruct (evaluate_population _ _ _ _ _) as [[u|e] w2]; intros H.
  - apply loop_told in H; [exact H|reflexivity|reflexivity].
  - injection H as <- <-. exists 0. split; [reflexivity|]. split; [reflexivity|]. discriminate.
Qed.
End Told.
