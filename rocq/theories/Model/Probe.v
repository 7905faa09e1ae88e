(** Best-so-far probes. *)
From Verif Require Import Model.Base Model.PyList Model.Scalar.

(** Probe object: best so far, and the CSV rows written (step, best-so-far fitness).  The header
    line and the formatting of the row are not modelled. *)
(** leap_ec/probe.py:109-121, 179-191 *)
Record bsf_state := mk_bsf { bsf : option sind; bsf_rows : list (Z * num) }.

(** leap_ec/probe.py:109-121 BestSoFarProbe.__init__ *)
Definition bsf_init : bsf_state := mk_bsf None [].

(** "if self.bsf is None or (ind > self.bsf): self.bsf = ind" (leap_ec/probe.py:130-131, 201-202) *)
Definition bsf_update (maximize : bool) (coin : sind -> sind -> bool) (old : option sind) (ind : sind)
  : sind :=
  match old with
  | None => ind
  | Some b => if ind_gt maximize coin ind b then ind else b
  end.

(** leap_ec/probe.py:123-137 BestSoFarProbe.__call__: one call with context generation [gen].
    [max] of an empty population raises ValueError.  Returns the population and the new state.
    The assertions that the context holds a generation are taken as satisfied. *)
Definition bsf_call (maximize : bool) (coin : sind -> sind -> bool) (gen : Z) (pop : list sind)
    (st : bsf_state) : result (list sind * bsf_state) :=
  match pymax (ind_gt maximize coin) pop with
  | None => Err ValueError
  | Some ind =>
      let b := bsf_update maximize coin (bsf st) ind in
      Ok (pop, mk_bsf (Some b) (bsf_rows st ++ [(gen, si_fit b)]))
  end.

(** A history of calls; each call has its own generation number and coin outcomes. *)
(** histories of leap_ec/probe.py:123-137 *)
Record bsf_input := mk_bin { bi_gen : Z; bi_coin : sind -> sind -> bool; bi_pop : list sind }.

(** histories of leap_ec/probe.py:123-137 *)
Fixpoint bsf_run (maximize : bool) (h : list bsf_input) (st : bsf_state)
  : result (list (list sind) * bsf_state) :=
  match h with
  | [] => Ok ([], st)
  | i :: h' =>
      bind (bsf_call maximize (bi_coin i) (bi_gen i) (bi_pop i) st) (fun '(out, st') =>
      bind (bsf_run maximize h' st') (fun '(outs, st'') => Ok (out :: outs, st'')))
  end.

(** leap_ec/probe.py:193-208 BestSoFarIterProbe.__call__: one pull of the generator, given the
    individual obtained upstream.  Yields that individual. *)
Definition bsf_pull (maximize : bool) (coin : sind -> sind -> bool) (gen : Z) (ind : sind)
    (st : bsf_state) : sind * bsf_state :=
  let b := bsf_update maximize coin (bsf st) ind in
  (ind, mk_bsf (Some b) (bsf_rows st ++ [(gen, si_fit b)])).

(** leap_ec/probe.py:193-208, continued *)
Record pull_input := mk_pin { pi_gen : Z; pi_coin : sind -> sind -> bool; pi_ind : sind }.

(** leap_ec/probe.py:193-208, continued *)
Fixpoint bsf_pulls (maximize : bool) (h : list pull_input) (st : bsf_state)
  : list sind * bsf_state :=
  match h with
  | [] => ([], st)
  | i :: h' =>
      let '(out, st') := bsf_pull maximize (pi_coin i) (pi_gen i) (pi_ind i) st in
      let '(outs, st'') := bsf_pulls maximize h' st' in
      (out :: outs, st'')
  end.
