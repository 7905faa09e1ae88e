(** Incremental non-dominated layers. *)
From Coq Require Import Lia Permutation.
From Verif Require Import Model.Base Model.PyList Model.Pareto Model.Crowding Model.Enlu
  Spec.Order Spec.Pareto Proofs.Order Proofs.Pareto Proofs.RankOrdinal.

(** ** lists *)
Lemma chosen_filter (f : mo -> bool) b l : chosen b l (map f l) = filter (fun x => Bool.eqb (f x) b) l.
Proof.
  unfold chosen. induction l as [|x l IH]; simpl; [reflexivity|].
  destruct (Bool.eqb (f x) b); simpl; rewrite IH; reflexivity.
Qed.

Lemma filter_split {A} (f : A -> bool) l : Permutation l (filter f l ++ filter (fun x => negb (f x)) l).
Proof.
  induction l as [|x l IH]; simpl; [constructor|]. destruct (f x); simpl; [constructor; exact IH|].
  rewrite <- Permutation_middle. constructor. exact IH.
Qed.

Section Enlu.
Variable mx : list bool.

Definition tdom (M : list mo) (x : mo) : bool := existsb (fun m => mo_gt mx m x) M.
Definition bz (M : list mo) (x : mo) : bool := below_zenith mx (zenith mx M) x.
Definition nd (M L : list mo) : list mo := filter (fun x => negb (bz M x)) L.
Definition stay (M L : list mo) : list mo := filter (fun x => negb (tdom M x)) (filter (bz M) L).
Definition moved (M L : list mo) : list mo := filter (tdom M) (filter (bz M) L).

Lemma enlu_loop_cons depth M layer rest rank : M <> [] ->
  enlu_loop mx depth M (layer :: rest) rank =
  match nd M layer with
  | [] => (M :: layer :: rest, set_ranks_from (S depth) (M :: layer :: rest) rank, S depth)
  | _ :: _ =>
      let layer' := (nd M layer ++ M) ++ stay M layer in
      let '(rest'', rank', e) := enlu_loop mx (S depth) (moved M layer) rest (set_rank (S depth) layer' rank) in
      (layer' :: rest'', rank', e)
  end.
Proof.
  intros HM. destruct M as [|m M]; [congruence|].
  cbn [enlu_loop]. unfold split_dominated. fold (bz (m :: M)).
  change (filter (below_zenith mx (zenith mx (m :: M))) layer) with (filter (bz (m :: M)) layer).
  change (filter (fun x => negb (below_zenith mx (zenith mx (m :: M)) x)) layer) with (nd (m :: M) layer).
  unfold set_domination. fold (tdom (m :: M)).
  change (map (fun ri => existsb (fun li => mo_gt mx li ri) (m :: M)) (filter (bz (m :: M)) layer))
    with (map (tdom (m :: M)) (filter (bz (m :: M)) layer)).
  rewrite !chosen_filter.
  assert (E1 : filter (fun x => Bool.eqb (tdom (m :: M) x) true) (filter (bz (m :: M)) layer) = moved (m :: M) layer).
  { apply filter_ext. intros x. destruct (tdom (m :: M) x); reflexivity. }
  assert (E2 : filter (fun x => Bool.eqb (tdom (m :: M) x) false) (filter (bz (m :: M)) layer) = stay (m :: M) layer).
  { apply filter_ext. intros x. destruct (tdom (m :: M) x); reflexivity. }
  rewrite E1, E2. reflexivity.
Qed.

Lemma layer_split M L : Permutation (L ++ M) (((nd M L ++ M) ++ stay M L) ++ moved M L).
Proof.
  assert (P : Permutation L (nd M L ++ stay M L ++ moved M L)).
  { rewrite (filter_split (bz M) L) at 1. rewrite Permutation_app_comm. apply Permutation_app_head.
    rewrite (filter_split (tdom M) (filter (bz M) L)) at 1. apply Permutation_app_comm. }
  rewrite P at 1. rewrite <- !app_assoc. apply Permutation_app_head.
  rewrite app_assoc. apply Permutation_app_comm.
Qed.

Lemma in_layer_split M L x : In x L <-> In x (nd M L) \/ In x (stay M L) \/ In x (moved M L).
Proof.
  unfold nd, stay, moved. rewrite !filter_In. destruct (bz M x), (tdom M x); simpl; intuition congruence.
Qed.

(** ** nobody is lost, whatever the number of objectives *)
Lemma enlu_loop_perm : forall rest depth M rank,
  let '(rest', _, _) := enlu_loop mx depth M rest rank in Permutation (M ++ concat rest) (concat rest').
Proof.
  induction rest as [|layer rest IH]; intros depth M rank.
  - destruct M; simpl; [constructor|rewrite !app_nil_r; reflexivity].
  - destruct M as [|m M]; [simpl; reflexivity|]. set (MM := m :: M) in *. rewrite enlu_loop_cons by (unfold MM; discriminate).
    destruct (nd MM layer) as [|x xs] eqn:E; [simpl; reflexivity|]. rewrite <- E.
    cbv zeta. set (layer' := (nd MM layer ++ MM) ++ stay MM layer).
    specialize (IH (S depth) (moved MM layer) (set_rank (S depth) layer' rank)).
    destruct (enlu_loop mx (S depth) (moved MM layer) rest (set_rank (S depth) layer' rank)) as [[rest'' rank'] e].
    cbn [concat]. rewrite <- IH. rewrite !app_assoc. apply Permutation_app_tail.
    rewrite (Permutation_app_comm MM layer). apply layer_split.
Qed.

Lemma enlu_loop_nonempty : forall rest depth M rank, Forall (fun l => l <> []) rest ->
  let '(rest', _, _) := enlu_loop mx depth M rest rank in Forall (fun l => l <> []) rest'.
Proof.
  induction rest as [|layer rest IH]; intros depth M rank H.
  - destruct M; simpl; [constructor|repeat constructor; discriminate].
  - destruct M as [|m M]; [exact H|]. inversion H; subst. rewrite enlu_loop_cons by discriminate.
    destruct (nd (m :: M) layer) as [|x xs] eqn:E; [constructor; [discriminate|exact H]|].
    cbv zeta. specialize (IH (S depth) (moved (m :: M) layer) (set_rank (S depth) (((x :: xs) ++ m :: M) ++ stay (m :: M) layer) rank) H3).
    destruct (enlu_loop _ _ _ _ _) as [[rest'' rank'] e]. constructor; [discriminate|exact IH].
Qed.

(** which layers were changed *)
Lemma enlu_loop_changed : forall rest depth M rank,
  let '(rest', _, e) := enlu_loop mx depth M rest rank in
  exists changed unchanged, rest' = changed ++ unchanged /\ e = depth + length changed /\
    forall l, In l unchanged -> In l rest.
Proof.
  induction rest as [|layer rest IH]; intros depth M rank.
  - destruct M as [|m M]; [exists [], []|exists [m :: M], []]; simpl; (split; [reflexivity|]; split; [lia|intros ? []]).
  - destruct M as [|m M]; [exists [], (layer :: rest); simpl; split; [reflexivity|]; split; [lia|auto]|].
    rewrite enlu_loop_cons by discriminate. destruct (nd (m :: M) layer) as [|x xs] eqn:E.
    + exists [m :: M], (layer :: rest). simpl. split; [reflexivity|]. split; [lia|auto].
    + cbv zeta. specialize (IH (S depth) (moved (m :: M) layer) (set_rank (S depth) (((x :: xs) ++ m :: M) ++ stay (m :: M) layer) rank)).
      destruct (enlu_loop _ _ _ _ _) as [[rest'' rank'] e]. destruct IH as (ch & un & -> & -> & H).
      exists ((((x :: xs) ++ m :: M) ++ stay (m :: M) layer) :: ch), un. split; [reflexivity|]. split; [simpl; lia|].
      intros l Hl. right. apply H, Hl.
Qed.

(** ** the rank attribute is the number of the layer *)
Definition ranked (r : nat) (layers : list (list mo)) (rank : nat -> nat) : Prop :=
  forall k l x, nth_error layers k = Some l -> In x l -> rank (o_id x) = r + k.

Lemma set_rank_in r l rank x : In x l -> set_rank r l rank (o_id x) = r.
Proof.
  unfold set_rank. induction l as [|a l IH] using rev_ind; intros Hx; [destruct Hx|].
  rewrite fold_left_app. simpl. unfold set_at at 1. destruct (Nat.eqb_spec (o_id x) (o_id a)); [reflexivity|].
  apply in_app_or in Hx. destruct Hx as [Hx|[<-|[]]]; [apply IH, Hx|congruence].
Qed.
Lemma set_rank_out r l rank i : ~ In i (map o_id l) -> set_rank r l rank i = rank i.
Proof.
  unfold set_rank. induction l as [|a l IH] using rev_ind; intros Hx; [reflexivity|].
  rewrite fold_left_app. simpl. rewrite map_app, in_app_iff in Hx. simpl in Hx.
  unfold set_at at 1. destruct (Nat.eqb_spec i (o_id a)) as [->|]; [tauto|]. apply IH. tauto.
Qed.

Lemma ranked_cons r l rest rank :
  ranked r (l :: rest) rank <-> (forall x, In x l -> rank (o_id x) = r) /\ ranked (S r) rest rank.
Proof.
  split.
  - intros H. split.
    + intros x Hx. rewrite (H 0 l x eq_refl Hx). lia.
    + intros k l' x Hk Hx. rewrite (H (S k) l' x Hk Hx). lia.
  - intros [H1 H2] [|k] l' x Hk Hx.
    + injection Hk as <-. rewrite (H1 x Hx). lia.
    + rewrite (H2 k l' x Hk Hx). lia.
Qed.

Lemma ranked_ext r layers rank rank' :
  (forall x, In x (concat layers) -> rank' (o_id x) = rank (o_id x)) -> ranked r layers rank -> ranked r layers rank'.
Proof.
  intros H HR k l x Hk Hx. rewrite H; [exact (HR k l x Hk Hx)|]. apply in_concat. exists l. split; [|exact Hx].
  eapply nth_error_In, Hk.
Qed.

Lemma NoDup_app_disjoint {A} (l1 l2 : list A) : NoDup (l1 ++ l2) ->
  NoDup l1 /\ NoDup l2 /\ forall x, In x l1 -> ~ In x l2.
Proof.
  induction l1 as [|a l1 IH]; simpl; intros H; [repeat split; [constructor|exact H|intros x []]|].
  inversion H; subst. destruct (IH H3) as (I1 & I2 & I3). split; [|split; [exact I2|]].
  - constructor; [|exact I1]. intros Ha. apply H2, in_or_app. left. exact Ha.
  - intros x [<-|Hx]; [|apply I3, Hx]. intros Ha. apply H2, in_or_app. right. exact Ha.
Qed.

Lemma set_ranks_from_ok : forall layers r rank, NoDup (map o_id (concat layers)) ->
  ranked r layers (set_ranks_from r layers rank) /\
  forall i, ~ In i (map o_id (concat layers)) -> set_ranks_from r layers rank i = rank i.
Proof.
  induction layers as [|l layers IH]; intros r rank HN; simpl.
  - split; [intros [|k] l x H; discriminate|reflexivity].
  - simpl in HN. rewrite map_app in HN. apply NoDup_app_disjoint in HN. destruct HN as (N1 & N2 & N3).
    destruct (IH (S r) (set_rank r l rank) N2) as [I1 I2]. split.
    + apply ranked_cons. split; [|exact I1]. intros x Hx. rewrite I2 by (apply N3, in_map, Hx). apply set_rank_in, Hx.
    + intros i Hi. rewrite map_app, in_app_iff in Hi. rewrite I2 by tauto. apply set_rank_out. tauto.
Qed.

Lemma enlu_loop_ranked : forall rest depth M rank, NoDup (map o_id (M ++ concat rest)) ->
  ranked (S depth) rest rank ->
  let '(rest', rank', _) := enlu_loop mx depth M rest rank in
  ranked (S depth) rest' rank' /\ forall i, ~ In i (map o_id (M ++ concat rest)) -> rank' i = rank i.
Proof.
  induction rest as [|layer rest IH]; intros depth M rank HN HR.
  - destruct M as [|m M]; simpl; [split; [exact HR|reflexivity]|].
    rewrite app_nil_r in *. split.
    + apply ranked_cons. split; [|intros [|k] l x H; discriminate]. intros x Hx. apply (set_rank_in (S depth) (m :: M) rank x Hx).
    + intros i Hi. apply (set_rank_out (S depth) (m :: M) rank i). simpl. exact Hi.
  - destruct M as [|m M]; [split; [exact HR|reflexivity]|]. set (MM := m :: M) in *.
    rewrite enlu_loop_cons by (unfold MM; discriminate). destruct (nd MM layer) as [|x xs] eqn:E.
    + apply set_ranks_from_ok. exact HN.
    + rewrite <- E. cbv zeta. set (layer' := (nd MM layer ++ MM) ++ stay MM layer).
      assert (P : Permutation (MM ++ concat (layer :: rest)) (layer' ++ (moved MM layer ++ concat rest))).
      { cbn [concat]. rewrite !app_assoc. apply Permutation_app_tail. rewrite (Permutation_app_comm MM layer). apply layer_split. }
      pose proof (Permutation_NoDup (Permutation_map o_id P) HN) as HN'. rewrite map_app in HN'.
      apply NoDup_app_disjoint in HN'. destruct HN' as (N1 & N2 & N3).
      apply ranked_cons in HR. destruct HR as [R1 R2].
      assert (R2' : ranked (S (S depth)) rest (set_rank (S depth) layer' rank)).
      { apply (ranked_ext _ _ rank); [|exact R2]. intros y Hy. apply set_rank_out. intros Hin.
        apply (N3 _ Hin). apply in_map, in_or_app. right. exact Hy. }
      specialize (IH (S depth) (moved MM layer) (set_rank (S depth) layer' rank) N2 R2').
      pose proof (enlu_loop_perm rest (S depth) (moved MM layer) (set_rank (S depth) layer' rank)) as PL.
      destruct (enlu_loop mx (S depth) (moved MM layer) rest (set_rank (S depth) layer' rank)) as [[rest'' rank'] e].
      destruct IH as [I1 I2]. split.
      * apply ranked_cons. split; [|exact I1]. intros y Hy. rewrite I2; [apply set_rank_in, Hy|]. apply N3, in_map, Hy.
      * intros i Hi.
        assert (Hi2 : ~ In i (map o_id (layer' ++ (moved MM layer ++ concat rest)))).
        { intros Hin. apply Hi. exact (Permutation_in _ (Permutation_sym (Permutation_map o_id P)) Hin). }
        rewrite map_app, in_app_iff in Hi2. rewrite I2 by tauto. apply set_rank_out. tauto.
Qed.

(** ** the binary search *)
Definition hit (ind : mo) (layers : list (list mo)) (k : nat) : bool :=
  existsb (fun i => mo_gt mx i ind) (nth k layers []).

Lemma find_start_loop_ok ind layers : forall fuel lo hi,
  (0 <= lo)%Z -> (hi < Z.of_nat (length layers))%Z -> (lo <= hi + 1)%Z -> (hi - lo + 1 < Z.of_nat fuel)%Z ->
  exists s, find_start_loop mx fuel ind layers lo hi = Some s /\ (lo <= s <= hi + 1)%Z /\
    ((forall j k, j <= k -> hit ind layers k = true -> hit ind layers j = true) ->
     (forall j, (Z.of_nat j < lo)%Z -> hit ind layers j = true) ->
     (forall j, (hi < Z.of_nat j)%Z -> hit ind layers j = false) ->
     (forall j, (Z.of_nat j < s)%Z -> hit ind layers j = true) /\
     (forall j, (s <= Z.of_nat j)%Z -> hit ind layers j = false)).
Proof.
  induction fuel as [|fuel IH]; intros lo hi H1 H2 H3 H4; [lia|].
  cbn [find_start_loop]. destruct (Z.leb_spec lo hi) as [Hle|Hgt].
  - pose proof (Z.div_mod (lo + hi) 2 ltac:(lia)) as Dm. pose proof (Z.mod_pos_bound (lo + hi) 2 ltac:(lia)) as Mb.
    set (mid := ((lo + hi) / 2)%Z) in *. fold (hit ind layers (Z.to_nat mid)).
    destruct (hit ind layers (Z.to_nat mid)) eqn:E; simpl.
    + destruct (IH (mid + 1)%Z hi) as (s & Es & B & G); try lia. exists s. split; [exact Es|]. split; [lia|].
      intros Hm Hlo Hhi. apply G; [exact Hm| |exact Hhi]. intros j Hj. apply (Hm j (Z.to_nat mid)); [lia|exact E].
    + destruct (IH lo (mid - 1)%Z) as (s & Es & B & G); try lia. exists s. split; [exact Es|]. split; [lia|].
      intros Hm Hlo Hhi. apply G; [exact Hm|exact Hlo|]. intros j Hj.
      destruct (hit ind layers j) eqn:F; [|reflexivity]. rewrite (Hm (Z.to_nat mid) j) in E; [discriminate|lia|exact F].
  - exists lo. split; [reflexivity|]. split; [lia|]. intros Hm Hlo Hhi. split; [exact Hlo|]. intros j Hj. apply Hhi. lia.
Qed.

Lemma find_start_ok ind layers :
  exists s, find_start_layer mx ind layers = Some (Z.of_nat s) /\ s <= length layers /\
    ((forall j k, j <= k -> hit ind layers k = true -> hit ind layers j = true) ->
     (forall j, j < s -> hit ind layers j = true) /\ (forall j, s <= j -> hit ind layers j = false)).
Proof.
  unfold find_start_layer.
  destruct (find_start_loop_ok ind layers (S (length layers)) 0 (Z.of_nat (length layers) - 1)) as (s & Es & B & G); try lia.
  exists (Z.to_nat s). rewrite Z2Nat.id by lia. split; [exact Es|]. split; [lia|]. intros Hm. destruct G as [G1 G2].
  - exact Hm.
  - intros j Hj. lia.
  - intros j Hj. unfold hit. rewrite nth_overflow by lia. reflexivity.
  - split; intros j Hj; [apply G1|apply G2]; lia.
Qed.

(** ** true layers *)
Definition ok (x : mo) : Prop := length (o_fit x) = length mx /\ Forall viable (o_fit x).
Notation dm q p := (mo_gt mx q p = true).

Lemma dm_irrefl x : ~ dm x x.
Proof. rewrite mo_gt_spec. apply dominates_irrefl. Qed.
Lemma dm_trans x y z : ok x -> ok y -> ok z -> dm x y -> dm y z -> dm x z.
Proof. intros [Lx _] [Ly _] [Lz _]. rewrite !mo_gt_spec. apply dominates_trans; assumption. Qed.

Definition dominated_in (prev : option (list mo)) (p : mo) : Prop :=
  match prev with Some pl => exists q, In q pl /\ dm q p | None => True end.

Fixpoint TL (prev : option (list mo)) (layers : list (list mo)) : Prop :=
  match layers with
  | [] => True
  | l :: r =>
      l <> [] /\ (forall p q, In p l -> In q (l ++ concat r) -> ~ dm q p) /\
      (forall p, In p l -> dominated_in prev p) /\ TL (Some l) r
  end.

Lemma TL_prev prev prev' layers :
  (forall p, dominated_in prev p -> dominated_in prev' p) -> TL prev layers -> TL prev' layers.
Proof. intros H. destruct layers as [|l r]; [auto|]. cbn [TL]. intros (A & B & C & D).
  split; [exact A|]. split; [exact B|]. split; [|exact D]. intros p Hp. apply H, C, Hp. Qed.

Definition last_of (prev : option (list mo)) (l : list (list mo)) : option (list mo) :=
  match l with [] => prev | _ => Some (last l []) end.

Lemma last_of_cons prev a l : last_of prev (a :: l) = last_of (Some a) l.
Proof. destruct l; reflexivity. Qed.

Lemma TL_app prev l1 : forall l2, TL prev (l1 ++ l2) <->
  TL prev l1 /\ (forall p q, In p (concat l1) -> In q (concat l2) -> ~ dm q p) /\ TL (last_of prev l1) l2.
Proof.
  revert prev. induction l1 as [|a l1 IH]; intros prev l2.
  - simpl. split; [intros H; split; [exact I|]; split; [intros p q []|exact H]|tauto].
  - cbn [app TL]. rewrite last_of_cons. rewrite (IH (Some a) l2). rewrite concat_app. cbn [concat]. split.
    + intros (A & B & C & D & E & F). split; [split; [exact A|]; split; [|split; [exact C|exact D]]|].
      * intros p q Hp Hq. apply B; [exact Hp|]. rewrite in_app_iff in *. rewrite in_app_iff. tauto.
      * split; [|exact F]. intros p q Hp Hq. rewrite in_app_iff in Hp. destruct Hp as [Hp|Hp]; [|apply E; assumption].
        apply B; [exact Hp|]. rewrite !in_app_iff. tauto.
    + intros ((A & B & C & D) & E & F). split; [exact A|]. split; [|split; [exact C|split; [exact D|split; [|exact F]]]].
      * intros p q Hp Hq. rewrite !in_app_iff in Hq. destruct Hq as [Hq|[Hq|Hq]].
        -- apply B; [exact Hp|apply in_or_app; tauto].
        -- apply B; [exact Hp|apply in_or_app; tauto].
        -- apply E; [apply in_or_app; tauto|exact Hq].
      * intros p q Hp Hq. apply E; [apply in_or_app; tauto|exact Hq].
Qed.

(** whoever is below the zenith of [M] is dominated by a member of [M] *)
Definition ZP (M : list mo) (rest : list (list mo)) : Prop :=
  match rest with [] => True | l :: _ => forall p, In p l -> bz M p = true -> tdom M p = true end.

Definition sv (x : mo) : list num := signed mx (o_fit x).
Lemma sv_row x : ok x -> vrow (length mx) (sv x).
Proof. intros [L V]. apply signed_vrow; assumption. Qed.
Lemma dm_sv q p : mo_gt mx q p = dominated_vec (sv p) (sv q).
Proof. rewrite mo_gt_lt. reflexivity. Qed.

Lemma tdom_spec M x : tdom M x = true <-> exists m, In m M /\ dm m x.
Proof. unfold tdom. apply existsb_exists. Qed.

(** ** the zenith *)
Lemma np_max2_spec a b : viable a -> viable b ->
  (np_max2 a b = a \/ np_max2 a b = b) /\ num_leb a (np_max2 a b) = true /\ num_leb b (np_max2 a b) = true /\ viable (np_max2 a b).
Proof.
  intros Ha Hb. unfold np_max2. pose proof (proj1 (viable_isnan a) Ha) as Na. pose proof (proj1 (viable_isnan b) Hb) as Nb.
  rewrite Na, Nb. destruct (num_ltb a b) eqn:E.
  - split; [auto|]. split; [apply ltb_leb, E|]. split; [apply leb_refl, Hb|exact Hb].
  - split; [auto|]. split; [apply leb_refl, Ha|]. split; [|exact Ha]. rewrite leb_ltb, E by assumption. reflexivity.
Qed.

Lemma row_max_spec m a : forall b, vrow m a -> vrow m b ->
  vrow m (row_max a b) /\ rle a (row_max a b) /\ rle b (row_max a b) /\
  forall k, k < m -> nth k (row_max a b) NNan = nth k a NNan \/ nth k (row_max a b) NNan = nth k b NNan.
Proof.
  revert m. induction a as [|x a IH]; intros m b [La Va] [Lb Vb].
  - destruct b; [|simpl in *; lia]. simpl. split; [split; [simpl in *; lia|constructor]|]. split; [constructor|]. split; [constructor|].
    intros k Hk. auto.
  - destruct b as [|y b]; [simpl in *; lia|]. simpl in La, Lb. inversion Va; subst. inversion Vb; subst.
    destruct (IH (length a) b) as (I1 & I2 & I3 & I4).
    { split; [reflexivity|assumption]. } { split; [lia|assumption]. }
    destruct (np_max2_spec x y) as (N1 & N2 & N3 & N4); [assumption|assumption|].
    destruct I1 as [I1 I1']. simpl. split; [|split; [|split]].
    + split; [simpl; lia|constructor; assumption].
    + constructor; assumption.
    + constructor; assumption.
    + intros [|k] Hk; simpl; [destruct N1 as [-> | ->]; auto|]. apply I4. lia.
Qed.

Lemma fold_row_max m rs : forall acc, vrow m acc -> Forall (vrow m) rs ->
  let z := fold_left row_max rs acc in
  vrow m z /\ (forall r, In r (acc :: rs) -> rle r z) /\
  forall k, k < m -> exists r, In r (acc :: rs) /\ nth k z NNan = nth k r NNan.
Proof.
  induction rs as [|r rs IH]; intros acc Ha HF; simpl.
  - split; [exact Ha|]. split; [intros r [<-|[]]; eapply rle_refl, Ha|]. intros k Hk. exists acc. auto.
  - inversion HF; subst. destruct (row_max_spec m acc r Ha H1) as (R1 & R2 & R3 & R4).
    destruct (IH (row_max acc r) R1 H2) as (I1 & I2 & I3). split; [exact I1|]. split.
    + intros s [<-|[<-|Hs]].
      * eapply rle_trans; [exact R2|]. apply I2. left. reflexivity.
      * eapply rle_trans; [exact R3|]. apply I2. left. reflexivity.
      * apply I2. right. exact Hs.
    + intros k Hk. destruct (I3 k Hk) as (s & [<-|Hs] & E).
      * rewrite E. destruct (R4 k Hk) as [-> | ->]; [exists acc|exists r]; auto.
      * exists s. auto.
Qed.

Lemma zenith_spec M : M <> [] -> (forall x, In x M -> ok x) ->
  vrow (length mx) (zenith mx M) /\ (forall x, In x M -> rle (sv x) (zenith mx M)) /\
  forall k, k < length mx -> exists x, In x M /\ nth k (zenith mx M) NNan = nth k (sv x) NNan.
Proof.
  intros HM Hok. destruct M as [|m M]; [congruence|]. unfold zenith. simpl.
  destruct (fold_row_max (length mx) (map (fun x => signed mx (o_fit x)) M) (signed mx (o_fit m))) as (F1 & F2 & F3).
  - apply sv_row, Hok. left. reflexivity.
  - apply Forall_forall. intros r Hr. apply in_map_iff in Hr. destruct Hr as (x & <- & Hx). apply sv_row, Hok. right. exact Hx.
  - split; [exact F1|]. split.
    + intros x [<-|Hx]; apply F2; [left; reflexivity|right; apply in_map_iff; exists x; auto].
    + intros k Hk. destruct (F3 k Hk) as (r & [<-|Hr] & E).
      * exists m. auto.
      * apply in_map_iff in Hr. destruct Hr as (x & <- & Hx). exists x. auto.
Qed.

(** a truly dominated point is below the zenith *)
Lemma tdom_bz M x : (forall y, In y M -> ok y) -> ok x -> tdom M x = true -> bz M x = true.
Proof.
  intros Hok Hx H. apply tdom_spec in H. destruct H as (m & Hm & Hd). rewrite dm_sv in Hd.
  assert (HM : M <> []) by (intros ->; destruct Hm).
  destruct (zenith_spec M HM Hok) as (Z1 & Z2 & _).
  pose proof (sv_row x Hx) as Vx. pose proof (sv_row m (Hok m Hm)) as Vm.
  apply (dominated_rle (length mx)) in Hd; [|assumption|assumption]. destruct Hd as [D1 D2].
  unfold bz, below_zenith. apply (dominated_rle (length mx)); [exact Vx|exact Z1|]. split.
  - eapply rle_trans; [exact D1|apply Z2, Hm].
  - destruct (row_eqb (signed mx (o_fit x)) (zenith mx M)) eqn:E; [|reflexivity].
    apply row_eqb_rle in E. destruct E as [_ E]. fold (sv x) in E.
    assert (F : row_eqb (sv x) (sv m) = true); [|congruence].
    apply row_eqb_rle. split; [exact D1|]. eapply rle_trans; [apply Z2, Hm|exact E].
Qed.

Lemma bz_single ind x : ok ind -> ok x -> bz [ind] x = true -> tdom [ind] x = true.
Proof.
  intros _ _ H. apply tdom_spec. exists ind. split; [left; reflexivity|]. rewrite dm_sv. exact H.
Qed.

(** with at most two objectives the condition carries over to the next layer *)
Lemma row2 r : vrow 2 r -> exists a b, r = [a; b] /\ viable a /\ viable b.
Proof.
  intros [L V]. destruct r as [|a [|b [|]]]; simpl in L; try lia. inversion V; subst. inversion H2; subst. eauto.
Qed.
Lemma dom2 a b c d : viable a -> viable b -> viable c -> viable d ->
  (dominated_vec [a; b] [c; d] = true <->
   num_leb a c = true /\ num_leb b d = true /\ (num_ltb a c = true \/ num_ltb b d = true)).
Proof.
  intros. unfold dominated_vec. simpl. rewrite !andb_true_iff, !orb_true_iff. intuition congruence.
Qed.
Lemma leb_or_ltb a b : viable a -> viable b -> num_leb a b = true \/ num_ltb b a = true.
Proof. intros Ha Hb. rewrite leb_ltb by assumption. destruct (num_ltb b a); auto. Qed.

Lemma ZP_step M layer rest : length mx <= 2 -> (forall x, In x M -> ok x) -> (forall x, In x layer -> ok x) ->
  (forall x, In x (concat rest) -> ok x) ->
  ZP M (layer :: rest) -> (forall p q, In p layer -> In q layer -> ~ dm q p) -> TL (Some layer) rest ->
  ZP (moved M layer) rest.
Proof.
  intros Hmx HokM HokL HokR HZ HL HT. destruct rest as [|next rest]; [exact I|]. simpl in HZ |- *.
  intros p Hp Hb. simpl in HT. destruct HT as (_ & _ & HD & _). destruct (HD p Hp) as (q & Hq & Hqp).
  assert (Okp : ok p) by (apply HokR; simpl; apply in_or_app; left; exact Hp).
  assert (Okq : ok q) by (apply HokL, Hq).
  set (M' := moved M layer) in *.
  assert (HM' : M' <> []).
  { intros E. rewrite E in Hb. unfold bz, below_zenith, zenith in Hb. simpl in Hb. unfold dominated_vec in Hb.
    rewrite andb_true_iff in Hb. destruct Hb as [_ Hb].
    assert (G : forall l : list num, combine l (@nil num) = []) by (intros []; reflexivity). rewrite G in Hb. discriminate. }
  assert (Hin' : forall x, In x M' -> In x layer /\ bz M x = true /\ tdom M x = true).
  { intros x Hx. unfold M', moved in Hx. rewrite !filter_In in Hx. tauto. }
  assert (Ok' : forall x, In x M' -> ok x) by (intros x Hx; apply HokL, Hin', Hx).
  destruct (zenith_spec M' HM' Ok') as (Z1 & Z2 & Z3).
  destruct (bz M q) eqn:Bq.
  { (* q itself moves *)
    apply tdom_spec. exists q. split; [|exact Hqp]. unfold M', moved. rewrite !filter_In. auto. }
  assert (HMne : M <> []).
  { destruct M' as [|a M''] eqn:E; [congruence|]. destruct (Hin' a (or_introl eq_refl)) as (_ & _ & Ht).
    apply tdom_spec in Ht. destruct Ht as (m & Hm & _). intros ->. destruct Hm. }
  destruct (zenith_spec M HMne HokM) as (Y1 & Y2 & _).
  pose proof (sv_row p Okp) as Vp. pose proof (sv_row q Okq) as Vq.
  unfold bz, below_zenith in Hb. fold (sv p) in Hb.
  (* the case q below the new zenith is impossible *)
  assert (Hno : ~ rle (sv q) (zenith mx M')).
  { intros Hle.
    assert (HZZ : rle (zenith mx M') (zenith mx M)).
    { assert (G : forall r1 r2, vrow (length mx) r1 -> vrow (length mx) r2 ->
        (forall k, k < length mx -> num_leb (nth k r1 NNan) (nth k r2 NNan) = true) -> rle r1 r2).
      { generalize (length mx). clear. intros n r1. revert n. induction r1 as [|x r1 IH]; intros n [|y r2] [L1 V1] [L2 V2] H; simpl in *; try lia; [constructor|].
        inversion V1; subst. inversion V2; subst. constructor; [apply (H 0); lia|].
        apply (IH (length r1)); [split; [reflexivity|assumption]|split; [lia|assumption]|]. intros k Hk. apply (H (S k)). lia. }
      apply G; [exact Z1|exact Y1|]. intros k Hk. destruct (Z3 k Hk) as (x & Hx & ->).
      destruct (Hin' x Hx) as (HxL & _ & Ht). apply tdom_spec in Ht. destruct Ht as (m & Hm & Hmx').
      rewrite dm_sv in Hmx'. pose proof (sv_row x (HokL x HxL)) as Vx. pose proof (sv_row m (HokM m Hm)) as Vm.
      apply (dominated_rle (length mx)) in Hmx'; [|assumption|assumption]. destruct Hmx' as [Hr _].
      pose proof (rle_trans _ _ _ Hr (Y2 m Hm)) as Hr2.
      assert (G2 : forall r1 r2, rle r1 r2 -> forall k, k < length r1 -> num_leb (nth k r1 NNan) (nth k r2 NNan) = true).
      { clear. intros r1 r2 H. induction H as [|a b r1 r2 Hab H IH]; intros k Hk; simpl in Hk; [lia|].
        destruct k as [|k]; [exact Hab|]. apply IH. lia. }
      apply G2; [exact Hr2|]. destruct Vx as [-> _]. exact Hk. }
    pose proof (rle_trans _ _ _ Hle HZZ) as HqZ.
    assert (Eq : row_eqb (sv q) (zenith mx M) = true).
    { destruct (row_eqb (sv q) (zenith mx M)) eqn:E; [reflexivity|].
      assert (bz M q = true); [|congruence]. apply (dominated_rle (length mx)); [exact Vq|exact Y1|]. auto. }
    destruct M' as [|a M'']; [congruence|]. destruct (Hin' a (or_introl eq_refl)) as (HaL & _ & Ht).
    apply tdom_spec in Ht. destruct Ht as (m & Hm & Hma). apply (HL a q HaL Hq).
    pose proof (sv_row a (HokL a HaL)) as Va. pose proof (sv_row m (HokM m Hm)) as Vm.
    rewrite dm_sv in *. apply (dominated_rle (length mx)) in Hma; [|assumption|assumption]. destruct Hma as [D1 D2].
    apply row_eqb_rle in Eq. apply (dominated_rle (length mx)); [exact Va|exact Vq|]. split.
    - eapply rle_trans; [exact D1|]. eapply rle_trans; [apply Y2, Hm|apply Eq].
    - destruct (row_eqb (sv a) (sv q)) eqn:E; [|reflexivity]. apply row_eqb_rle in E.
      assert (F : row_eqb (sv a) (sv m) = true); [|congruence]. apply row_eqb_rle. split; [exact D1|].
      eapply rle_trans; [apply Y2, Hm|]. eapply rle_trans; [apply Eq|apply E]. }
  apply tdom_spec.
  destruct (length mx) as [|[|[|n]]] eqn:Em; [| | |lia].
  - (* no objective: nothing dominates *)
    destruct Vp as [Lp _]. destruct Z1 as [LZ _]. destruct (sv p); [|discriminate]. discriminate Hb.
  - (* one objective: the zenith is one of the points *)
    destruct (Z3 0 ltac:(lia)) as (a & Ha & Ea). exists a. split; [exact Ha|]. rewrite dm_sv.
    pose proof (sv_row a (Ok' a Ha)) as Va. rewrite Em in Va. destruct Va as [La _]. destruct Z1 as [LZ _].
    destruct (sv a) as [|a1 [|]]; simpl in La; try lia. destruct (zenith mx M') as [|z1 [|]]; simpl in LZ; try lia.
    simpl in Ea. subst z1. exact Hb.
  - (* two objectives *)
    destruct (Z3 0 ltac:(lia)) as (a & Ha & Ea). destruct (Z3 1 ltac:(lia)) as (b & Hb' & Eb).
    destruct (Hin' a Ha) as (HaL & _ & _). destruct (Hin' b Hb') as (HbL & _ & _).
    pose proof (sv_row a (Ok' a Ha)) as Va. pose proof (sv_row b (Ok' b Hb')) as Vb. rewrite Em in Va, Vb.
    pose proof (HL a q HaL Hq) as Nqa. pose proof (HL b q HbL Hq) as Nqb. rewrite dm_sv in Nqa, Nqb, Hqp.
    assert (Goal : dominated_vec (sv p) (sv a) = true \/ dominated_vec (sv p) (sv b) = true).
    { destruct (row2 _ Va) as (a1 & a2 & Es_a & A1 & A2). destruct (row2 _ Vb) as (b1 & b2 & Es_b & B1 & B2).
      destruct (row2 _ Vp) as (p1 & p2 & Es_p & P1 & P2). destruct (row2 _ Vq) as (q1 & q2 & Es_q & Q1 & Q2).
      destruct (row2 _ Z1) as (z1 & z2 & Es_z & Zv1 & Zv2).
      rewrite Es_a, Es_b, Es_p, Es_q, Es_z in *. simpl in Ea, Eb. subst z1 z2.
      apply dom2 in Hb; [|assumption|assumption|assumption|assumption]. destruct Hb as (Hb1 & Hb2 & _).
      apply dom2 in Hqp; [|assumption|assumption|assumption|assumption]. destruct Hqp as (Hq1 & Hq2 & _).
      destruct (leb_or_ltb q1 a1 Q1 A1) as [L1|L1].
      - destruct (leb_or_ltb q2 b2 Q2 B2) as [L2|L2].
        + exfalso. apply Hno. repeat constructor; assumption.
        + right. apply dom2; [assumption|assumption|assumption|assumption|].
          (* q exceeds in the second objective, so b exceeds q in the first *)
          assert (G : num_ltb q1 b1 = true).
          { destruct (leb_or_ltb b1 q1 B1 Q1) as [L3|L3]; [|exact L3]. exfalso. apply Nqb.
            apply dom2; [assumption|assumption|assumption|assumption|]. split; [exact L3|]. split; [apply ltb_leb, L2|auto]. }
          split; [apply ltb_leb; eapply leb_ltb_trans; [exact Hq1|exact G]|]. split; [exact Hb2|].
          left. eapply leb_ltb_trans; [exact Hq1|exact G].
      - left. apply dom2; [assumption|assumption|assumption|assumption|].
        assert (G : num_ltb q2 a2 = true).
        { destruct (leb_or_ltb a2 q2 A2 Q2) as [L3|L3]; [|exact L3]. exfalso. apply Nqa.
          apply dom2; [assumption|assumption|assumption|assumption|]. split; [apply ltb_leb, L1|]. auto. }
        split; [exact Hb1|]. split; [apply ltb_leb; eapply leb_ltb_trans; [exact Hq2|exact G]|].
        right. eapply leb_ltb_trans; [exact Hq2|exact G]. }
    destruct Goal as [G|G]; [exists a|exists b]; (split; [assumption|rewrite dm_sv; exact G]).
Qed.

(** ** the loop keeps true layers *)
Definition with_moving (prev : option (list mo)) (M : list mo) : option (list mo) :=
  option_map (fun pl => pl ++ M) prev.

Lemma enlu_loop_TL : length mx <= 2 -> forall rest depth M rank prev,
  (forall x, In x (M ++ concat rest) -> ok x) ->
  TL (with_moving prev M) rest ->
  (forall m, In m M -> dominated_in prev m) ->
  (forall m q, In m M -> In q (M ++ concat rest) -> ~ dm q m) ->
  ZP M rest ->
  let '(rest', _, _) := enlu_loop mx depth M rest rank in TL prev rest'.
Proof.
  intros Hmx. induction rest as [|layer rest IH]; intros depth M rank prev Hok HT HB HC HZ.
  - destruct M as [|m M]; simpl; [exact I|]. split; [discriminate|]. rewrite app_nil_r in HC. simpl in *.
    split; [|auto]. intros p q Hp Hq. rewrite app_nil_r in Hq. apply HC; assumption.
  - destruct M as [|m0 M0].
    { cbn [enlu_loop]. apply (TL_prev (with_moving prev [])); [|exact HT]. intros p. destruct prev as [pl|]; simpl; [|auto]. rewrite app_nil_r. auto. }
    set (M := m0 :: M0) in *. rewrite enlu_loop_cons by (unfold M; discriminate).
    pose proof HT as HT0. cbn [TL] in HT. destruct HT as (Lne & Lin & Ldom & LT).
    destruct (nd M layer) as [|x xs] eqn:E.
    + cbn [TL]. split; [unfold M; discriminate|]. split; [intros p q Hp Hq; apply HC; assumption|]. split; [exact HB|].
      split; [exact Lne|]. split; [exact Lin|]. split; [|exact LT].
      intros p Hp. assert (Hb : bz M p = true).
      { destruct (bz M p) eqn:F; [reflexivity|]. assert (In p (nd M layer)) by (unfold nd; rewrite filter_In, F; auto).
        rewrite E in H. destruct H. }
      unfold dominated_in. apply (proj1 (tdom_spec M p)). apply HZ; assumption.
    + rewrite <- E. assert (Hnd : nd M layer <> []) by (rewrite E; discriminate). clear x xs E. cbv zeta.
      set (layer' := (nd M layer ++ M) ++ stay M layer).
      assert (HokM : forall x, In x M -> ok x) by (intros x Hx; apply Hok, in_or_app; left; exact Hx).
      assert (HokL : forall x, In x layer -> ok x).
      { intros x Hx. apply Hok, in_or_app. right. simpl. apply in_or_app. left. exact Hx. }
      assert (HokR : forall x, In x (concat rest) -> ok x).
      { intros x Hx. apply Hok, in_or_app. right. simpl. apply in_or_app. right. exact Hx. }
      assert (Hmv : forall x, In x (moved M layer) -> In x layer /\ tdom M x = true).
      { intros x Hx. unfold moved in Hx. rewrite !filter_In in Hx. tauto. }
      assert (Hst : forall x, In x (nd M layer) \/ In x (stay M layer) -> In x layer /\ tdom M x = false).
      { intros x [Hx|Hx].
        - unfold nd in Hx. rewrite filter_In, negb_true_iff in Hx. destruct Hx as [Hx Hb]. split; [exact Hx|].
          destruct (tdom M x) eqn:F; [|reflexivity]. rewrite (tdom_bz M x HokM (HokL x Hx) F) in Hb. discriminate.
        - unfold stay in Hx. rewrite !filter_In, negb_true_iff in Hx. tauto. }
      assert (HL' : forall x, In x layer' <-> In x M \/ (In x (nd M layer) \/ In x (stay M layer))).
      { intros x. unfold layer'. rewrite !in_app_iff. tauto. }
      assert (Hmid : forall x, In x layer -> In x layer' \/ In x (moved M layer)).
      { intros x Hx. rewrite HL'. apply (in_layer_split M layer x) in Hx. tauto. }
      (* inductive part *)
      assert (HI : let '(rest', _, _) := enlu_loop mx (S depth) (moved M layer) rest (set_rank (S depth) layer' rank) in TL (Some layer') rest').
      { apply IH.
        - intros x Hx. apply in_app_or in Hx. destruct Hx as [Hx|Hx]; [apply HokL, Hmv, Hx|apply HokR, Hx].
        - simpl. apply (TL_prev (Some layer)); [|exact LT]. intros p (q & Hq & Hd). exists q. split; [|exact Hd].
          apply in_or_app. destruct (Hmid q Hq); auto.
        - intros m Hm. destruct (Hmv m Hm) as [_ Ht]. apply tdom_spec in Ht. destruct Ht as (q & Hq & Hd).
          exists q. split; [apply HL'; left; exact Hq|exact Hd].
        - intros m q Hm Hq. destruct (Hmv m Hm) as [HmL _]. apply Lin; [exact HmL|].
          apply in_app_or in Hq. apply in_or_app. destruct Hq as [Hq|Hq]; [left; apply Hmv, Hq|right; exact Hq].
        - apply ZP_step; auto. intros p q Hp Hq. apply Lin; [exact Hp|apply in_or_app; left; exact Hq]. }
      pose proof (enlu_loop_perm rest (S depth) (moved M layer) (set_rank (S depth) layer' rank)) as PL.
      destruct (enlu_loop mx (S depth) (moved M layer) rest (set_rank (S depth) layer' rank)) as [[rest'' rank'] e].
      cbn [TL]. split; [|split; [|split; [|exact HI]]].
      * intros E. assert (In m0 layer') by (apply HL'; left; left; reflexivity). rewrite E in H. destruct H.
      * intros p q Hp Hq Hd. apply HL' in Hp.
        assert (Hq' : In q M \/ (In q layer \/ In q (concat rest))).
        { apply in_app_or in Hq. destruct Hq as [Hq|Hq].
          - apply HL' in Hq. destruct Hq as [Hq|Hq]; [auto|right; left; apply Hst, Hq].
          - apply (Permutation_in _ (Permutation_sym PL)) in Hq. apply in_app_or in Hq.
            destruct Hq as [Hq|Hq]; [right; left; apply Hmv, Hq|auto]. }
        destruct Hp as [Hp|Hp].
        -- apply (HC p q Hp); [|exact Hd]. simpl. rewrite !in_app_iff. unfold M in Hq'. simpl in Hq'. tauto.
        -- destruct (Hst p Hp) as [HpL Ht]. destruct Hq' as [Hq'|Hq'].
           ++ assert (Ht' : tdom M p = true) by (apply tdom_spec; eauto). rewrite Ht' in Ht. discriminate Ht.
           ++ apply (Lin p q HpL); [|exact Hd]. apply in_or_app. tauto.
      * intros p Hp. apply HL' in Hp. destruct Hp as [Hp|Hp]; [apply HB, Hp|].
        destruct (Hst p Hp) as [HpL Ht]. pose proof (Ldom p HpL) as D. destruct prev as [pl|]; [|exact I]. simpl in D |- *.
        destruct D as (q & Hq & Hd). apply in_app_or in Hq. destruct Hq as [Hq|Hq]; [eauto|].
        exfalso. assert (Ht' : tdom M p = true) by (apply tdom_spec; eauto). rewrite Ht' in Ht. discriminate Ht.
Qed.

(** domination of a new point is inherited towards the front *)
Lemma TL_hit_mono ind layers : ok ind -> (forall x, In x (concat layers) -> ok x) -> TL None layers ->
  forall j k, j <= k -> hit ind layers k = true -> hit ind layers j = true.
Proof.
  intros Hi Hok HT.
  assert (Step : forall ls prev, (forall x, In x (concat ls) -> ok x) -> TL prev ls -> forall k, hit ind ls (S k) = true -> hit ind ls k = true).
  { induction ls as [|l ls IH]; intros prev Ho HT' k Hk; [destruct k; discriminate|].
    simpl in HT'. destruct HT' as (_ & _ & _ & HT'). destruct k as [|k].
    - unfold hit in *. simpl in *. destruct ls as [|l2 ls]; [discriminate|]. simpl in *.
      apply existsb_exists in Hk. destruct Hk as (x & Hx & Hd). destruct HT' as (_ & _ & D & _).
      destruct (D x Hx) as (q & Hq & Hqx). apply existsb_exists. exists q. split; [exact Hq|].
      apply (dm_trans q x ind); auto; apply Ho; rewrite !in_app_iff; tauto.
    - apply (IH (Some l)); [|exact HT'|exact Hk]. intros x Hx. apply Ho. simpl. apply in_or_app. right. exact Hx. }
  intros j k Hjk. induction Hjk as [|k Hjk IH]; [auto|]. intros H. apply IH. apply (Step layers None); assumption.
Qed.

(** ** one insertion *)
Definition wf (layers : list (list mo)) (rank : nat -> nat) : Prop :=
  NoDup (map o_id (concat layers)) /\ Forall (fun l => l <> []) layers /\ ranked 1 layers rank.

Lemma concat_firstn_skipn {A} s (layers : list (list A)) : concat layers = concat (firstn s layers) ++ concat (skipn s layers).
Proof. rewrite <- concat_app, firstn_skipn. reflexivity. Qed.

Lemma ranked_app r l1 l2 rank : ranked r (l1 ++ l2) rank <-> ranked r l1 rank /\ ranked (r + length l1) l2 rank.
Proof.
  revert r. induction l1 as [|a l1 IH]; intros r; simpl.
  - rewrite Nat.add_0_r. split; [intros H; split; [intros [|k] l x E; discriminate|exact H]|tauto].
  - rewrite !ranked_cons, IH. replace (r + S (length l1)) with (S r + length l1) by lia. tauto.
Qed.

Lemma enlu_any ind layers rank : wf layers rank -> ~ In (o_id ind) (map o_id (concat layers)) ->
  exists layers' rank' s e, enlu_inds_rank mx ind layers rank = Some (layers', rank', (s, e)) /\
    wf layers' rank' /\ Permutation (ind :: concat layers) (concat layers') /\
    exists front changed unchanged, layers' = front ++ changed ++ unchanged /\ length front = s /\ e = s + length changed /\
      (forall l, In l front \/ In l unchanged -> In l layers).
Proof.
  intros (HN & HF & HR) Hfresh. destruct (find_start_ok ind layers) as (s & Es & Hs & _).
  unfold enlu_inds_rank. rewrite Es, Nat2Z.id.
  rewrite <- (firstn_skipn s layers) in HR. apply ranked_app in HR. rewrite firstn_length_le in HR by exact Hs.
  destruct HR as [HR1 HR2]. pose proof (concat_firstn_skipn s layers) as EC.
  rewrite EC, map_app in HN. apply NoDup_app_disjoint in HN. destruct HN as (N1 & N2 & N3).
  rewrite EC, map_app, in_app_iff in Hfresh.
  assert (HNl : NoDup (map o_id ([ind] ++ concat (skipn s layers)))).
  { simpl. constructor; [tauto|exact N2]. }
  pose proof (enlu_loop_perm (skipn s layers) s [ind] rank) as P1.
  pose proof (enlu_loop_nonempty (skipn s layers) s [ind] rank) as P2.
  pose proof (enlu_loop_changed (skipn s layers) s [ind] rank) as P3.
  pose proof (enlu_loop_ranked (skipn s layers) s [ind] rank HNl HR2) as P4.
  destruct (enlu_loop mx s [ind] (skipn s layers) rank) as [[rest rank'] e].
  destruct P4 as [P4 P5]. exists (firstn s layers ++ rest), rank', s, e. split; [reflexivity|].
  assert (PP : Permutation (ind :: concat layers) (concat (firstn s layers ++ rest))).
  { rewrite concat_app, <- P1, EC. simpl. apply Permutation_middle. }
  rewrite <- (firstn_skipn s layers) in HF. apply Forall_app in HF. destruct HF as [HF1 HF2].
  split; [|split; [exact PP|]].
  - split; [|split].
    + apply (Permutation_NoDup (Permutation_map o_id PP)). simpl. constructor.
      * rewrite EC, map_app, in_app_iff. tauto.
      * rewrite EC, map_app. clear -N1 N2 N3. induction (map o_id (concat (firstn s layers))) as [|a l IH]; simpl; [exact N2|].
        inversion N1; subst. constructor; [|apply IH; [assumption|intros x Hx; apply N3; right; exact Hx]].
        rewrite in_app_iff. intros [H|H]; [contradiction|]. exact (N3 a (or_introl eq_refl) H).
    + apply Forall_app. split; [exact HF1|]. apply P2, HF2.
    + apply ranked_app. rewrite firstn_length_le by exact Hs. split; [|exact P4].
      apply (ranked_ext _ _ rank); [|exact HR1]. intros x Hx. apply P5. simpl. intros [Hin|Hin].
      * apply Hfresh. left. rewrite Hin. apply in_map, Hx.
      * apply (N3 (o_id x)); [apply in_map, Hx|exact Hin].
  - destruct P3 as (ch & un & -> & -> & Hun). exists (firstn s layers), ch, un.
    split; [reflexivity|]. split; [apply firstn_length_le, Hs|]. split; [reflexivity|].
    intros l [Hl|Hl].
    + rewrite <- (firstn_skipn s layers). apply in_or_app. left. exact Hl.
    + rewrite <- (firstn_skipn s layers). apply in_or_app. right. apply Hun, Hl.
Qed.

Lemma enlu_TL ind layers rank layers' rank' se : length mx <= 2 -> ok ind -> (forall x, In x (concat layers) -> ok x) ->
  TL None layers -> enlu_inds_rank mx ind layers rank = Some (layers', rank', se) -> TL None layers'.
Proof.
  intros Hmx Hi Hok HT E. destruct (find_start_ok ind layers) as (s & Es & Hs & Hsplit).
  destruct (Hsplit (TL_hit_mono ind layers Hi Hok HT)) as [Hlt Hge].
  unfold enlu_inds_rank in E. rewrite Es, Nat2Z.id in E.
  pose proof HT as HT0. rewrite <- (firstn_skipn s layers) in HT. apply TL_app in HT. destruct HT as (T1 & T2 & T3).
  pose proof (concat_firstn_skipn s layers) as EC.
  assert (Hnot : forall q, In q (concat (skipn s layers)) -> ~ dm q ind).
  { intros q Hq Hd. apply in_concat in Hq. destruct Hq as (l & Hl & Hq). apply (In_nth _ _ []) in Hl. destruct Hl as (k & Hk & El).
    assert (Hh : hit ind layers (s + k) = true).
    { unfold hit. apply existsb_exists. exists q. split; [|exact Hd].
      assert (En : nth (s + k) layers [] = nth k (skipn s layers) []).
      { rewrite <- (firstn_skipn s layers) at 1. rewrite app_nth2; rewrite firstn_length_le by exact Hs; [f_equal; lia|lia]. }
      rewrite En, El. exact Hq. }
    rewrite Hge in Hh by lia. discriminate. }
  pose proof (enlu_loop_perm (skipn s layers) s [ind] rank) as P1.
  assert (HL : let '(rest', _, _) := enlu_loop mx s [ind] (skipn s layers) rank in TL (last_of None (firstn s layers)) rest').
  { apply enlu_loop_TL; [exact Hmx| | | | |].
    - intros x [<-|Hx]; [exact Hi|]. apply Hok. rewrite EC. apply in_or_app. right. exact Hx.
    - apply (TL_prev (last_of None (firstn s layers))); [|exact T3]. intros p. destruct (last_of None (firstn s layers)) as [pl|]; simpl; [|auto].
      intros (q & Hq & Hd). exists q. split; [apply in_or_app; left; exact Hq|exact Hd].
    - intros m [<-|[]]. destruct s as [|s].
      + simpl. exact I.
      + assert (El : last_of None (firstn (S s) layers) = Some (nth s layers [])).
        { assert (G : forall (ls : list (list mo)) n pv, n < length ls -> last_of pv (firstn (S n) ls) = Some (nth n ls [])).
          { clear. induction ls as [|l ls IH]; intros n pv Hn; simpl in Hn; [lia|].
            destruct n as [|n]; [reflexivity|]. change (firstn (S (S n)) (l :: ls)) with (l :: firstn (S n) ls).
            rewrite last_of_cons. simpl nth. apply IH. lia. }
          apply G. lia. }
        rewrite El. simpl. specialize (Hlt s (Nat.lt_succ_diag_r s)). unfold hit in Hlt. apply existsb_exists in Hlt.
        destruct Hlt as (q & Hq & Hd). eauto.
    - intros m q [<-|[]] [<-|Hq]; [apply dm_irrefl|]. apply Hnot, Hq.
    - destruct (skipn s layers) as [|l r] eqn:Esk; [exact I|]. simpl. intros p Hp. apply bz_single; [exact Hi|].
      apply Hok. rewrite EC. apply in_or_app. right. simpl. apply in_or_app. left. exact Hp. }
  destruct (enlu_loop mx s [ind] (skipn s layers) rank) as [[rest rk] e]. injection E as <- _ _.
  apply TL_app. split; [exact T1|]. split; [|exact HL].
  intros p q Hp Hq. apply (Permutation_in _ (Permutation_sym P1)) in Hq. destruct Hq as [<-|Hq]; [|apply T2; assumption].
  intros Hd. (* ind dominates a point of an earlier layer, which itself contains a dominator of ind *)
  apply in_concat in Hp. destruct Hp as (l & Hl & Hp). apply (In_nth _ _ []) in Hl. destruct Hl as (k & Hk & El).
  rewrite firstn_length_le in Hk by exact Hs. specialize (Hlt k Hk). unfold hit in Hlt. apply existsb_exists in Hlt.
  destruct Hlt as (w & Hw & Hwd).
  assert (Enk : nth k layers [] = l).
  { rewrite <- El. rewrite <- (firstn_skipn s layers) at 1. rewrite app_nth1; [reflexivity|]. rewrite firstn_length_le by exact Hs. exact Hk. }
  rewrite Enk in Hw.
  assert (HinL : In l layers). { rewrite <- Enk. apply nth_In. lia. }
  assert (G : forall ls prev, TL prev ls -> forall l', In l' ls -> forall u v, In u l' -> In v l' -> ~ dm v u).
  { clear. induction ls as [|l1 ls IH]; intros prev HT l' Hl' u v Hu Hv; [destruct Hl'|].
    simpl in HT. destruct HT as (_ & B & _ & D). destruct Hl' as [<-|Hl']; [apply B; [exact Hu|apply in_or_app; left; exact Hv]|].
    exact (IH _ D l' Hl' u v Hu Hv). }
  apply (G layers None HT0 l HinL p w Hp Hw).
  apply (dm_trans w ind p); auto; apply Hok; apply in_concat; exists l; auto.
Qed.

(** ** true layers give front numbers *)
Lemma TL_fronts layers rank : TL None layers -> ranked 1 layers rank ->
  front_numbers (fun y x => dominates mx (o_fit y) (o_fit x)) (concat layers) (fun x => rank (o_id x)).
Proof.
  intros HT HR x Hx. apply in_concat in Hx. destruct Hx as (l & Hl & Hx). apply In_nth_error in Hl. destruct Hl as (k & Hk).
  rewrite (HR k l x Hk Hx). split; [lia|]. split.
  - intros y Hy Hd. apply in_concat in Hy. destruct Hy as (l' & Hl' & Hy). apply In_nth_error in Hl'. destruct Hl' as (j & Hj).
    rewrite (HR j l' y Hj Hy). destruct (Nat.lt_ge_cases j k) as [H|H]; [lia|]. exfalso.
    assert (G : forall ls prev, TL prev ls -> forall k j l l' x y, nth_error ls k = Some l -> nth_error ls j = Some l' ->
       k <= j -> In x l -> In y l' -> ~ dm y x).
    { clear. induction ls as [|l1 ls IH]; intros prev HT k j l l' x y Hk Hj Hkj Hx Hy; [destruct k; discriminate|].
      simpl in HT. destruct HT as (_ & B & _ & D). destruct k as [|k].
      - injection Hk as <-. apply B; [exact Hx|]. destruct j as [|j].
        + injection Hj as <-. apply in_or_app. left. exact Hy.
        + apply in_or_app. right. apply in_concat. exists l'. split; [eapply nth_error_In, Hj|exact Hy].
      - destruct j as [|j]; [lia|]. exact (IH _ D k j l l' x y Hk Hj ltac:(lia) Hx Hy). }
    apply (G layers None HT k j l l' x y Hk Hj H Hx Hy). apply mo_gt_spec, Hd.
  - destruct k as [|k]; [left; lia|right].
    assert (G : forall ls prev, TL prev ls -> forall k l x, nth_error ls (S k) = Some l -> In x l ->
       exists l' y, nth_error ls k = Some l' /\ In y l' /\ dm y x).
    { clear. induction ls as [|l1 ls IH]; intros prev HT k l x Hk Hx; [discriminate|].
      simpl in HT. destruct HT as (_ & _ & _ & D). destruct k as [|k].
      - simpl in Hk. destruct ls as [|l2 ls]; [discriminate|]. injection Hk as ->. simpl in D. destruct D as (_ & _ & D & _).
        destruct (D x Hx) as (q & Hq & Hd). exists l1, q. auto.
      - destruct (IH _ D k l x Hk Hx) as (l' & y & H). exists l', y. exact H. }
    destruct (G layers None HT k l x Hk Hx) as (l' & y & Hl' & Hy & Hd). exists y. split; [|split].
    + apply in_concat. exists l'. split; [eapply nth_error_In, Hl'|exact Hy].
    + apply mo_gt_spec, Hd.
    + rewrite (HR k l' y Hl' Hy). lia.
Qed.

(** ** histories of insertions *)
Lemma enlu_all_any : forall inds layers rank, wf layers rank -> NoDup (map o_id (inds ++ concat layers)) ->
  exists layers' rank', enlu_all mx inds layers rank = Some (layers', rank') /\ wf layers' rank' /\
    Permutation (inds ++ concat layers) (concat layers').
Proof.
  induction inds as [|x inds IH]; intros layers rank HW HN.
  - exists layers, rank. split; [reflexivity|]. split; [exact HW|reflexivity].
  - simpl in HN. inversion HN; subst. rewrite map_app, in_app_iff in H1.
    destruct (enlu_any x layers rank HW) as (l1 & r1 & s & e & E & W1 & P1 & _); [tauto|].
    destruct (IH l1 r1 W1) as (l2 & r2 & E2 & W2 & P2).
    { assert (P : Permutation (x :: inds ++ concat layers) (inds ++ concat l1)) by (rewrite <- P1; apply Permutation_middle).
      apply (Permutation_NoDup (Permutation_map o_id P)). simpl. exact HN. }
    exists l2, r2. simpl. rewrite E. split; [exact E2|]. split; [exact W2|].
    rewrite <- P2, <- P1. apply Permutation_middle.
Qed.

Lemma enlu_all_TL : length mx <= 2 -> forall inds layers rank layers' rank', wf layers rank ->
  NoDup (map o_id (inds ++ concat layers)) ->
  (forall x, In x (inds ++ concat layers) -> ok x) -> TL None layers ->
  enlu_all mx inds layers rank = Some (layers', rank') -> TL None layers'.
Proof.
  intros Hmx. induction inds as [|x inds IH]; intros layers rank layers' rank' HW HN Hok HT E.
  - injection E as <- _. exact HT.
  - simpl in HN. inversion HN; subst. rewrite map_app, in_app_iff in H1.
    destruct (enlu_any x layers rank HW) as (l1 & r1 & s & e & E1 & W1 & P1 & _); [tauto|].
    simpl in E. rewrite E1 in E.
    assert (P : Permutation (x :: inds ++ concat layers) (inds ++ concat l1)) by (rewrite <- P1; apply Permutation_middle).
    apply (IH l1 r1 layers' rank' W1); [| | |exact E].
    + apply (Permutation_NoDup (Permutation_map o_id P)). simpl. exact HN.
    + intros y Hy. apply Hok. apply (Permutation_in _ (Permutation_sym P)), Hy.
    + apply (enlu_TL x layers rank l1 r1 (s, e)); [exact Hmx| | |exact HT|exact E1].
      * apply Hok. left. reflexivity.
      * intros y Hy. apply Hok. right. apply in_or_app. right. exact Hy.
Qed.
End Enlu.
