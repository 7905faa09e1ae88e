(** Binary decoders: leap_ec/binary_rep/decoders.py and leap_ec/segmented_rep/decoders.py.
    numpy's int64 arithmetic wraps around; genomes are numpy arrays (the isinstance check of lines
    64-66 is not modelled). *)
From Verif Require Import Model.Base.
Local Open Scope Z_scope.

(** two's complement int64 *)
(** the dtype of leap_ec/binary_rep/decoders.py:68-96 *)
Definition wrap64 (z : Z) : Z := (z + 2 ^ 63) mod 2 ^ 64 - 2 ^ 63.

(** leap_ec/binary_rep/decoders.py:75, 93: 1 << np.arange(size)[::-1] *)
Definition powers_of_2 (size : nat) : list Z :=
  map (fun i => wrap64 (2 ^ Z.of_nat i)) (rev (seq 0 size)).

(** l[-n:]; note that l[-0:] is the whole of l *)
(** leap_ec/binary_rep/decoders.py:96 *)
Definition last_n {A} (n : nat) (l : list A) : list A :=
  if (n =? 0)%nat then l else skipn (length l - n) l.

(** b.dot(p): shapes must agree (ValueError), int64 result *)
(** leap_ec/binary_rep/decoders.py:96 *)
Definition dot (b p : list Z) : result Z :=
  if (length b =? length p)%nat
  then Ok (wrap64 (fold_right Z.add 0 (map (fun x => fst x * snd x) (combine b p))))
  else Err ValueError.

(** self.powers_2 *)
(** leap_ec/binary_rep/decoders.py:74-75 *)
Definition cache := option (list Z).
(** leap_ec/binary_rep/decoders.py:92-94 *)
Definition cache_or_new (c : cache) (size : nat) : list Z :=
  match c with
  | None => powers_of_2 size
  | Some p => if (length p <? size)%nat then powers_of_2 size else p
  end.

(** leap_ec/binary_rep/decoders.py:83-96 __binary_to_int *)
Definition binary_to_int (b : list Z) (powers_2 : list Z) : result Z :=
  let p := cache_or_new (Some powers_2) (length b) in dot b (last_n (length b) p).

(** leap_ec/binary_rep/decoders.py:71-78: the loop over the descriptors *)
Fixpoint decode_segments (c : cache) (descriptors : list nat) (offset : nat) (genome : list Z)
  : result (list Z) * cache :=
  match descriptors with
  | [] => (Ok [], c)
  | d :: ds =>
      let cur := firstn d (skipn offset genome) in
      let p := cache_or_new c (length cur) in
      match binary_to_int cur p with
      | Err e => (Err e, Some p)
      | Ok v =>
          let '(r, c') := decode_segments (Some p) ds (offset + d) genome in
          (bind r (fun vs => Ok (v :: vs)), c')
      end
  end.

(** leap_ec/binary_rep/decoders.py:45-80 BinaryToIntDecoder.decode, with the object's cache before and after *)
Definition decode_int (descriptors : list nat) (c : cache) (genome : list Z) : result (list Z) * cache :=
  decode_segments c descriptors 0 genome.

(** a history of decodes with one decoder object *)
(** histories of calls of leap_ec/binary_rep/decoders.py:45-80 *)
Definition decoder_history (descriptors : list nat) (genomes : list (list Z)) : cache :=
  fold_left (fun c g => snd (decode_int descriptors c g)) genomes None.

(** leap_ec/binary_rep/decoders.py:237-243 __gray_encode.  [None]: the loop does not end (negative numbers) *)
Fixpoint gray_loop (fuel : nat) (num mask : Z) : option Z :=
  if mask =? 0 then Some num
  else match fuel with
       | O => None
       | S f => gray_loop f (Z.lxor num mask) (Z.shiftr mask 1)
       end.
(** leap_ec/binary_rep/decoders.py:237-243, continued *)
Definition gray_encode (num : Z) : option Z :=
  gray_loop (S (Z.to_nat (Z.log2 num))) num (Z.shiftr num 1).

(** leap_ec/binary_rep/decoders.py:237-243, continued *)
Fixpoint all_some {A} (l : list (option A)) : option (list A) :=
  match l with
  | [] => Some []
  | None :: _ => None
  | Some x :: r => match all_some r with Some r' => Some (x :: r') | None => None end
  end.

(** leap_ec/binary_rep/decoders.py:245-254 BinaryToIntGreyDecoder.decode; RuntimeError stands for a loop that
    does not end *)
Definition decode_gray (descriptors : list nat) (c : cache) (genome : list Z) : result (list Z) * cache :=
  let '(r, c') := decode_int descriptors c genome in
  (bind r (fun vs => match all_some (map gray_encode vs) with
                     | Some ws => Ok ws
                     | None => Err RuntimeError
                     end), c').

(** leap_ec/binary_rep/decoders.py:125-165: (bits, lower, upper) gives lower bound and increment in exact
    arithmetic; [None] when the divisor is 0 (numpy then yields inf or NaN) *)
Definition increment (seg : nat * Q * Q) : option Q :=
  let '(bits, lower, upper) := seg in
  let card := wrap64 (wrap64 (2 ^ Z.of_nat bits) - 1) in
  if card =? 0 then None else Some ((upper - lower) / inject_Z card)%Q.

(** leap_ec/binary_rep/decoders.py:125-165, continued *)
Definition real_value (seg : nat * Q * Q) (v : Z) : option Q :=
  match increment seg with
  | None => None
  | Some i => Some (snd (fst seg) + inject_Z v * i)%Q
  end.

(** leap_ec/binary_rep/decoders.py:167-171 decode, given the integer decoder of the subclass (lines 204, 285) *)
Definition decode_real (gray : bool) (segments : list (nat * Q * Q)) (c : cache) (genome : list Z)
  : result (list (option Q)) * cache :=
  let descriptors := map (fun s => fst (fst s)) segments in
  let '(r, c') := (if gray then decode_gray else decode_int) descriptors c genome in
  (bind r (fun vs => Ok (map (fun sv => real_value (fst sv) (snd sv)) (combine segments vs))), c').

(** leap_ec/segmented_rep/decoders.py:39-55 SegmentedDecoder.decode: the segment decoder is applied to the
    segments in turn; [dec] may carry state *)
Fixpoint decode_segmented {S G P} (dec : S -> G -> result P * S) (s : S) (genome : list G)
  : result (list P) * S :=
  match genome with
  | [] => (Ok [], s)
  | g :: r =>
      match dec s g with
      | (Err e, s') => (Err e, s')
      | (Ok v, s') => let '(vs, s'') := decode_segmented dec s' r in (bind vs (fun x => Ok (v :: x)), s'')
      end
  end.
