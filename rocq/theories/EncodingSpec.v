(** Specification vocabulary for encodings: what the property theorems mean by
    "parallel attribute lists", "window", "concatenation".  Nothing here refers
    to the algorithms of EncodingModel.v, only to the [Encoding] record. *)
From Verif Require Import Base EncodingModel.

(** All per-token attribute lists have the same length. *)
Definition parallel (e : Encoding) : Prop :=
  length (type_ids e) = length (ids e) /\
  length (tokens e) = length (ids e) /\
  length (offsets e) = length (ids e) /\
  length (special e) = length (ids e) /\
  length (attention e) = length (ids e) /\
  length (words e) = length (ids e).

(** ... also in every overflowing encoding, at any depth. *)
Inductive deep_parallel : Encoding -> Prop :=
| deep_parallel_intro e :
    parallel e -> Forall deep_parallel (overflowing e) -> deep_parallel e.

(** [len] consecutive elements starting at [start] (fewer at the end). *)
Definition window {A} (start len : nat) (l : list A) : list A :=
  firstn len (skipn start l).

(** The same window of every attribute list, as a stand-alone encoding. *)
Definition enc_window (e : Encoding) (start len : nat) : Encoding :=
  mkEnc (window start len (ids e)) (window start len (type_ids e))
        (window start len (tokens e)) (window start len (offsets e))
        (window start len (special e)) (window start len (attention e))
        (window start len (words e)) [] None.

(** The prefix of length [m] of every attribute list, with the given overflow. *)
Definition enc_prefix (e : Encoding) (m : nat) (over : list Encoding) : Encoding :=
  mkEnc (firstn m (ids e)) (firstn m (type_ids e)) (firstn m (tokens e))
        (firstn m (offsets e)) (firstn m (special e)) (firstn m (attention e))
        (firstn m (words e)) over (seq_ranges e).

(** Attribute-wise concatenation; the offsets of [q] move by [d]. *)
Definition enc_append (e q : Encoding) (d : Z) : Encoding :=
  mkEnc (ids e ++ ids q) (type_ids e ++ type_ids q) (tokens e ++ tokens q)
        (offsets e ++ map (fun o => (fst o + d, snd o + d)%Z) (offsets q))
        (special e ++ special q) (attention e ++ attention q)
        (words e ++ words q) [] None.

(** The token attributes only, without overflow and sequence ranges. *)
Definition flat (e : Encoding) : Encoding :=
  mkEnc (ids e) (type_ids e) (tokens e) (offsets e) (special e) (attention e)
        (words e) [] None.

(** How far the second part's offsets move. *)
Definition growth (growing : bool) (e : Encoding) : Z :=
  if growing then match rev (offsets e) with o :: _ => snd o | [] => 0%Z end else 0%Z.

(** [n] pad tokens appended to every attribute list. *)
Definition pad_right_by (e : Encoding) (n : nat) (padId padTypeId : Z) (padToken : str)
  : Encoding :=
  mkEnc (ids e ++ repeat padId n) (type_ids e ++ repeat padTypeId n)
        (tokens e ++ repeat padToken n) (offsets e ++ repeat (0, 0)%Z n)
        (special e ++ repeat 1%Z n) (attention e ++ repeat 0%Z n)
        (words e ++ repeat (-1)%Z n) (overflowing e) (seq_ranges e).

(** [n] pad tokens put before every attribute list. *)
Definition pad_left_by (e : Encoding) (n : nat) (padId padTypeId : Z) (padToken : str)
  : Encoding :=
  mkEnc (repeat padId n ++ ids e) (repeat padTypeId n ++ type_ids e)
        (repeat padToken n ++ tokens e) (repeat (0, 0)%Z n ++ offsets e)
        (repeat 1%Z n ++ special e) (repeat 0%Z n ++ attention e)
        (repeat (-1)%Z n ++ words e) (overflowing e) (seq_ranges e).

(** Sequence ranges a merge can process: every range is non-empty, starts at a
    non-negative index and its last index is not before its first. *)
Definition ranges_ok (e : Encoding) : Prop :=
  match seq_ranges e with
  | None => True
  | Some m => forall k r, In (k, r) m ->
      exists x l, r = x :: l /\ (0 <= x)%Z /\ (x <= last r 0)%Z
  end.

(** Ranges can be merged everywhere: all nodes have a (possibly empty) range map. *)
Inductive deep_ranges : Encoding -> Prop :=
| deep_ranges_intro e :
    seq_ranges e <> None -> ranges_ok e ->
    Forall deep_ranges (overflowing e) -> deep_ranges e.

(** A token range [s,t) of the encoding consists exactly of the tokens of word [w]. *)
Definition is_word_range (e : Encoding) (w s t : Z) : Prop :=
  (0 <= s < t)%Z /\ (t <= zlen (words e))%Z /\
  forall i, (0 <= i < zlen (words e))%Z ->
    (nth (Z.to_nat i) (words e) (-1) = w <-> s <= i < t)%Z.

(** Every overflow combination of a merge: (own overflow) x (pair or its overflow),
    then own x (pair's overflow). *)
Definition over_spec (g : bool) (e p : Encoding) : list Encoding :=
  flat_map (fun o => map (fun q => enc_append o q (growth g o)) (p :: overflowing p))
           (overflowing e)
  ++ map (fun q => enc_append e q (growth g e)) (overflowing p).

(** ** Histories *)
Inductive enc_op :=
| OpTruncate (maxLen stride : Z)
| OpPadRight (target padId padTypeId : Z) (padToken : str)
| OpMerge (pair : Encoding) (growing : bool).

(** One operation on the current encoding. *)
Definition enc_step (e : Encoding) (o : enc_op) : res Encoding :=
  match o with
  | OpTruncate m s => do r <- truncate e m s; Ok (fst r)
  | OpPadRight t i ty tok => pad e t i ty tok PRight
  | OpMerge p g => merge_with g e p
  end.

Definition op_parallel (o : enc_op) : Prop :=
  match o with OpMerge p _ => deep_parallel p | _ => True end.

(** Words in non-decreasing order. *)
Definition nondecreasing (l : list Z) : Prop :=
  forall i j, i <= j < length l -> (nth i l 0 <= nth j l 0)%Z.

(** The token indices recorded for sequence [k]. *)
Definition range_of (e : Encoding) (k : Z) : option (list Z) :=
  match seq_ranges e with Some m => aget Z.eqb k m | None => None end.

(** An interval of token indices. *)
Definition interval (r : list Z) : Prop :=
  exists a n, (0 <= a)%Z /\ 0 < n /\ r = zrange n a.
