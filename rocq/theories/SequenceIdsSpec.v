(** Ranges of the sequences of an encoding. *)
From Verif Require Import Base EncodingModel EncodingSpec SequenceIdsModel.
Open Scope Z_scope.

(** The sequences are numbered from 0 without gap; each has a non-empty contiguous range of
    tokens of the encoding. *)
Definition numbered (e : Encoding) : Prop :=
  (exists m, seq_ranges e = Some m /\ m <> []) /\
  forall k, 0 <= k < Z.of_nat (n_sequences e) ->
    exists a n, range_of e k = Some (zrange n a) /\ 0 <= a /\ (0 < n)%nat /\ a + Z.of_nat n <= enc_len e.

(** Token [p] belongs to sequence [k]. *)
Definition in_sequence (e : Encoding) (p k : Z) : Prop := exists r, range_of e k = Some r /\ In p r.

(** The tokens of a sequence come before those of every later one. *)
Definition in_order (e : Encoding) : Prop :=
  forall k k' p p', k < k' -> in_sequence e p k -> in_sequence e p' k' -> p < p'.
