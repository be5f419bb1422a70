(** What an encoding made from tokens should be (C86), and what a merge should record (C87). *)
From Verif Require Import Base EncodingModel EncodingSpec BpeModel.
Open Scope Z_scope.

(** The [i]-th token of [e] has the id, text and offsets of the [i]-th of [l], is attended to, and is
    not special; [e] has no other tokens and no overflowing parts. *)
Definition holds (l : list token) (e : Encoding) : Prop :=
  length (ids e) = length l /\ length (tokens e) = length l /\ length (offsets e) = length l /\ length (special e) = length l /\ length (attention e) = length l /\
  (forall i t, nth_error l i = Some t ->
     nth_error (ids e) i = Some (t_id t) /\ nth_error (tokens e) i = Some (t_value t) /\ nth_error (offsets e) i = Some (t_off t) /\
     nth_error (special e) i = Some 0 /\ nth_error (attention e) i = Some 1) /\
  overflowing e = [].

(** Every token has the type id [t]. *)
Definition typed (t : Z) (e : Encoding) : Prop := length (type_ids e) = length (ids e) /\ Forall (eq t) (type_ids e).

(** Every token is known to be in no word, -1 (encoding.go:26). *)
Definition wordless (e : Encoding) : Prop := length (words e) = length (ids e) /\ Forall (eq (-1)) (words e).

(** The positions of the tokens of sequence [k]. *)
Definition positions (e : Encoding) (k : Z) : list Z := match range_of e k with Some l => l | None => [] end.

(** After [e] and [p] were merged to [m], sequence [k] has its positions in [e] and those in [p] behind
    [e]. *)
Definition remembered (e p m : Encoding) (k : Z) : Prop := positions m k = positions e k ++ map (Z.add (enc_len e)) (positions p k).

(** The ranges of an encoding are intervals, one for each sequence. *)
Definition ranged (e : Encoding) : Prop :=
  match seq_ranges e with Some m => NoDup (map fst m) /\ Forall (fun kl => interval (snd kl)) m | None => True end.
