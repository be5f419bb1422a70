(** Specification vocabulary relating tokens of a BPE model to segments. *)
From Verif Require Import Base Utf8Model BpeModel BpeSpec.

(** Tokens as (id, length) and as (id, start, end). *)
Definition tok_segs (toks : list token) : list BpeSpec.seg :=
  map (fun t => (t_id t, (snd (t_off t) - fst (t_off t))%Z)) toks.

Definition tok_spans (toks : list token) : list (Z * Z * Z) :=
  map (fun t => (t_id t, fst (t_off t), snd (t_off t))) toks.

(** The symbol a character starts as. *)
Definition char_symbol (b : bpe) (r : N) (sg : BpeSpec.seg) : Prop :=
  snd sg = zlen (encode_rune r) /\
  (vget (encode_rune r) (b_vocab b) = Some (fst sg) \/
   (vget (encode_rune r) (b_vocab b) = None /\
    exists u, b_unk b = Some u /\
      (vget u (b_vocab b) = Some (fst sg) \/ (vget u (b_vocab b) = None /\ fst sg = 0%Z)))).

