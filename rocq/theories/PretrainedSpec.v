(** Vocabulary for the statements about the ready-made tokenizers (C73). *)
From Verif Require Import Base Utf8Model BpeModel BpeSaveModel DecoderModel.
Open Scope Z_scope.

(** A byte as its character of the byte-level alphabet; a space as [sp]. *)
Definition glyph (sp : str) (b : N) : str := if (b =? 32)%N then sp else byte_char b.
Definition glyphs (sp s : str) : str := concat (map (glyph sp) s).
(** The bytes of the tokens, one after the other: spaces stay, but those of the last token
    vanish. *)
Fixpoint gpt_text (l : list str) : str :=
  match l with
  | [] => []
  | [s] => glyphs [] s
  | s :: l' => glyphs [32%N] s ++ gpt_text l'
  end.
(** Space and the visible ASCII characters. *)
Definition printable (b : N) : Prop := (32 <= b <= 126)%N.
(** A vocabulary with the 256 characters of the alphabet and no two tokens with one id. *)
Definition byte_vocab (v : vocab) : Prop :=
  NoDup (map fst v) /\ (forall s s' id, vget s v = Some id -> vget s' v = Some id -> s' = s) /\
  forall k, (k < 256)%N -> vget (byte_char k) v <> None.
