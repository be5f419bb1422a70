(** Files for tokenizers that mark spaces by a normalizer, as those of Llama (C88). *)
From Coq Require Import String QArith.
From Verif Require Import Base Utf8Model EncodingModel BpeModel PatternModel DecoderModel PreTokenizerModel ProcessorModel ConfigModel ConfigSpec LoadedSpec.
Open Scope Z_scope.
Open Scope list_scope.

(** The regexp made from a quoted character finds this character (which is not U+FFFD, as invalid
    bytes are read). *)
Definition finds_char (quoted : str -> str -> list (Z * Z)) (r : N) : Prop :=
  forall s, quoted (encode_rune r) s = find_chars (N.eqb r) s.

(** The normalizer puts the mark in front and in the place of every space... *)
Definition marking (mark : N) (s : str) : str :=
  match s with [] => [] | _ => encode (mark :: map (fun c => if (c =? 32)%N then mark else c) (runes s)) end.
(** ...and the decoder puts spaces in the place of marks and drops the first one. *)
Definition blanks (mark : N) (rs : list N) : list N := map (fun c => if (c =? mark)%N then 32%N else c) rs.
Definition led_by_space (mark : N) (s : str) : str :=
  match s with [] => [] | _ => 32%N :: encode (blanks mark (runes s)) end.

Definition space_string : str := [32%N].
Definition llama_normalizer (quoted : str -> str -> list (Z * Z)) (mark : N) : norm :=
  NSeq [NPrepend (encode_rune mark); NReplace (PString space_string (quoted space_string)) (encode_rune mark)].
Definition llama_decoder (quoted : str -> str -> list (Z * Z)) (mark : N) (fallback : bool) : decoder :=
  DSequence (DReplace (PString (encode_rune mark) (quoted (encode_rune mark))) space_string :: (if fallback then [DByteFallback] else []) ++ [DFuse; DStrip space_string 1 0]).

(** No merge makes what looks like the name of a byte, <0x..>. *)
Definition makes_no_byte (mark : N) (ms : list (str * str)) : Prop :=
  forall x y rs a b, In (x, y) ms -> Forall scalar rs -> x ++ y = encode rs -> encode (blanks mark rs) <> (key "<0x" ++ [a; b; 62%N]).

(** A file with this normalizer and decoder and a BPE model: no pre-tokenizer, no truncation. *)
Definition llama_file (lower : str -> str) (base64 : str -> res str) (compile : str -> option (str -> list (Z * Z))) (quoted : str -> str -> list (Z * Z))
    (v : vocab) (ms : list (str * str)) (mark : N) (fallback : bool) (po : option processor) (pa : option pad_params) (c : config) : Prop :=
  exists mo no de unk suffix,
    c_model c = Some mo /\ c_normalizer c = Some no /\ c_pretokenizer c = None /\ c_decoder c = Some de /\ c_truncation c = None /\
    bpe_section mo (Some de) v ms unk suffix /\
    intended_norm base64 compile quoted false (JObj no) (llama_normalizer quoted mark) /\
    intended_decoder lower compile quoted false (JObj de) (llama_decoder quoted mark fallback) /\
    intended_section intended_processor (c_processor c) po /\ intended_section intended_pad (c_padding c) pa /\
    numbered v /\ scalar mark /\ mark <> 0%N /\ mark <> 32%N /\ mark <> 65533%N /\ vget (encode_rune mark) v <> None /\ finds_char quoted mark /\ finds_char quoted 32 /\
    (fallback = true -> makes_no_byte mark ms) /\
    added_apart ms (c_added c) /\ Forall (fun t => tc_single t = false) (c_added c).
