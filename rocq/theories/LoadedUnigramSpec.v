(** Tokenizer.json files with the metaspace pre-tokenizer and a Unigram model (C76). *)
From Coq Require Import String QArith.
From Verif Require Import Base Utf8Model NormalizedModel EncodingModel BpeModel AddedVocabModel UnigramModel DecoderModel PreTokenizerModel PreTokenizerSpec ProcessorModel ConfigModel ConfigSpec ReturnSpec RoundTripSpec
  WordsSpec MetaspaceSpec MetaTripSpec LoadedSpec.
Open Scope Z_scope.
Open Scope list_scope.

(** What the model is given for texts without added tokens: marks for white space, one in front
    as the scheme asks, cut in front of each mark. *)
Definition led_words (scheme : prepend_scheme) (mark : N) (texts : list str) : list str :=
  flat_map (fun s => map encode (cut_up MergedWithNext (N.eqb mark) (map (fun c => if (c =? 32)%N then mark else c) (led scheme mark true (runes s))))) texts.
(** What comes back: the texts with spaces for white space and marks, without the first space if
    it is dropped. *)
Definition led_text (scheme : prepend_scheme) (mark : N) (drop : bool) (texts : list str) : list N :=
  match flat_map (fun s => led scheme mark true (runes s)) texts with
  | c :: l => if drop && (c =? 32)%N then l else c :: l
  | [] => []
  end.

(** A text given as its first part and special tokens with what follows each of them: its parts, of
    which only the first one is the first. *)
Definition led_between (scheme : prepend_scheme) (mark : N) (q : str * list (str * Z * str)) : list (list N) :=
  led scheme mark true (runes (fst q)) :: map (fun y => led scheme mark false (runes (snd y))) (snd q).

(** The words the model is given for them. *)
Definition words_between (scheme : prepend_scheme) (mark : N) (qs : list (str * list (str * Z * str))) : list str :=
  flat_map (fun p => map encode (cut_up MergedWithNext (N.eqb mark) (map (fun c => if (c =? 32)%N then mark else c) p))) (flat_map (led_between scheme mark) qs).

(** A model section for Unigram without byte fallback. *)
Definition unigram_section (fs : conf) (dec : option conf) (voc : list (str * Q)) (unk : option Z) (fuse : bool) : Prop :=
  model_is fs dec "Unigram" /\ states fs "vocab" (JArr (map (fun p => JArr [JStr (fst p); JNum (snd p)]) voc)) /\
  maybe jint fs "unk_id" unk /\ (forall k, unk = Some k -> k < zlen voc) /\
  given JBool fs "byte_fallback" false false /\ given JBool fs "fuse_unk" true fuse.
(** The id of a token: its place in the vocabulary. *)
Definition place (voc : list (str * Q)) (s : str) : option Z := option_map Z.of_nat (position s (map fst voc)).

(** Special tokens contain no mark; the unknown token is one of them. *)
Definition added_unmarked (mark : N) (voc : list (str * Q)) (unk : option Z) (l : list token_config) : Prop :=
  Forall (fun t => tc_content t <> [] /\ valid_utf8 (tc_content t) /\ (tc_special t = true -> ~ In mark (runes (tc_content t)))) l /\
  forall k p, unk = Some (Z.of_nat k) -> nth_error voc k = Some p -> In (fst p) (map tc_content (filter tc_special l)).

(** A file for a Unigram model with scored tokens [voc] and the metaspace pre-tokenizer; the decoder section
    meets [says].  No normalizer and no truncation. *)
Definition unigram_file (lower : str -> str) (compile : str -> option (str -> list (Z * Z))) (quoted : str -> str -> list (Z * Z))
    (says : conf -> Prop) (voc : list (str * Q)) (unk : option Z) (fuse : bool) (mark : N) (scheme : prepend_scheme) (po : option processor) (pa : option pad_params) (c : config) : Prop :=
  exists mo pt de,
    c_model c = Some mo /\ c_pretokenizer c = Some pt /\ c_decoder c = Some de /\ c_normalizer c = None /\ c_truncation c = None /\
    unigram_section mo (Some de) voc unk fuse /\
    intended_pre lower compile quoted false (JObj pt) (PTMetaspace (encode_rune mark) (find_chars (N.eqb mark)) scheme) /\ says de /\
    intended_section intended_processor (c_processor c) po /\ intended_section intended_pad (c_padding c) pa /\
    NoDup (map fst voc) /\ Forall (fun p => valid_utf8 (fst p)) voc /\
    scalar mark /\ mark <> 0%N /\ In (encode_rune mark) (map fst voc) /\ added_unmarked mark voc unk (c_added c).
