(** What a tokenizer.json file with a word-level model has to say, and what its tokenizer decodes to (C85). *)
From Coq Require Import String.
From Verif Require Import Base Utf8Model EncodingModel BpeModel PreTokenizerModel ProcessorModel ConfigModel ConfigSpec LoadedSpec.
Open Scope Z_scope.
Open Scope list_scope.

(** A file for words: vocabulary [v] with the unknown token [unk], pre-tokenizer [pre], processor
    [po] and padding [pa]; no normalizer, no decoder and no truncation.  All listed tokens are special. *)
Definition wordlevel_file (lower : str -> str) (compile : str -> option (str -> list (Z * Z))) (quoted : str -> str -> list (Z * Z))
    (v : vocab) (unk : str) (pre : pre_tokenizer) (po : option processor) (pa : option pad_params) (c : config) : Prop :=
  exists mo pt,
    c_model c = Some mo /\ c_pretokenizer c = Some pt /\ c_normalizer c = None /\ c_decoder c = None /\ c_truncation c = None /\
    model_is mo None "WordLevel" /\ vocab_given mo v /\ given JStr mo "unk_token" (key "<unk>") unk /\ unk <> [] /\
    intended_pre lower compile quoted false (JObj pt) pre /\
    intended_section intended_processor (c_processor c) po /\ intended_section intended_pad (c_padding c) pa /\
    numbered v /\ In unk (map fst v) /\
    Forall (fun t => tc_special t = true /\ tc_content t <> [] /\ valid_utf8 (tc_content t)) (c_added c).

(** The words of a text. *)
Definition cut_words (cut : list N -> list (list N)) (s : str) : list str :=
  match s with [] => [] | _ => map encode (cut (runes s)) end.
(** What is seen of a word: itself if it is in the vocabulary, else the unknown token; nothing if
    that is a special token. *)
Definition word_seen (v : vocab) (unk : str) (special : list str) (w : str) (xs : list str) : Prop :=
  exists x, (In w (map fst v) /\ x = w \/ ~ In w (map fst v) /\ x = unk) /\ (In x special /\ xs = [] \/ ~ In x special /\ xs = [x]).
