(** Word-level files with a normalizer and any listed tokens (C85). *)
From Coq Require Import String.
From Verif Require Import Base Utf8Model EncodingModel BpeModel PreTokenizerModel ProcessorModel ConfigModel ConfigSpec PipelineSpec BertNormSpec WordsSpec LoadedSpec.
Open Scope Z_scope.
Open Scope list_scope.

(** A file for words as in WordLevelSpec.v, with the normalizer [no].  Listed tokens need not be
    special; with a normalizer none is restricted to whole words. *)
Definition wordlevel_norm_file (lower : str -> str) (base64 : str -> res str) (compile : str -> option (str -> list (Z * Z))) (quoted : str -> str -> list (Z * Z))
    (v : vocab) (unk : str) (no : option norm) (pre : pre_tokenizer) (po : option processor) (pa : option pad_params) (c : config) : Prop :=
  exists mo pt,
    c_model c = Some mo /\ c_pretokenizer c = Some pt /\ c_decoder c = None /\ c_truncation c = None /\
    model_is mo None "WordLevel" /\ vocab_given mo v /\ given JStr mo "unk_token" (key "<unk>") unk /\ unk <> [] /\
    intended_section (intended_norm base64 compile quoted false) (c_normalizer c) no /\
    intended_pre lower compile quoted false (JObj pt) pre /\
    intended_section intended_processor (c_processor c) po /\ intended_section intended_pad (c_padding c) pa /\
    numbered v /\ In unk (map fst v) /\
    Forall (fun t => tc_content t <> [] /\ valid_utf8 (tc_content t) /\ (no <> None -> tc_single t = false)) (c_added c).

(** What a normalizer makes of a text: nothing, lower case of as many bytes, or what BERT does. *)
Definition becomes (cc mn : N -> bool) (lower : str -> str) (no : option norm) (s t : str) : Prop :=
  match no with
  | None => t = s
  | Some NLowercase => t = lower s /\ length t = length s /\ clean t
  | Some (NBert _ lowercase handles strip) => bert_reads cc mn lower handles lowercase strip s /\ t = bert_text handles lowercase strip mn lower (runes s)
  | Some _ => False
  end.
