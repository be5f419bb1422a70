(** What a tokenizer.json file for BERT has to say, and what its tokenizer decodes to (C77). *)
From Coq Require Import String.
From Verif Require Import Base Utf8Model NormalizedModel NormalizedSpec EncodingModel BpeModel WordPieceSpec DecoderModel PreTokenizerModel PreTokenizerSpec ProcessorModel PreTokenizedSpec ConfigModel ConfigSpec BertNormSpec PipelineSpec WordsSpec LoadedSpec.
Open Scope Z_scope.
Open Scope list_scope.

(** The special tokens of the list. *)
Definition specials (l : list token_config) : list str := map tc_content (filter tc_special l).
(** Tokens like [CLS] with its brackets: at least two bytes, the first one ASCII punctuation other than #. *)
Definition set_apart (s : str) : Prop :=
  exists c d l, s = c :: d :: l /\ ((33 <= c <= 47) \/ (58 <= c <= 64) \/ (91 <= c <= 96))%N /\ c <> 35%N.

(** A file for BERT: vocabulary [v], unknown token [unk], words of at most [max] characters, the
    prefix ##; its normalizer turns to lower case or not; its decoder cleans up or not.  Listed tokens are
    not restricted to whole words, special ones are set apart.  [handles]: spaces are put around Chinese
    characters; [strip]: accents are taken off. *)
Definition bert_file (lower : str -> str) (base64 : str -> res str) (compile : str -> option (str -> list (Z * Z))) (quoted : str -> str -> list (Z * Z))
    (v : vocab) (unk : str) (max : Z) (handles lowercase strip cleanup : bool) (po : option processor) (pa : option pad_params) (c : config) : Prop :=
  exists mo no pt de cleaned,
    c_model c = Some mo /\ c_normalizer c = Some no /\ c_pretokenizer c = Some pt /\ c_decoder c = Some de /\ c_truncation c = None /\
    model_is mo (Some de) "WordPiece" /\ vocab_given mo v /\ given JStr mo "unk_token" (key "[UNK]") unk /\
    given JStr mo "continuing_subword_prefix" (key "##") (key "##") /\ given jint mo "max_input_chars_per_word" 100 max /\
    intended_norm base64 compile quoted false (JObj no) (NBert cleaned lowercase handles strip) /\
    intended_pre lower compile quoted false (JObj pt) PTBert /\
    intended_decoder lower compile quoted false (JObj de) (DWordPiece (key "##") cleanup) /\
    intended_section intended_processor (c_processor c) po /\ intended_section intended_pad (c_padding c) pa /\
    numbered v /\ vget unk v <> None /\
    Forall (fun t => tc_single t = false /\ tc_content t <> [] /\ valid_utf8 (tc_content t) /\ (tc_special t = true -> set_apart (tc_content t))) (c_added c) /\
    (In unk (specials (c_added c)) \/ neat unk /\ forall z, unk <> key "##" ++ z).

(** The words which the model knows... *)
Definition file_knows (v : vocab) (max : Z) (w : str) : Prop := zlen (runes w) <= max /\ exists ps, greedy v [35; 35]%N true (runes w) ps.
(** ...come back; of the others, the unknown token comes back, or nothing if this token is special. *)
Definition comes_back (v : vocab) (max : Z) (unk : str) (special : list str) (w : str) (xs : list str) : Prop :=
  file_knows v max w /\ xs = [w] \/
  ~ file_knows v max w /\ (In unk special /\ xs = [] \/ ~ In unk special /\ xs = [unk]).
