(** Which tokenizer.json files are well formed, as far as loading them is concerned: every
    member that is read has the kind of value it should have.  A well-formed file may still ask
    for something unknown or impossible; loading it then ends with an error. *)
From Coq Require Import String QArith.
From Verif Require Import Base Utf8Model SpmModel SpmSpec ConfigModel ConfigSpec.
Open Scope Z_scope.
Open Scope list_scope.

(** The call comes back, with a result or with an error. *)
Definition reported {A} (r : res A) : Prop := r = Err \/ exists x, r = Ok x.

(** ** Kinds of values *)
Definition text (j : json) : Prop := exists s, j = JStr s.
Definition flag (j : json) : Prop := exists b, j = JBool b.
Definition number (j : json) : Prop := exists q, j = JNum q.
Definition items (P : json -> Prop) (j : json) : Prop := exists l, j = JArr l /\ Forall P l.
Definition object (P : conf -> Prop) (j : json) : Prop := exists fs, j = JObj fs /\ P fs.

(** A member that must be there, and one that may be left out. *)
Definition must (fs : conf) (k : string) (P : json -> Prop) : Prop := exists v, states fs k v /\ P v.
Definition may (fs : conf) (k : string) (P : json -> Prop) : Prop := omits fs k \/ must fs k P.

Definition typed (fs : conf) (t : string) : Prop := states fs "type" (JStr (key t)).
(** A type which is none of those listed. *)
Definition other_type (fs : conf) (known : list string) : Prop :=
  exists s, states fs "type" (JStr s) /\ ~ In s (map key known).

(** ** Models *)
Definition vocabulary (j : json) : Prop := object (fun fs => Forall (fun p => number (snd p)) fs) j.
(** Two elements are two tokens. *)
Definition merge_fine (j : json) : Prop := forall a b, j = JArr [a; b] -> text a /\ text b.
Definition entry_fine (j : json) : Prop :=
  exists l, j = JArr l /\ forall a b, l = [a; b] -> text a /\ number b.

Inductive fine_model (fs : conf) (dec : option conf) : Prop :=
| FM_bpe : model_is fs dec "BPE" -> may fs "dropout" number -> may fs "unk_token" text ->
    may fs "continuing_subword_prefix" text -> may fs "end_of_word_suffix" text ->
    must fs "vocab" vocabulary -> must fs "merges" (items merge_fine) -> fine_model fs dec
| FM_wordpiece : model_is fs dec "WordPiece" -> may fs "unk_token" text ->
    may fs "continuing_subword_prefix" text -> may fs "max_input_chars_per_word" number ->
    must fs "vocab" vocabulary -> fine_model fs dec
| FM_wordlevel : model_is fs dec "WordLevel" -> may fs "unk_token" text ->
    must fs "vocab" vocabulary -> fine_model fs dec
| FM_unigram : model_is fs dec "Unigram" -> may fs "unk_id" number -> may fs "byte_fallback" flag ->
    may fs "fuse_unk" flag -> may fs "vocab" (items entry_fine) -> fine_model fs dec
| FM_other : other_type fs ["BPE"; "WordPiece"; "WordLevel"; "Unigram"]%string -> fine_model fs dec.

Section Fine.
  Variable base64 : str -> res str.
  Variable compile : str -> option (str -> list (Z * Z)).

  (** The pattern of a Replace section: a member String, or a member Regex where that is read. *)
  Definition replace_fine (fs : conf) : Prop :=
    must fs "pattern" (object (fun p =>
      must p "String" text \/ omits p "String" /\ (omits fs "Regex" \/ must p "Regex" text)))
    /\ must fs "content" text.

  (** The text is not base64, or what it encodes is a character map. *)
  Definition charsmap (j : json) : Prop :=
    exists s, j = JStr s /\
      (base64 s = Err \/
       exists units txt, base64 s = Ok (blob units txt) /\
         Forall (fun u => (u < 2 ^ 32)%N) units /\ (4 * N.of_nat (length units) < 2 ^ 32)%N).

  (** ** Normalizers *)
  Inductive fine_normalizer : json -> Prop :=
  | FN_bert : forall fs, typed fs "BertNormalizer" -> may fs "clean_text" flag ->
      may fs "handle_chinese_chars" flag -> may fs "strip_accents" flag -> may fs "lowercase" flag ->
      fine_normalizer (JObj fs)
  | FN_strip : forall fs t, In t ["Strip"; "StripNormalizer"]%string -> typed fs t ->
      may fs "strip_left" flag -> may fs "strip_right" flag -> fine_normalizer (JObj fs)
  | FN_plain : forall fs t,
      In t ["StripAccents"; "NFC"; "NFD"; "NFKC"; "NFKD"; "Lowercase"]%string -> typed fs t ->
      fine_normalizer (JObj fs)
  | FN_precompiled : forall fs, typed fs "Precompiled" -> may fs "precompiled_charsmap" charsmap ->
      fine_normalizer (JObj fs)
  | FN_replace : forall fs, typed fs "Replace" -> replace_fine fs -> fine_normalizer (JObj fs)
  | FN_prepend : forall fs, typed fs "Prepend" -> may fs "prepend" text -> fine_normalizer (JObj fs)
  | FN_empty : forall fs, typed fs "Sequence" -> omits fs "normalizers" -> fine_normalizer (JObj fs)
  | FN_sequence : forall fs l, typed fs "Sequence" -> states fs "normalizers" (JArr l) ->
      Forall fine_normalizer l -> fine_normalizer (JObj fs)
  | FN_other : forall fs,
      other_type fs ["BertNormalizer"; "Strip"; "StripNormalizer"; "StripAccents"; "NFC"; "NFD"; "NFKC"; "NFKD";
                     "Sequence"; "Lowercase"; "Nmt"; "Precompiled"; "Replace"; "Prepend"]%string ->
      fine_normalizer (JObj fs).

  (** ** Pre-tokenizers *)
  Definition compiles (j : json) : Prop := exists s f, j = JStr s /\ compile s = Some f.
  Inductive fine_pre : json -> Prop :=
  | FP_plain : forall fs t, In t ["BertPreTokenizer"; "Whitespace"; "WhitespaceSplit"; "UnicodeScripts"]%string ->
      typed fs t -> fine_pre (JObj fs)
  | FP_bytelevel : forall fs, typed fs "ByteLevel" -> may fs "add_prefix_space" flag -> may fs "trim_offsets" flag ->
      fine_pre (JObj fs)
  | FP_delimiter : forall fs s, typed fs "Delimiter" -> states fs "delimiter" (JStr s) -> s <> [] ->
      fine_pre (JObj fs)
  | FP_metaspace : forall fs, typed fs "Metaspace" -> may fs "replacement" text -> may fs "prepend_scheme" text ->
      may fs "add_prefix_space" flag -> fine_pre (JObj fs)
  | FP_punctuation : forall fs, typed fs "Punctuation" -> must fs "behavior" text -> fine_pre (JObj fs)
  | FP_digits : forall fs, typed fs "Digits" -> must fs "individual_digits" flag -> fine_pre (JObj fs)
  | FP_split : forall fs p, typed fs "Split" -> states fs "pattern" (JObj p) -> must fs "behavior" text ->
      must fs "invert" flag ->
      must p "Regex" compiles \/ distinct p /\ ~ In (key "Regex") (map fst p) /\
        (must p "String" compiles \/ ~ In (key "String") (map fst p)) ->
      fine_pre (JObj fs)
  | FP_sequence : forall fs l, typed fs "Sequence" -> states fs "pretokenizers" (JArr l) -> Forall fine_pre l ->
      fine_pre (JObj fs)
  | FP_other : forall fs,
      other_type fs ["BertPreTokenizer"; "ByteLevel"; "Delimiter"; "Metaspace"; "Whitespace"; "Sequence";
                     "WhitespaceSplit"; "Punctuation"; "Digits"; "UnicodeScripts"; "Split"]%string ->
      fine_pre (JObj fs).
End Fine.

(** ** Decoders *)
Inductive fine_decoder : json -> Prop :=
| FD_bpe : forall fs, typed fs "BPE" -> must fs "suffix" text -> fine_decoder (JObj fs)
| FD_bytelevel : forall fs, typed fs "ByteLevel" -> may fs "add_prefix_space" flag -> may fs "trim_offsets" flag ->
    fine_decoder (JObj fs)
| FD_wordpiece : forall fs, typed fs "WordPiece" -> must fs "prefix" text -> must fs "cleanup" flag ->
    fine_decoder (JObj fs)
| FD_metaspace : forall fs, typed fs "Metaspace" -> may fs "replacement" text -> may fs "add_prefix_space" flag ->
    fine_decoder (JObj fs)
| FD_ctc : forall fs, typed fs "CTC" -> must fs "pad_token" text -> must fs "word_delimiter" text ->
    must fs "cleanup" flag -> fine_decoder (JObj fs)
| FD_replace : forall fs, typed fs "Replace" -> replace_fine fs -> fine_decoder (JObj fs)
| FD_plain : forall fs t, In t ["Fuse"; "ByteFallback"]%string -> typed fs t -> fine_decoder (JObj fs)
| FD_strip : forall fs, typed fs "Strip" -> must fs "content" text -> must fs "start" number -> must fs "stop" number ->
    fine_decoder (JObj fs)
| FD_sequence : forall fs l, typed fs "Sequence" -> states fs "decoders" (JArr l) -> Forall fine_decoder l ->
    fine_decoder (JObj fs)
| FD_other : forall fs,
    other_type fs ["BPE"; "ByteLevel"; "WordPiece"; "Metaspace"; "CTC"; "Sequence"; "Replace"; "Fuse"; "Strip";
                   "ByteFallback"]%string ->
    fine_decoder (JObj fs).

(** ** Post-processors *)
Definition token_fine (j : json) : Prop := exists s q rest, j = JArr (JStr s :: JNum q :: rest).
Definition item_fine (j : json) : Prop := object (fun fs => must fs "id" text /\ must fs "type_id" number) j.
Definition piece_fine (j : json) : Prop :=
  object (fun fs => may fs "Sequence" item_fine /\ may fs "SpecialToken" item_fine) j.
Definition sequence_only (j : json) : Prop :=
  object (fun fs => may fs "Sequence" item_fine /\ omits fs "SpecialToken") j.
Definition special_fine (j : json) : Prop :=
  object (fun d => must d "id" text /\ must d "ids" (items number) /\ must d "tokens" (items text)) j.

Inductive fine_processor : json -> Prop :=
| FR_roberta : forall fs, typed fs "RobertaProcessing" -> must fs "sep" token_fine -> must fs "cls" token_fine ->
    must fs "trim_offsets" flag -> must fs "add_prefix_space" flag -> fine_processor (JObj fs)
| FR_bert : forall fs, typed fs "BertProcessing" -> must fs "sep" token_fine -> must fs "cls" token_fine ->
    fine_processor (JObj fs)
| FR_bytelevel : forall fs, typed fs "ByteLevel" -> may fs "add_prefix_space" flag -> may fs "trim_offsets" flag ->
    fine_processor (JObj fs)
| FR_template : forall fs, typed fs "TemplateProcessing" ->
    may fs "single" (items piece_fine) -> may fs "pair" (items piece_fine) ->
    must fs "special_tokens" (object (fun m => Forall (fun p => special_fine (snd p)) m)) ->
    fine_processor (JObj fs)
| FR_template_plain : forall fs, typed fs "TemplateProcessing" ->
    may fs "single" (items sequence_only) -> may fs "pair" (items sequence_only) -> omits fs "special_tokens" ->
    fine_processor (JObj fs)
| FR_sequence : forall fs l, typed fs "Sequence" -> states fs "processors" (JArr l) -> Forall fine_processor l ->
    fine_processor (JObj fs)
| FR_other : forall fs,
    other_type fs ["RobertaProcessing"; "BertProcessing"; "ByteLevel"; "TemplateProcessing"; "Sequence"]%string ->
    fine_processor (JObj fs).

(** ** Truncation, and whole files; the padding section may be anything *)
Definition fine_truncation (fs : conf) : Prop :=
  must fs "max_length" number /\ must fs "stride" number /\ must fs "strategy" text.

Definition fine_section (P : json -> Prop) (c : option conf) : Prop := forall fs, c = Some fs -> P (JObj fs).

Definition fine_file base64 compile (c : config) : Prop :=
  (exists fs, c_model c = Some fs /\ fine_model fs (c_decoder c)) /\
  fine_section (fine_normalizer base64) (c_normalizer c) /\
  fine_section (fine_pre compile) (c_pretokenizer c) /\
  fine_section fine_processor (c_processor c) /\
  fine_section fine_decoder (c_decoder c) /\
  fine_section (object fine_truncation) (c_truncation c).

(** Members without which a component cannot be built: the type of the component, and the member. *)
Definition needed_pre : list (string * string) :=
  [("Delimiter", "delimiter"); ("Punctuation", "behavior"); ("Digits", "individual_digits");
   ("Split", "pattern"); ("Split", "behavior"); ("Split", "invert"); ("Sequence", "pretokenizers")]%string.
Definition needed_decoder : list (string * string) :=
  [("BPE", "suffix"); ("WordPiece", "prefix"); ("WordPiece", "cleanup"); ("CTC", "pad_token");
   ("CTC", "word_delimiter"); ("CTC", "cleanup"); ("Replace", "pattern"); ("Replace", "content"); ("Strip", "content");
   ("Strip", "start"); ("Strip", "stop"); ("Sequence", "decoders")]%string.
Definition needed_processor : list (string * string) :=
  [("RobertaProcessing", "sep"); ("RobertaProcessing", "cls"); ("RobertaProcessing", "trim_offsets");
   ("RobertaProcessing", "add_prefix_space"); ("BertProcessing", "sep"); ("BertProcessing", "cls");
   ("Sequence", "processors")]%string.
Definition needed_normalizer : list (string * string) := [("Replace", "pattern"); ("Replace", "content")]%string.
