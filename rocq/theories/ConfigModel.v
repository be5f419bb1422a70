(** Model of the loader of tokenizer.json files: /repo/pretrained/, /repo/util/param.go and
    the constructors it calls.

    The JSON text is already parsed: encoding/json gives a tree.  Objects are lists of
    members in the order in which Go happens to iterate over the map; keys are distinct
    (json keeps the last of equal keys).  Numbers are rationals; int(float64) truncates toward
    zero.  Simplifications: numbers outside the range of int, whose conversion Go leaves
    open, and the rounding of literals to float64 are not modelled. *)
From Coq Require Import String Ascii QArith.
From Verif Require Import Base Utf8Model PatternModel EncodingModel NormalizedModel.
From Verif Require Import BpeModel BpeSaveModel WordPieceModel UnigramModel AddedVocabModel.
From Verif Require Import DecoderModel PreTokenizerModel ProcessorModel SpmModel.
Open Scope Z_scope.
Open Scope list_scope.

(** The bytes of an ASCII literal of the source. *)
Definition key (s : string) : str := List.map N_of_ascii (list_ascii_of_string s).
Arguments key s%string_scope.

Inductive json :=
| JNull
| JBool (b : bool)
| JNum (q : Q)
| JStr (s : str)
| JArr (l : list json)
| JObj (fs : list (str * json)).

(** map[string]interface{}. *)
Definition conf := list (str * json).

(** int(x) for a float64. *)
Definition to_int (q : Q) : Z := Z.quot (Qnum q) (Zpos (Qden q)).

(** util/param.go:73-88 without a default; also m[k] used with a type assertion, which
    treats a missing member and null alike. *)
Definition fget (k : string) (fs : conf) : json :=
  match aget str_eqb (key k) fs with Some v => v | None => JNull end.

(** The type assertions x.(T); they panic on another type and on nil. *)
Definition as_str (j : json) : res str := match j with JStr s => Ok s | _ => Panic end.
Definition as_bool (j : json) : res bool := match j with JBool b => Ok b | _ => Panic end.
Definition as_num (j : json) : res Q := match j with JNum q => Ok q | _ => Panic end.
Definition as_int (j : json) : res Z := do q <- as_num j; Ok (to_int q).
Definition as_arr (j : json) : res (list json) := match j with JArr l => Ok l | _ => Panic end.
Definition as_obj (j : json) : res conf := match j with JObj fs => Ok fs | _ => Panic end.

(** Has followed by Get and an assertion (util/param.go:57-88). *)
Definition opt {A} (as_ : json -> res A) (k : string) (fs : conf) : res (option A) :=
  match fget k fs with
  | JNull => Ok None
  | v => do x <- as_ v; Ok (Some x)
  end.
(** Get with a default, and an assertion. *)
Definition dflt {A} (as_ : json -> res A) (d : A) (k : string) (fs : conf) : res A :=
  do o <- opt as_ k fs; Ok (match o with Some x => x | None => d end).

(** The elements of an array member, each turned into a component: the loops of the four
    Sequence constructors; [none] is the result when the member is missing or null. *)
Section Seek.
  Context {A : Type} (f : json -> res A) (k : str) (none : res (list A)).
  Fixpoint seek (fs : list (str * json)) : res (list A) :=
    match fs with
    | [] => none
    | (k', v) :: fs' =>
        if str_eqb k k' then
          match v with JNull => none | JArr l => mapR f l | _ => Panic end
        else seek fs'
    end.
End Seek.

(** ** Models: pretrained/model.go *)

(** model.go:207-214. *)
Definition cast_vocab (fs : conf) : res vocab :=
  do l <- mapR (fun p => do z <- as_int (snd p); Ok (fst p, z)) fs;
  Ok (fold_left (fun v p => aset str_eqb (fst p) (snd p) v) l []).

(** model.go:216-239: an element that is neither an array nor a string stays "". *)
Definition cast_merge (l : list json) : res (list str) :=
  mapR (fun j =>
    match j with
    | JArr [a; b] => do x <- as_str a; do y <- as_str b; Ok (x ++ [SP] ++ y)
    | JArr _ => Err
    | JStr s => Ok s
    | _ => Ok []
    end) l.

Inductive loaded_model :=
| MBpe (b : bpe) (dropout : option Q)
| MWordPiece (w : wordpiece)
| MWordLevel (w : wordlevel)
| MUnigram (u : @unigram Q).

Section Load.
  (** The order in which Go happens to iterate over a vocabulary. *)
  Variable order : vocab -> vocab.
  (** float32(x). *)
  Variable to32 : Q -> Q.
  (** strings.ToLower. *)
  Variable lower : str -> str.
  (** base64.StdEncoding.DecodeString. *)
  Variable base64 : str -> res str.
  (** regexp.Compile: FindAllStringIndex of the compiled expression, None if it does not
      compile; [quoted] is that of regexp.QuoteMeta(s), which always compiles. *)
  Variable compile : str -> option (str -> list (Z * Z)).
  Variable quoted : str -> str -> list (Z * Z).

  (** model.go:80-111; bpe.go:649-680 and 104-161: the dropout must be in (0, 1]. *)
  Definition create_bpe (fs : conf) : res loaded_model :=
    do dropout <- opt as_num "dropout" fs;
    do unk <- opt as_str "unk_token" fs;
    do prefix <- opt as_str "continuing_subword_prefix" fs;
    do suffix <- opt as_str "end_of_word_suffix" fs;
    do vfs <- as_obj (fget "vocab" fs);
    do v <- cast_vocab vfs;
    do ml <- as_arr (fget "merges" fs);
    do lines <- cast_merge ml;
    do merges <- create_merges v lines;
    let d := option_map to32 dropout in
    let ok := match d with Some p => negb (Qle_bool p 0) && Qle_bool p 1 | None => true end in
    if ok then Ok (MBpe (Bpe v (build_vocab_r (order v)) merges unk prefix suffix) d) else Err.

  (** model.go:121-140: the prefix is passed as a default to Get instead of being set (129);
      wordpiece.go:410-441: the prefix is looked for under another name (421), so it is "##". *)
  Definition create_wordpiece (fs : conf) : res loaded_model :=
    do unk <- dflt as_str (key "[UNK]") "unk_token" fs;
    do _ <- opt as_str "continuing_subword_prefix" fs;
    do max <- dflt as_int 100 "max_input_chars_per_word" fs;
    do vfs <- as_obj (fget "vocab" fs);
    do v <- cast_vocab vfs;
    Ok (MWordPiece (wp_build v (order v) unk (key "##") max)).

  (** model.go:142-152; wordlevel.go:248-263. *)
  Definition create_wordlevel (fs : conf) : res loaded_model :=
    do unk <- dflt as_str [] "unk_token" fs;
    do vfs <- as_obj (fget "vocab" fs);
    do v <- cast_vocab vfs;
    let u := match unk with [] => key "<unk>" | _ => unk end in
    Ok (MWordLevel (wl_build (WLC (Some v) u) (order v))).

  (** model.go:174-192. *)
  Definition unigram_entry (j : json) : res (str * Q) :=
    do p <- as_arr j;
    match p with
    | [t; s] => do t' <- as_str t; do s' <- as_num s; Ok (t', s')
    | _ => Err
    end.

  (** model.go:154-205; unigram.go:117-150. *)
  Definition create_unigram (fs : conf) : res loaded_model :=
    do unk <- opt as_int "unk_id" fs;
    do bytes <- dflt as_bool false "byte_fallback" fs;
    do fuse <- dflt as_bool true "fuse_unk" fs;
    match fget "vocab" fs with
    | JNull => Err
    | v => do l <- as_arr v;
           do voc <- mapR unigram_entry l;
           do u <- ug_build voc unk bytes fuse;
           Ok (MUnigram u)
    end.

  (** model.go:24-48: the type, guessed from the type of the decoder if it is missing. *)
  Definition model_type (fs : conf) (decoder : option conf) : res str :=
    do t <- opt as_str "type" fs;
    match t with
    | Some t => Ok t
    | None =>
        do dt <- opt as_str "type" (match decoder with Some d => d | None => [] end);
        match dt with
        | Some dt =>
            if str_eqb dt (key "WordPiece") || str_eqb dt (key "WordLevel") || str_eqb dt (key "Unigram")
            then Ok dt else Ok (key "BPE")
        | None => Ok (key "BPE")
        end
    end.

  (** model.go:18-64.  A missing section reads as an empty one (util/param.go:15-20). *)
  Definition create_model (model decoder : option conf) : res loaded_model :=
    let fs := match model with Some fs => fs | None => [] end in
    do t <- model_type fs decoder;
    if str_eqb t (key "BPE") then create_bpe fs
    else if str_eqb t (key "WordPiece") then create_wordpiece fs
    else if str_eqb t (key "WordLevel") then create_wordlevel fs
    else if str_eqb t (key "Unigram") then create_unigram fs
    else Err.

  (** ** Normalizers: pretrained/normalizer.go *)

  (** The settings of the normalizers of /repo/normalizer/. *)
  Inductive norm :=
  | NBert (clean lowercase chinese strip : bool)
  | NStrip (l r : bool)
  | NStripAccents
  | NNfc | NNfd | NNfkc | NNfkd
  | NLowercase
  | NPrecompiled (map : str * list N)
  | NReplace (p : pattern) (content : str)
  | NPrepend (s : str)
  | NSeq (l : list norm).

  (** normalizer/pattern.go:95-99 and 191-196. *)
  Definition string_pattern (s : str) : pattern := PString s (quoted s).
  Definition regexp_pattern (s : str) : res pattern :=
    match compile s with Some find => Ok (PRegexp find) | None => Panic end.

  (** normalizer.go:97-120 and decoder.go:149-172: a member "Regex" of the pattern is only
      read if the section itself has a member "Regex", and then as a plain string. *)
  Definition replace_pattern (fs : conf) : res pattern :=
    do pfs <- as_obj (fget "pattern" fs);
    match fget "String" pfs with
    | JNull =>
        match fget "Regex" fs with
        | JNull => Ok (string_pattern [])
        | _ => do s <- as_str (fget "Regex" pfs); Ok (string_pattern s)
        end
    | v => do s <- as_str v; Ok (string_pattern s)
    end.

  (** normalizer.go:141-170. *)
  Definition create_precompiled (fs : conf) : res norm :=
    do o <- opt as_str "precompiled_charsmap" fs;
    match o with
    | None => Err
    | Some s => do data <- base64 s; do m <- parse data; Ok (NPrecompiled m)
    end.

  (** normalizer.go:27-197, for the element of a sequence; a whole section is handled by
      [create_normalizer]. *)
  Fixpoint norm_of (j : json) : res norm :=
    match j with
    | JObj fs =>
        do t <- as_str (fget "type" fs);
        if str_eqb t (key "BertNormalizer") then
          do clean <- dflt as_bool false "clean_text" fs;
          do chinese <- dflt as_bool false "handle_chinese_chars" fs;
          do strip <- dflt as_bool false "strip_accents" fs;
          do lowercase <- dflt as_bool false "lowercase" fs;
          Ok (NBert clean lowercase chinese strip)
        else if str_eqb t (key "StripNormalizer") || str_eqb t (key "Strip") then
          do l <- dflt as_bool false "strip_left" fs;
          do r <- dflt as_bool false "strip_right" fs;
          Ok (NStrip l r)
        else if str_eqb t (key "StripAccents") then Ok NStripAccents
        else if str_eqb t (key "NFC") then Ok NNfc
        else if str_eqb t (key "NFD") then Ok NNfd
        else if str_eqb t (key "NFKC") then Ok NNfkc
        else if str_eqb t (key "NFKD") then Ok NNfkd
        else if str_eqb t (key "Sequence") then
          do l <- seek norm_of (key "normalizers") (Ok []) fs; Ok (NSeq l)
        else if str_eqb t (key "Lowercase") then Ok NLowercase
        else if str_eqb t (key "Nmt") then Panic
        else if str_eqb t (key "Precompiled") then create_precompiled fs
        else if str_eqb t (key "Replace") then
          do p <- replace_pattern fs;
          do content <- as_str (fget "content" fs);
          Ok (NReplace p content)
        else if str_eqb t (key "Prepend") then
          do s <- dflt as_str [] "prepend" fs; Ok (NPrepend s)
        else Err
    | _ => Panic
    end.

  (** A section: nothing when it is missing or null. *)
  Definition section {A} (f : json -> res A) (c : option conf) : res (option A) :=
    match c with None => Ok None | Some fs => do x <- f (JObj fs); Ok (Some x) end.
  Definition create_normalizer : option conf -> res (option norm) := section norm_of.

  (** ** Pre-tokenizers: pretrained/pretokenizer.go *)

  (** 131-148 and 196-210. *)
  Definition behavior_of (s : str) : res behavior :=
    if str_eqb s (key "Removed") then Ok Removed
    else if str_eqb s (key "Isolated") then Ok Isolated
    else if str_eqb s (key "MergedWithNext") then Ok MergedWithNext
    else if str_eqb s (key "MergedWithPrevious") then Ok MergedWithPrevious
    else if str_eqb s (key "Contiguous") then Ok Contiguous
    else Err.

  (** 63-75 (also decoder.go:65-77): add_prefix_space and trim_offsets. *)
  Definition byte_level_of (fs : conf) : res (bool * bool) :=
    do prefix <- dflt as_bool false "add_prefix_space" fs;
    do trim <- dflt as_bool false "trim_offsets" fs;
    Ok (prefix, trim).

  (** 83-112; metaspace.go:33-59.  The replacement is compiled only when it is used; one
      that does not compile would then panic, here it finds nothing. *)
  Definition create_metaspace (fs : conf) : res pre_tokenizer :=
    do rep <- dflt as_str [] "replacement" fs;
    let find := match compile rep with Some f => f | None => fun _ => [] end in
    do o <- opt as_str "prepend_scheme" fs;
    match o with
    | Some s =>
        if str_eqb (lower s) (key "always") then Ok (PTMetaspace rep find Always)
        else if str_eqb (lower s) (key "first") then Ok (PTMetaspace rep find First)
        else if str_eqb (lower s) (key "never") then Ok (PTMetaspace rep find Never)
        else Err
    | None =>
        do prefix <- dflt as_bool false "add_prefix_space" fs;
        Ok (PTMetaspace rep find (if prefix then Always else Never))
    end.

  (** 178-213: a member "String" of the pattern is compiled as a regular expression too. *)
  Definition create_split (fs : conf) : res pre_tokenizer :=
    do pfs <- as_obj (fget "pattern" fs);
    do bs <- as_str (fget "behavior" fs);
    do inv <- as_bool (fget "invert" fs);
    do p <- match aget str_eqb (key "Regex") pfs, aget str_eqb (key "String") pfs with
            | Some v, _ => do s <- as_str v; regexp_pattern s
            | None, Some v => do s <- as_str v; regexp_pattern s
            | None, None => Err
            end;
    do b <- behavior_of bs;
    Ok (PTSplit p b inv).

  (** 25-61, 77-81, 159-171, 215-233. *)
  Fixpoint pretok_of (j : json) : res pre_tokenizer :=
    match j with
    | JObj fs =>
        do t <- as_str (fget "type" fs);
        if str_eqb t (key "BertPreTokenizer") then Ok PTBert
        else if str_eqb t (key "ByteLevel") then do s <- byte_level_of fs; Ok (PTByteLevel (fst s))
        else if str_eqb t (key "Delimiter") then
          do s <- as_str (fget "delimiter" fs);
          match runes s with r :: _ => Ok (PTDelimiter r) | [] => Panic end
        else if str_eqb t (key "Metaspace") then create_metaspace fs
        else if str_eqb t (key "Whitespace") then Ok PTWhitespace
        else if str_eqb t (key "Sequence") then
          do l <- seek pretok_of (key "pretokenizers") Panic fs; Ok (PTSequence l)
        else if str_eqb t (key "WhitespaceSplit") then Ok PTWhitespaceSplit
        else if str_eqb t (key "Punctuation") then
          do s <- as_str (fget "behavior" fs); do b <- behavior_of s; Ok (PTPunctuation b)
        else if str_eqb t (key "Digits") then
          do b <- as_bool (fget "individual_digits" fs); Ok (PTDigits b)
        else if str_eqb t (key "UnicodeScripts") then Ok PTScript
        else if str_eqb t (key "Split") then create_split fs
        else Err
    | _ => Panic
    end.
  Definition create_pretokenizer : option conf -> res (option pre_tokenizer) := section pretok_of.

  (** ** Decoders: pretrained/decoder.go *)
  Fixpoint decoder_of (j : json) : res decoder :=
    match j with
    | JObj fs =>
        do t <- as_str (fget "type" fs);
        if str_eqb t (key "BPE") then do s <- as_str (fget "suffix" fs); Ok (DBpe s)
        else if str_eqb t (key "ByteLevel") then do _ <- byte_level_of fs; Ok DByteLevel
        else if str_eqb t (key "WordPiece") then
          do p <- as_str (fget "prefix" fs); do c <- as_bool (fget "cleanup" fs); Ok (DWordPiece p c)
        else if str_eqb t (key "Metaspace") then
          do rep <- dflt as_str [] "replacement" fs;
          do prefix <- dflt as_bool false "add_prefix_space" fs;
          Ok (DMetaspace rep prefix)
        else if str_eqb t (key "CTC") then
          do pad <- as_str (fget "pad_token" fs);
          do delim <- as_str (fget "word_delimiter" fs);
          do c <- as_bool (fget "cleanup" fs);
          Ok (DCtc pad delim c)
        else if str_eqb t (key "Sequence") then
          do l <- seek decoder_of (key "decoders") Panic fs; Ok (DSequence l)
        else if str_eqb t (key "Replace") then
          do p <- replace_pattern fs; do content <- as_str (fget "content" fs); Ok (DReplace p content)
        else if str_eqb t (key "Fuse") then Ok DFuse
        else if str_eqb t (key "Strip") then
          do content <- as_str (fget "content" fs);
          do start <- as_int (fget "start" fs);
          do stop <- as_int (fget "stop" fs);
          Ok (DStrip content start stop)
        else if str_eqb t (key "ByteFallback") then Ok DByteFallback
        else Err
    | _ => Panic
    end.
  Definition create_decoder : option conf -> res (option decoder) := section decoder_of.

  (** ** Post-processors: pretrained/processor.go *)

  (** 61-70. *)
  Definition post_token_of (k : string) (fs : conf) : res post_token :=
    do l <- as_arr (fget k fs);
    do v <- zindex l 0; do v' <- as_str v;
    do i <- zindex l 1; do i' <- as_int i;
    Ok (PTok v' i').

  (** 136-155 and 160-179: the pieces of one element; template.go:82-100. *)
  Definition pieces_of (j : json) : res (list piece) :=
    do ps <- as_obj j;
    do sq <- opt (fun v =>
                do item <- as_obj v;
                do id <- as_str (fget "id" item);
                do ty <- as_int (fget "type_id" item);
                Ok (PSeq (negb (str_eqb id (key "A"))) ty)) "Sequence" ps;
    do sp <- opt (fun v =>
                do item <- as_obj v;
                do id <- as_str (fget "id" item);
                do ty <- as_int (fget "type_id" item);
                Ok (PSpecial id ty)) "SpecialToken" ps;
    Ok (match sq with Some p => [p] | None => [] end ++ match sp with Some p => [p] | None => [] end).

  (** 133-180.  One template; a missing one is empty. *)
  Definition template_of (k : string) (fs : conf) : res (list piece) :=
    do o <- opt as_arr k fs;
    match o with
    | None => Ok []
    | Some l => do ps <- mapR pieces_of l; Ok (concat ps)
    end.

  (** 186-194. *)
  Definition special_of (j : json) : res (str * (list Z * list str)) :=
    do d <- as_obj j;
    do id <- as_str (fget "id" d);
    do il <- as_arr (fget "ids" d); do is <- mapR as_int il;
    do tl <- as_arr (fget "tokens" d); do ts <- mapR as_str tl;
    Ok (id, (is, ts)).

  (** 182-198; template.go:222-234. *)
  Definition specials_of (fs : conf) : res (option special_tokens) :=
    do o <- opt as_obj "special_tokens" fs;
    match o with
    | None => Ok None
    | Some m => do l <- mapR (fun p => special_of (snd p)) m;
                Ok (Some (fold_left (fun a p => aset str_eqb (fst p) (snd p) a) l []))
    end.

  Definition is_special_piece (p : piece) : bool := match p with PSpecial _ _ => true | PSeq _ _ => false end.

  (** 123-201; template.go:307-350: counting a special token in a nil collection panics. *)
  Definition create_template (fs : conf) : res processor :=
    do single <- template_of "single" fs;
    do both <- template_of "pair" fs;
    do toks <- specials_of fs;
    match toks with
    | Some ts => Ok (PTemplate single both ts)
    | None => if existsb is_special_piece (single ++ both) then Panic else Ok (PTemplate single both [])
    end.

  (** 20-59, 72-85, 203-228. *)
  Fixpoint processor_of (j : json) : res processor :=
    match j with
    | JObj fs =>
        do t <- as_str (fget "type" fs);
        if str_eqb t (key "RobertaProcessing") then
          do sep <- post_token_of "sep" fs;
          do cls <- post_token_of "cls" fs;
          do trim <- as_bool (fget "trim_offsets" fs);
          do prefix <- as_bool (fget "add_prefix_space" fs);
          Ok (PRoberta cls sep trim prefix)
        else if str_eqb t (key "BertProcessing") then
          do sep <- post_token_of "sep" fs;
          do cls <- post_token_of "cls" fs;
          Ok (PBert cls sep)
        else if str_eqb t (key "ByteLevel") then
          do s <- byte_level_of fs; Ok (PByteLevel (fst s) (snd s))
        else if str_eqb t (key "TemplateProcessing") then create_template fs
        else if str_eqb t (key "Sequence") then
          do l <- seek processor_of (key "processors") Panic fs; Ok (PSequence l)
        else Err
    | _ => Panic
    end.
  Definition create_processor : option conf -> res (option processor) := section processor_of.

  (** ** Truncation and padding *)

  (** truncation.go:8-34: an unknown strategy leaves the zero value, LongestFirst
      (/repo/util.go:72-79). *)
  Definition trunc_of (j : json) : res trunc_params :=
    do fs <- as_obj j;
    do max <- as_int (fget "max_length" fs);
    do stride <- as_int (fget "stride" fs);
    do s <- as_str (fget "strategy" fs);
    let st := if str_eqb s (key "OnlyFirst") then OnlyFirst
              else if str_eqb s (key "OnlySecond") then OnlySecond
              else LongestFirst in
    Ok (Trunc max st stride).
  Definition create_truncation : option conf -> res (option trunc_params) := section trunc_of.

  (** padding.go:27-41 and 46-59: a number, or 512. *)
  Definition size_of (j : json) : Z := match j with JNum q => to_int q | _ => 512 end.
  (** padding.go:21-64: the name and the size of the strategy. *)
  Definition strategy_of (fs : conf) : str * Z :=
    match fget "strategy" fs with
    | JObj m => fold_left (fun _ p => (fst p, size_of (snd p))) m ([], 0)
    | JStr s => (s, size_of (fget "size" fs))
    | _ => (key "Fixed", 512)
    end.
  (** padding.go:10-128. *)
  Definition pad_of (j : json) : res pad_params :=
    do fs <- as_obj j;
    let '(name, size) := strategy_of fs in
    let st := if str_eqb name (key "BatchLongest") then BatchLongest else Fixed size in
    let dir := match fget "direction" fs with
               | JStr s => if str_eqb s (key "left") || str_eqb s (key "Left") then PLeft else PRight
               | _ => PRight
               end in
    let num k := match fget k fs with JNum q => to_int q | _ => 0 end in
    let tok := match fget "pad_token" fs with JStr s => s | _ => key "[PAD]" end in
    Ok (Padding st dir (num "pad_id"%string) (num "pad_type_id"%string) tok).
  Definition create_padding : option conf -> res (option pad_params) := section pad_of.

  (** ** Added tokens: pretrained/added-tokens.go and /repo/config.go:21-29 *)
  Record token_config := TC {
    tc_id : Z; tc_content : str; tc_single : bool; tc_lstrip : bool; tc_rstrip : bool;
    tc_norm : bool; tc_special : bool }.

  Definition added_of (t : token_config) : added_token :=
    AT (tc_content t) (tc_single t) (tc_lstrip t) (tc_rstrip t) (tc_norm t).
  Definition create_added (l : list token_config) : list added_token * list added_token :=
    (map added_of (filter tc_special l), map added_of (filter (fun t => negb (tc_special t)) l)).

  (** /repo/config.go:9-19, decoded. *)
  Record config := Config {
    c_truncation : option conf; c_padding : option conf; c_added : list token_config;
    c_normalizer : option conf; c_pretokenizer : option conf; c_processor : option conf;
    c_decoder : option conf; c_model : option conf }.

  (** What FromReader puts into the tokenizer, and the calls it makes to fill the added
      vocabulary. *)
  Record loaded := Loaded {
    l_model : loaded_model; l_norm : option norm; l_pre : option pre_tokenizer;
    l_post : option processor; l_dec : option decoder;
    l_calls : list add_call;
    l_trunc : option trunc_params; l_pad : option pad_params }.

  (** tokenizer.go:67-73. *)
  Definition add_calls (l : list token_config) : list add_call :=
    let '(sp, toks) := create_added l in
    match sp with [] => [] | _ => [AddSpecial sp] end ++ match toks with [] => [] | _ => [AddTok toks] end.

  (** tokenizer.go:26-100.  A file holding just null leaves no configuration, and its first
      use panics. *)
  Definition from_reader (c : option config) : res loaded :=
    match c with
    | None => Panic
    | Some c =>
        do m <- create_model (c_model c) (c_decoder c);
        do n <- create_normalizer (c_normalizer c);
        do p <- create_pretokenizer (c_pretokenizer c);
        do po <- create_processor (c_processor c);
        do d <- create_decoder (c_decoder c);
        do t <- create_truncation (c_truncation c);
        do pa <- create_padding (c_padding c);
        Ok (Loaded m n p po d (add_calls (c_added c)) t pa)
    end.
End Load.
