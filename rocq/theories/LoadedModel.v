(** Model of the tokenizer that /repo/pretrained/tokenizer.go makes of a tokenizer.json file: the
    components that [ConfigModel.from_reader] reads, put together. *)
From Coq Require Import QArith.
From Verif Require Import Base Utf8Model PatternModel NormalizedModel EncodingModel BpeModel AddedVocabModel WordPieceModel UnigramModel DecoderModel PreTokenizedModel PreTokenizerModel ProcessorModel
  SpmModel BertNormModel UnicodeNormModel PipelineModel AddedPatternModel PretrainedModel ConfigModel.
Open Scope Z_scope.

Section Assemble.
  (** Package unicode: classes of characters for the pre-tokenizers; [is_word] as in
      /repo/added-vocabulary.go:175-180; [cc]: categories Cc and Cf; [mn]: category Mn; [sp]: IsSpace. *)
  Variable u : unicode.
  Variables is_word cc mn sp : N -> bool.
  (** strings.ToLower; golang.org/x/text/unicode/norm; the graphemes of uniseg. *)
  Variable lower : str -> str.
  Variable lib : norm_lib.
  Variable graphemes : str -> list str.
  (** float64, for the scores of Unigram: see UnigramModel.v; [of_q] is the value of a literal. *)
  Context {S : Type}.
  Variable of_q : Q -> S.
  Variable lt : S -> S -> bool.
  Variables bot zero : S.
  Variable plus : S -> S -> S.
  Variable bonus : nat -> S.
  Variable penal : S -> S.
  (** BPE with dropout chooses at random (/repo/model/bpe/word.go:257-400); its result is left open. *)
  Variable dropping : bpe -> Q -> str -> res (list token).

  (** The Normalize methods: /repo/normalizer/bert.go:192-210, strip.go:18-43, unicode.go:41-73,
      normalizer.go:59-65 with default.go:50-63, precompiled.go:48-103, replace.go:44-46, prepend.go:13-19,
      sequence.go:16-27.  [None] is the nil of NFKD and, for an empty text, of Prepend. *)
  Fixpoint run_norm (x : norm) (n : ns) : res (option ns) :=
    match x with
    | NBert clean lowercase chinese strip => do m <- bert_normalize cc mn lower (BN clean chinese strip lowercase) n; Ok (Some m)
    | NStrip l r => do m <- lrstrip sp l r n; Ok (Some m)
    | NStripAccents => do m <- remove_accents mn n; Ok (Some m)
    | NNfc => un_normalize lib NFC n
    | NNfd => un_normalize lib NFD n
    | NNfkc => un_normalize lib NFKC n
    | NNfkd => un_normalize lib NFKD n
    | NLowercase => do m <- default_normalize sp lower true false n; Ok (Some m)
    | NPrecompiled (text, arr) => do m <- precompiled_normalize mn graphemes arr text n; Ok (Some m)
    | NReplace p content => do m <- ns_replace p content n; Ok (Some m)
    | NPrepend s => match ns_norm n with [] => Ok None | _ => do m <- ns_prepend s n; Ok (Some m) end
    | NSeq l => norm_sequence (map run_norm l) n
    end.
  (** The normalizer of the tokenizer (tokenizer.go:37-43). *)
  Definition norm_fun (x : option norm) : option (ns -> res ns) := option_map (fun x => used (run_norm x)) x.

  (** The Tokenize methods (/repo/model.go): /repo/model/bpe/bpe.go:464-478, wordpiece/wordpiece.go:254-332,
      wordlevel/wordlevel.go:142-167, unigram/unigram.go:246-270. *)
  Definition scored (g : unigram (S := Q)) : unigram (S := S) :=
    UG (map (fun p => (fst p, of_q (snd p))) (ug_vocab g)) (ug_unk g) (ug_bytes g) (ug_fuse g).
  Definition run_model (m : loaded_model) (s : str) : res (option (list token)) :=
    do toks <- match m with
               | MBpe b None => bpe_tokenize b s
               | MBpe b (Some p) => dropping b p s
               | MWordPiece w => wp_tokenize w s
               | MWordLevel w => wl_tokenize w s
               | MUnigram g => ug_tokenize lt bot zero plus bonus penal (scored g) s
               end;
    Ok (Some toks).
  (** Their TokenToId, IdToToken and GetVocabSize. *)
  Definition lookups (m : loaded_model) : base_model :=
    match m with
    | MBpe b _ => vocab_model (b_vocab b) (b_vocab_r b)
    | MWordPiece w => vocab_model (wp_vocab w) (wp_vocab_r w)
    | MWordLevel w => vocab_model (wl_vocab w) (wl_vocab_r w)
    | MUnigram g => Base (ug_token_to_id g) (ug_id_to_token g) (zlen (ug_vocab g))
    end.

  (** A tokenizer with what decoding needs; the decoder may be missing. *)
  Record assembled := Assembled { as_tok : tokenizer; as_lookups : base_model; as_added : added_vocab; as_decoder : option decoder }.
  (** /repo/tokenizer.go:515-530; the decoders are made by their constructors (pretrained/decoder.go). *)
  Definition as_decode (a : assembled) (ids : list Z) (skip : bool) : res str :=
    decode_ids (as_lookups a) (as_added a) (option_map (decode ByNew) (as_decoder a)) ids skip.

  (** pretrained/tokenizer.go:28-100 with /repo/tokenizer.go:274-335: the normalizer is set before
      tokens are added (43, 67-73), so that patterns are made with it. *)
  Definition assemble (l : loaded) : res assembled :=
    let m := lookups (l_model l) in
    let n := norm_fun (l_norm l) in
    do av <- added_by m (l_calls l);
    do raw <- looked_for is_word n m av false;
    do nrm <- looked_for is_word n m av true;
    Ok (Assembled (Tkz raw nrm n (option_map (pre_tokenize u) (l_pre l)) (Some (run_model (l_model l))) (l_post l) (l_trunc l) (l_pad l)) m av (l_dec l)).
End Assemble.
