(** What the sections of a tokenizer.json file ask for, independently of how the loader reads
    them.  Each relation says which component, with which settings, a section describes. *)
From Coq Require Import String QArith.
From Verif Require Import Base BpeModel PatternModel EncodingModel NormalizedModel WordPieceModel UnigramModel.
From Verif Require Import AddedVocabModel DecoderModel PreTokenizerModel ProcessorModel SpmModel ConfigModel.
Open Scope Z_scope.
Open Scope list_scope.

(** An object has each key once. *)
Definition distinct (fs : conf) : Prop := NoDup (map fst fs).

Definition states (fs : conf) (k : string) (v : json) : Prop := distinct fs /\ In (key k, v) fs.
Definition omits (fs : conf) (k : string) : Prop := distinct fs /\ forall v, In (key k, v) fs -> v = JNull.

Definition jint (z : Z) : json := JNum (z # 1).

(** The member is given with value [x], or it is left out (or null) and [x] is the default. *)
Definition given {A} (inj : A -> json) (fs : conf) (k : string) (d x : A) : Prop :=
  states fs k (inj x) \/ omits fs k /\ x = d.
Definition maybe {A} (inj : A -> json) (fs : conf) (k : string) (o : option A) : Prop :=
  match o with Some x => states fs k (inj x) | None => omits fs k end.

(** ** Models *)

Definition vocab_given (fs : conf) (v : vocab) : Prop :=
  states fs "vocab" (JObj (map (fun p => (fst p, jint (snd p))) v)) /\ NoDup (map fst v).

(** A merge is written "x y", or as the array of its two parts. *)
Inductive merge_json : json -> str * str -> Prop :=
| MJ_line : forall x y, ~ In 32%N x -> ~ In 32%N y -> merge_json (JStr (x ++ [32%N] ++ y)) (x, y)
| MJ_pair : forall x y, merge_json (JArr [JStr x; JStr y]) (x, y).

(** The merge table of a list of merges over a vocabulary: the pair of ids gets the position of
    its last mention as rank, and the id of the joined token. *)
Definition merge_at (v : vocab) (l : list (str * str)) (i : nat) (a b new : Z) : Prop :=
  exists x y, nth_error l i = Some (x, y) /\ vget x v = Some a /\ vget y v = Some b /\ vget (x ++ y) v = Some new.
Definition table_of (v : vocab) (l : list (str * str)) (t : merge_table) : Prop :=
  forall a b r new, aget pair_eqb (a, b) t = Some (r, new) <->
    exists i, r = Z.of_nat i /\ merge_at v l i a b new
              /\ forall j new', (i < j)%nat -> ~ merge_at v l j a b new'.
Definition in_vocab (v : vocab) (m : str * str) : Prop :=
  vget (fst m) v <> None /\ vget (snd m) v <> None /\ vget (fst m ++ snd m) v <> None.

(** The type of the model: stated, or told by the type of the decoder, or BPE. *)
Inductive model_is (fs : conf) (dec : option conf) : string -> Prop :=
| MI_stated : forall t, states fs "type" (JStr (key t)) -> model_is fs dec t
| MI_decoder : forall d t, omits fs "type" -> dec = Some d -> states d "type" (JStr (key t)) ->
    In t ["WordPiece"; "WordLevel"; "Unigram"]%string -> model_is fs dec t
| MI_bpe_decoder : forall d t, omits fs "type" -> dec = Some d -> states d "type" (JStr t) ->
    ~ In t (map key ["WordPiece"; "WordLevel"; "Unigram"]%string) -> model_is fs dec "BPE"
| MI_bpe_no_type : forall d, omits fs "type" -> dec = Some d -> omits d "type" -> model_is fs dec "BPE"
| MI_bpe_no_decoder : omits fs "type" -> dec = None -> model_is fs dec "BPE".

Section Intended.
  Variable to32 : Q -> Q.
  Variable lower : str -> str.
  Variable base64 : str -> res str.
  Variable compile : str -> option (str -> list (Z * Z)).
  Variable quoted : str -> str -> list (Z * Z).
  (** [true]: everything a file can ask for; [false]: without the settings which the loader
      is shown to get wrong. *)
  Variable all : bool.

  (** The reverse vocabulary is not a setting and stays open. *)
  Inductive intended_model (fs : conf) (dec : option conf) : loaded_model -> Prop :=
  | IM_bpe : forall v vr ms t unk prefix suffix (dropout : option Q) js,
      model_is fs dec "BPE" -> vocab_given fs v ->
      states fs "merges" (JArr js) -> Forall2 merge_json js ms -> Forall (in_vocab v) ms -> table_of v ms t ->
      (all = false -> Forall (fun m => ~ In 32%N (fst m) /\ ~ In 32%N (snd m)) ms) ->
      maybe JStr fs "unk_token" unk -> maybe JStr fs "continuing_subword_prefix" prefix ->
      maybe JStr fs "end_of_word_suffix" suffix -> maybe JNum fs "dropout" dropout ->
      (forall p, dropout = Some p -> 0 < to32 p <= 1)%Q ->
      intended_model fs dec (MBpe (Bpe v vr t unk prefix suffix) (option_map to32 dropout))
  | IM_wordpiece : forall v vr unk prefix max,
      model_is fs dec "WordPiece" -> vocab_given fs v ->
      given JStr fs "unk_token" (key "[UNK]") unk ->
      given JStr fs "continuing_subword_prefix" (key "##") prefix ->
      (all = false -> prefix = key "##") ->
      given jint fs "max_input_chars_per_word" 100 max ->
      intended_model fs dec (MWordPiece (WP v vr unk prefix max))
  | IM_wordlevel : forall v vr unk,
      model_is fs dec "WordLevel" -> vocab_given fs v ->
      given JStr fs "unk_token" (key "<unk>") unk -> unk <> [] ->
      intended_model fs dec (MWordLevel (WL v vr unk))
  | IM_unigram : forall voc unk bytes fuse,
      model_is fs dec "Unigram" ->
      states fs "vocab" (JArr (map (fun p => JArr [JStr (fst p); JNum (snd p)]) voc)) ->
      maybe jint fs "unk_id" unk -> (forall u, unk = Some u -> u < zlen voc) ->
      given JBool fs "byte_fallback" false bytes -> given JBool fs "fuse_unk" true fuse ->
      intended_model fs dec (MUnigram (UG voc unk bytes fuse)).

  (** The pattern of a Replace or Split section. *)
  Inductive pattern_given (fs : conf) : bool -> pattern -> Prop :=
  | PG_string : forall pfs s, states fs "pattern" (JObj pfs) -> states pfs "String" (JStr s) -> omits pfs "Regex" ->
      pattern_given fs false (PString s (quoted s))
  | PG_regex : forall pfs s find, states fs "pattern" (JObj pfs) -> states pfs "Regex" (JStr s) ->
      ~ In (key "String") (map fst pfs) -> compile s = Some find ->
      pattern_given fs true (PRegexp find).

  (** ** Normalizers *)
  Inductive intended_norm : json -> norm -> Prop :=
  | IN_bert : forall fs clean lowercase chinese strip,
      states fs "type" (JStr (key "BertNormalizer")) ->
      given JBool fs "clean_text" false clean -> given JBool fs "handle_chinese_chars" false chinese ->
      given JBool fs "strip_accents" false strip -> given JBool fs "lowercase" false lowercase ->
      intended_norm (JObj fs) (NBert clean lowercase chinese strip)
  | IN_strip : forall fs t l r, In t ["Strip"; "StripNormalizer"]%string ->
      states fs "type" (JStr (key t)) ->
      given JBool fs "strip_left" false l -> given JBool fs "strip_right" false r ->
      intended_norm (JObj fs) (NStrip l r)
  | IN_plain : forall fs t n,
      In (t, n) [("StripAccents", NStripAccents); ("NFC", NNfc); ("NFD", NNfd); ("NFKC", NNfkc);
                 ("NFKD", NNfkd); ("Lowercase", NLowercase)]%string ->
      states fs "type" (JStr (key t)) -> intended_norm (JObj fs) n
  | IN_precompiled : forall fs s data m, states fs "type" (JStr (key "Precompiled")) ->
      states fs "precompiled_charsmap" (JStr s) -> base64 s = Ok data -> parse data = Ok m ->
      intended_norm (JObj fs) (NPrecompiled m)
  | IN_replace : forall fs regex p content, states fs "type" (JStr (key "Replace")) ->
      pattern_given fs regex p -> (all = false -> regex = false) ->
      states fs "content" (JStr content) ->
      intended_norm (JObj fs) (NReplace p content)
  | IN_prepend : forall fs s, states fs "type" (JStr (key "Prepend")) ->
      given JStr fs "prepend" [] s -> intended_norm (JObj fs) (NPrepend s)
  | IN_sequence : forall fs js ns, states fs "type" (JStr (key "Sequence")) ->
      states fs "normalizers" (JArr js) -> Forall2 intended_norm js ns ->
      intended_norm (JObj fs) (NSeq ns).

  (** ** Pre-tokenizers *)
  Definition behaviors : list (string * behavior) :=
    [("Removed", Removed); ("Isolated", Isolated); ("MergedWithPrevious", MergedWithPrevious);
     ("MergedWithNext", MergedWithNext); ("Contiguous", Contiguous)]%string.
  Definition schemes : list (string * prepend_scheme) :=
    [("always", Always); ("first", First); ("never", Never)]%string.

  Inductive intended_pre : json -> pre_tokenizer -> Prop :=
  | IP_plain : forall fs t p,
      In (t, p) [("BertPreTokenizer", PTBert); ("Whitespace", PTWhitespace);
                 ("WhitespaceSplit", PTWhitespaceSplit); ("UnicodeScripts", PTScript)]%string ->
      states fs "type" (JStr (key t)) -> intended_pre (JObj fs) p
  | IP_bytelevel : forall fs prefix trim, states fs "type" (JStr (key "ByteLevel")) ->
      given JBool fs "add_prefix_space" false prefix -> given JBool fs "trim_offsets" false trim ->
      intended_pre (JObj fs) (PTByteLevel prefix)
  | IP_delimiter : forall fs r rest, states fs "type" (JStr (key "Delimiter")) ->
      states fs "delimiter" (JStr (Utf8Model.encode (r :: rest))) -> Forall Utf8Model.scalar (r :: rest) ->
      intended_pre (JObj fs) (PTDelimiter r)
  | IP_metaspace_scheme : forall fs rep find s t scheme, states fs "type" (JStr (key "Metaspace")) ->
      given JStr fs "replacement" [] rep -> compile rep = Some find ->
      states fs "prepend_scheme" (JStr s) -> lower s = key t -> In (t, scheme) schemes ->
      intended_pre (JObj fs) (PTMetaspace rep find scheme)
  | IP_metaspace_prefix : forall fs rep find prefix, states fs "type" (JStr (key "Metaspace")) ->
      given JStr fs "replacement" [] rep -> compile rep = Some find ->
      omits fs "prepend_scheme" -> given JBool fs "add_prefix_space" false prefix ->
      intended_pre (JObj fs) (PTMetaspace rep find (if prefix then Always else Never))
  | IP_punctuation : forall fs t b, states fs "type" (JStr (key "Punctuation")) ->
      states fs "behavior" (JStr (key t)) -> In (t, b) behaviors ->
      intended_pre (JObj fs) (PTPunctuation b)
  | IP_digits : forall fs b, states fs "type" (JStr (key "Digits")) ->
      states fs "individual_digits" (JBool b) -> intended_pre (JObj fs) (PTDigits b)
  | IP_split : forall fs regex p t b inv, states fs "type" (JStr (key "Split")) ->
      pattern_given fs regex p -> (all = false -> regex = true) ->
      states fs "behavior" (JStr (key t)) -> In (t, b) behaviors -> states fs "invert" (JBool inv) ->
      intended_pre (JObj fs) (PTSplit p b inv)
  | IP_sequence : forall fs js ps, states fs "type" (JStr (key "Sequence")) ->
      states fs "pretokenizers" (JArr js) -> Forall2 intended_pre js ps ->
      intended_pre (JObj fs) (PTSequence ps).

  (** ** Decoders *)
  Inductive intended_decoder : json -> decoder -> Prop :=
  | ID_bpe : forall fs s, states fs "type" (JStr (key "BPE")) -> states fs "suffix" (JStr s) ->
      intended_decoder (JObj fs) (DBpe s)
  | ID_plain : forall fs t d, In (t, d) [("Fuse", DFuse); ("ByteFallback", DByteFallback)]%string ->
      states fs "type" (JStr (key t)) -> intended_decoder (JObj fs) d
  | ID_bytelevel : forall fs prefix trim, states fs "type" (JStr (key "ByteLevel")) ->
      given JBool fs "add_prefix_space" false prefix -> given JBool fs "trim_offsets" false trim ->
      intended_decoder (JObj fs) DByteLevel
  | ID_wordpiece : forall fs p c, states fs "type" (JStr (key "WordPiece")) ->
      states fs "prefix" (JStr p) -> states fs "cleanup" (JBool c) -> intended_decoder (JObj fs) (DWordPiece p c)
  | ID_metaspace : forall fs rep prefix, states fs "type" (JStr (key "Metaspace")) ->
      given JStr fs "replacement" [] rep -> omits fs "prepend_scheme" ->
      given JBool fs "add_prefix_space" false prefix -> intended_decoder (JObj fs) (DMetaspace rep prefix)
  (** With a scheme, the decoder drops the first replacement unless none was prepended. *)
  | ID_metaspace_scheme : forall fs rep s t scheme, all = true -> states fs "type" (JStr (key "Metaspace")) ->
      given JStr fs "replacement" [] rep -> states fs "prepend_scheme" (JStr s) ->
      lower s = key t -> In (t, scheme) schemes ->
      intended_decoder (JObj fs) (DMetaspace rep (match scheme with Never => false | _ => true end))
  | ID_ctc : forall fs pad delim c, states fs "type" (JStr (key "CTC")) ->
      states fs "pad_token" (JStr pad) -> states fs "word_delimiter" (JStr delim) -> states fs "cleanup" (JBool c) ->
      intended_decoder (JObj fs) (DCtc pad delim c)
  | ID_replace : forall fs regex p content, states fs "type" (JStr (key "Replace")) ->
      pattern_given fs regex p -> (all = false -> regex = false) ->
      states fs "content" (JStr content) -> intended_decoder (JObj fs) (DReplace p content)
  | ID_strip : forall fs content start stop, states fs "type" (JStr (key "Strip")) ->
      states fs "content" (JStr content) -> states fs "start" (jint start) -> states fs "stop" (jint stop) ->
      intended_decoder (JObj fs) (DStrip content start stop)
  | ID_sequence : forall fs js ds, states fs "type" (JStr (key "Sequence")) ->
      states fs "decoders" (JArr js) -> Forall2 intended_decoder js ds ->
      intended_decoder (JObj fs) (DSequence ds).
End Intended.

(** ** Post-processors *)
Definition token_given (fs : conf) (k : string) (t : post_token) : Prop :=
  states fs k (JArr [JStr (pt_value t); jint (pt_id t)]).

Inductive piece_json : json -> piece -> Prop :=
| PJ_first : forall fs item ty, states fs "Sequence" (JObj item) -> omits fs "SpecialToken" ->
    states item "id" (JStr (key "A")) -> states item "type_id" (jint ty) -> piece_json (JObj fs) (PSeq false ty)
| PJ_second : forall fs item ty, states fs "Sequence" (JObj item) -> omits fs "SpecialToken" ->
    states item "id" (JStr (key "B")) -> states item "type_id" (jint ty) -> piece_json (JObj fs) (PSeq true ty)
| PJ_special : forall fs item id ty, states fs "SpecialToken" (JObj item) -> omits fs "Sequence" ->
    states item "id" (JStr id) -> states item "type_id" (jint ty) -> piece_json (JObj fs) (PSpecial id ty).

(** A template; an absent one is empty. *)
Definition template_given (fs : conf) (k : string) (tpl : list piece) : Prop :=
  (exists js, states fs k (JArr js) /\ Forall2 piece_json js tpl) \/ omits fs k /\ tpl = [].

Definition special_json (m : str * json) (t : str * (list Z * list str)) : Prop :=
  exists d, snd m = JObj d /\ states d "id" (JStr (fst t))
    /\ states d "ids" (JArr (map jint (fst (snd t)))) /\ states d "tokens" (JArr (map JStr (snd (snd t)))).
Definition specials_given (fs : conf) (ts : special_tokens) : Prop :=
  exists m, states fs "special_tokens" (JObj m) /\ Forall2 special_json m ts /\ NoDup (map fst ts).

Inductive intended_processor : json -> processor -> Prop :=
| IR_roberta : forall fs cls sep trim prefix, states fs "type" (JStr (key "RobertaProcessing")) ->
    token_given fs "sep" sep -> token_given fs "cls" cls ->
    states fs "trim_offsets" (JBool trim) -> states fs "add_prefix_space" (JBool prefix) ->
    intended_processor (JObj fs) (PRoberta cls sep trim prefix)
| IR_bert : forall fs cls sep, states fs "type" (JStr (key "BertProcessing")) ->
    token_given fs "sep" sep -> token_given fs "cls" cls -> intended_processor (JObj fs) (PBert cls sep)
| IR_bytelevel : forall fs prefix trim, states fs "type" (JStr (key "ByteLevel")) ->
    given JBool fs "add_prefix_space" false prefix -> given JBool fs "trim_offsets" false trim ->
    intended_processor (JObj fs) (PByteLevel prefix trim)
| IR_template : forall fs single both ts, states fs "type" (JStr (key "TemplateProcessing")) ->
    template_given fs "single" single -> template_given fs "pair" both -> specials_given fs ts ->
    intended_processor (JObj fs) (PTemplate single both ts)
| IR_sequence : forall fs js ps, states fs "type" (JStr (key "Sequence")) ->
    states fs "processors" (JArr js) -> Forall2 intended_processor js ps ->
    intended_processor (JObj fs) (PSequence ps).

(** ** Truncation and padding *)
Definition strategies : list (string * trunc_strategy) :=
  [("LongestFirst", LongestFirst); ("OnlyFirst", OnlyFirst); ("OnlySecond", OnlySecond)]%string.
Inductive intended_trunc : json -> trunc_params -> Prop :=
| IT : forall fs max stride t st, states fs "max_length" (jint max) -> states fs "stride" (jint stride) ->
    states fs "strategy" (JStr (key t)) -> In (t, st) strategies ->
    intended_trunc (JObj fs) (Trunc max st stride).

Inductive pad_strategy_given (fs : conf) : pad_strategy -> Prop :=
| PS_longest : states fs "strategy" (JStr (key "BatchLongest")) -> pad_strategy_given fs BatchLongest
| PS_fixed : forall n, states fs "strategy" (JObj [(key "Fixed", jint n)]) -> pad_strategy_given fs (Fixed n)
| PS_size : forall n, states fs "strategy" (JStr (key "Fixed")) -> given jint fs "size" 512 n ->
    pad_strategy_given fs (Fixed n).
Inductive pad_direction_given (fs : conf) : direction -> Prop :=
| DR_left : forall t, In t ["left"; "Left"]%string -> states fs "direction" (JStr (key t)) -> pad_direction_given fs PLeft
| DR_right : forall t, In t ["right"; "Right"]%string -> states fs "direction" (JStr (key t)) -> pad_direction_given fs PRight
| DR_none : omits fs "direction" -> pad_direction_given fs PRight.
Inductive intended_pad : json -> pad_params -> Prop :=
| IA : forall fs st dir id ty tok, pad_strategy_given fs st -> pad_direction_given fs dir ->
    given jint fs "pad_id" 0 id -> given jint fs "pad_type_id" 0 ty -> given JStr fs "pad_token" (key "[PAD]") tok ->
    intended_pad (JObj fs) (Padding st dir id ty tok).

(** ** Whole files *)
Inductive intended_section {A} (R : json -> A -> Prop) : option conf -> option A -> Prop :=
| IS_none : intended_section R None None
| IS_some : forall fs x, R (JObj fs) x -> intended_section R (Some fs) (Some x).

(** Two merge tables with the same entries, two models with the same settings. *)
Definition same_model (m1 m2 : loaded_model) : Prop :=
  match m1, m2 with
  | MBpe b1 d1, MBpe b2 d2 =>
      b_vocab b1 = b_vocab b2 /\ (forall k, aget pair_eqb k (b_merges b1) = aget pair_eqb k (b_merges b2))
      /\ b_unk b1 = b_unk b2 /\ b_prefix b1 = b_prefix b2 /\ b_suffix b1 = b_suffix b2 /\ d1 = d2
  | MWordPiece w1, MWordPiece w2 =>
      wp_vocab w1 = wp_vocab w2 /\ wp_unk w1 = wp_unk w2 /\ wp_prefix w1 = wp_prefix w2 /\ wp_max w1 = wp_max w2
  | MWordLevel w1, MWordLevel w2 => wl_vocab w1 = wl_vocab w2 /\ wl_unk w1 = wl_unk w2
  | MUnigram u1, MUnigram u2 => u1 = u2
  | _, _ => False
  end.

(** The tokens listed in the file, special ones first, each with its own flags. *)
Definition token_asked (c : token_config) (t : added_token) : Prop :=
  at_content t = tc_content c /\ at_single t = tc_single c /\ at_lstrip t = tc_lstrip c
  /\ at_rstrip t = tc_rstrip c /\ at_norm t = tc_norm c.
