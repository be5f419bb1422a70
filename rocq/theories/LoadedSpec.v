(** What a tokenizer.json file has to say for the tokenizer loaded from it to decode what it encodes (C76). *)
From Coq Require Import String QArith.
From Verif Require Import Base Utf8Model EncodingModel BpeModel AddedVocabModel DecoderModel PreTokenizerModel PreTokenizerSpec ProcessorModel ConfigModel ConfigSpec ReturnSpec RoundTripSpec MetaspaceSpec.
Open Scope Z_scope.
Open Scope list_scope.

(** ** Ids of added tokens *)

(** The listed tokens in the order in which they are added: special ones first. *)
Definition listed (l : list token_config) : list str :=
  map tc_content (filter tc_special l) ++ map tc_content (filter (fun t => negb (tc_special t)) l).
(** Those which the model does not know, each once. *)
Fixpoint unknown (t2i : str -> option Z) (seen : list str) (l : list str) : list str :=
  match l with
  | [] => []
  | s :: l' => match t2i s with
               | Some _ => unknown t2i seen l'
               | None => if existsb (str_eqb s) seen then unknown t2i seen l' else s :: unknown t2i (s :: seen) l'
               end
  end.
Fixpoint position (s : str) (l : list str) : option nat :=
  match l with [] => None | x :: l' => if str_eqb s x then Some O else option_map S (position s l') end.
(** The id of a token: the model's, or the next ones after the model's. *)
Definition file_id (t2i : str -> option Z) (size : Z) (added : list token_config) (s : str) : option Z :=
  match t2i s with
  | Some i => Some i
  | None => option_map (fun k => size + Z.of_nat k) (position s (unknown t2i [] (listed added)))
  end.
(** The ids of the special tokens; all others have a name. *)
Definition special_ids (t2i : str -> option Z) (size : Z) (added : list token_config) : list Z :=
  flat_map (fun t => if tc_special t then match file_id t2i size added (tc_content t) with Some i => [i] | None => [] end else []) added.
Definition except (ids : list Z) (i : Z) : option str := if existsb (Z.eqb i) ids then None else Some [].

(** ** BPE files *)

(** Ids from 0 up, each used once. *)
Definition numbered (v : vocab) : Prop :=
  NoDup (map fst v) /\ NoDup (map snd v) /\ Forall (fun p => 0 <= snd p < zlen v) v.
(** A model section for BPE without prefix and dropout. *)
Definition bpe_section (fs : conf) (dec : option conf) (v : vocab) (ms : list (str * str)) (unk suffix : option str) : Prop :=
  model_is fs dec "BPE" /\ vocab_given fs v /\
  (exists js, states fs "merges" (JArr js) /\ Forall2 merge_json js ms) /\ Forall (in_vocab v) ms /\
  Forall (fun m => ~ In 32%N (fst m) /\ ~ In 32%N (snd m)) ms /\
  maybe JStr fs "unk_token" unk /\ omits fs "continuing_subword_prefix" /\ maybe JStr fs "end_of_word_suffix" suffix /\ omits fs "dropout".
(** What merging can make: characters and results of merges. *)
Definition can_make (ms : list (str * str)) (s : str) : Prop :=
  (exists c, s = encode_rune c) \/ exists x y, In (x, y) ms /\ s = x ++ y.

(** The tokens listed in the file: no special one can be made by merging. *)
Definition added_apart (ms : list (str * str)) (l : list token_config) : Prop :=
  Forall (fun t => tc_content t <> [] /\ valid_utf8 (tc_content t) /\ (tc_special t = true -> ~ can_make ms (tc_content t))) l.
(** None of them is written in a text. *)
Definition unwritten (l : list token_config) (s : str) : Prop := forall t a z, In t l -> s <> a ++ tc_content t ++ z.

(** A file for a byte-level tokenizer: vocabulary [v] with merges [ms], pre-tokenizer [pre], processor [po] and padding
    [pa]; no normalizer and no truncation. *)
Definition byte_level_file (lower : str -> str) (compile : str -> option (str -> list (Z * Z))) (quoted : str -> str -> list (Z * Z))
    (v : vocab) (ms : list (str * str)) (pre : pre_tokenizer) (po : option processor) (pa : option pad_params) (c : config) : Prop :=
  exists mo pt de unk suffix,
    c_model c = Some mo /\ c_pretokenizer c = Some pt /\ c_decoder c = Some de /\ c_normalizer c = None /\ c_truncation c = None /\
    bpe_section mo (Some de) v ms unk suffix /\
    intended_pre lower compile quoted false (JObj pt) pre /\
    intended_decoder lower compile quoted false (JObj de) DByteLevel /\
    intended_section intended_processor (c_processor c) po /\ intended_section intended_pad (c_padding c) pa /\
    numbered v /\ (forall k, (k < 256)%N -> vget (byte_char k) v <> None) /\ added_apart ms (c_added c).
(** A file for a tokenizer with the metaspace pre-tokenizer, with the same [mark] in pre-tokenizer
    and decoder; the decoder section meets [says]. *)
Definition metaspace_file (lower : str -> str) (compile : str -> option (str -> list (Z * Z))) (quoted : str -> str -> list (Z * Z))
    (says : conf -> Prop) (v : vocab) (ms : list (str * str)) (mark : N) (scheme : prepend_scheme) (po : option processor) (pa : option pad_params) (c : config) : Prop :=
  exists mo pt de unk suffix,
    c_model c = Some mo /\ c_pretokenizer c = Some pt /\ c_decoder c = Some de /\ c_normalizer c = None /\ c_truncation c = None /\
    bpe_section mo (Some de) v ms unk suffix /\
    intended_pre lower compile quoted false (JObj pt) (PTMetaspace (encode_rune mark) (find_chars (N.eqb mark)) scheme) /\ says de /\
    intended_section intended_processor (c_processor c) po /\ intended_section intended_pad (c_padding c) pa /\
    numbered v /\ scalar mark /\ mark <> 0%N /\ vget (encode_rune mark) v <> None /\
    added_apart ms (c_added c).
(** The decoder section agrees with the scheme: it tells whether the first mark is dropped... *)
Definition tells_prefix (lower : str -> str) (compile : str -> option (str -> list (Z * Z))) (quoted : str -> str -> list (Z * Z)) (mark : N) (drop : bool) (de : conf) : Prop :=
  intended_decoder lower compile quoted false (JObj de) (DMetaspace (encode_rune mark) drop).
(** ...or names the scheme only. *)
Definition tells_scheme (mark : N) (de : conf) : Prop :=
  states de "type" (JStr (key "Metaspace")) /\ states de "replacement" (JStr (encode_rune mark)) /\
  (exists s, states de "prepend_scheme" (JStr s)) /\ omits de "add_prefix_space".

(** Processor and padding return and add nothing but special tokens, padding at the end. *)
Definition ends_with (ids : list Z) (pair add : bool) (po : option processor) (pa : option pad_params) : Prop :=
  match po with Some p => returning_processor pair add p /\ hides (except ids) pair add p | None => True end /\
  match pa with Some d => pd_dir d = PRight /\ In (pd_id d) ids | None => True end.

(** Listed tokens that are special, not restricted to whole words, take no spaces and are looked for
    in the text as it was given. *)
Definition plain_special (t : token_config) : Prop :=
  tc_special t = true /\ tc_single t = false /\ tc_lstrip t = false /\ tc_rstrip t = false /\ tc_norm t = false.
(** The listed tokens with their ids. *)
Definition with_ids (t2i : str -> option Z) (size : Z) (ad : list token_config) (l : list (str * Z)) : Prop :=
  Forall2 (fun t x => fst x = tc_content t /\ file_id t2i size ad (tc_content t) = Some (snd x)) ad l.
