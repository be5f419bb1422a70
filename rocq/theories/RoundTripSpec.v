(** Vocabulary for the statement that decoding an encoded text gives the text (C72). *)
From Verif Require Import Base Utf8Model EncodingModel BpeModel AddedVocabModel DecoderModel PreTokenizerModel PreTokenizerSpec ProcessorModel PipelineModel PipelineSpec TokensSpec.
Open Scope Z_scope.

(** The token that decoding takes for an id: none if the id is unknown, or if special tokens are
    to be skipped and it is one. *)
Definition shown (m : base_model) (av : added_vocab) (skip : bool) (id : Z) : option str :=
  match av_id_to_token m av id with
  | Some t => if skip && is_special av t then None else Some t
  | None => None
  end.
Definition shown_all (m : base_model) (av : added_vocab) (skip : bool) (l : list Z) : list str :=
  flat_map (fun id => match shown m av skip id with Some t => [t] | None => [] end) l.

(** The model makes tokens of the word which, put together, are the word, and whose ids name
    them. *)
Definition spells (f : str -> res (option (list token))) (name : Z -> option str) (w : str) : Prop :=
  exists toks, f w = Ok (Some toks) /\ toks <> [] /\ concat (map t_value toks) = w /\
    Forall (fun t => name (t_id t) = Some (t_value t)) toks.

(** A BPE model whose tokens stand for their text: the two vocabularies are inverse and a merge
    makes the concatenation. *)
Definition literal (b : bpe) : Prop :=
  b_prefix b = None /\
  (forall s id, vget s (b_vocab b) = Some id -> vrget id (b_vocab_r b) = Some s) /\
  (forall c1 c2 rank new, lookup_merge (b_merges b) c1 c2 = Some (rank, new) ->
     exists x y, vrget c1 (b_vocab_r b) = Some x /\ vrget c2 (b_vocab_r b) = Some y /\ vget (x ++ y) (b_vocab b) = Some new).
(** The tokens it can make: characters and results of merges. *)
Definition makes (b : bpe) (s : str) : Prop :=
  (exists c, s = encode_rune c) \/
  exists c1 c2 rank new, lookup_merge (b_merges b) c1 c2 = Some (rank, new) /\ vget s (b_vocab b) = Some new.

(** The parts of a text that are no added tokens, when no normalizer is set. *)
Definition not_added (l : list (option Z * str)) : list str := flat_map (fun x => match fst x with Some _ => [] | None => [snd x] end) l.
Definition plain_parts (sort_start sort_id : list io_pair -> list io_pair) (t : tokenizer) (s : str) : list str :=
  match s with
  | [] => []
  | _ => flat_map (fun w => not_added (cut_added sort_start sort_id (tk_normalized t) w)) (not_added (cut_added sort_start sort_id (tk_raw t) s))
  end.

(** The texts of an input, in order. *)
Definition input_texts (x : input) : list str := match x with Raw s => [s] | Words l => l end.
Definition encode_texts (x : encode_input) : list str :=
  match x with ISingle a => input_texts a | IDual a b => input_texts a ++ input_texts b end.

(** A byte-level tokenizer: no normalizer, and a model that spells every word of rendered
    bytes. *)
Definition byte_level (name : Z -> option str) (u : unicode) (prefix : bool) (t : tokenizer) : Prop :=
  matching_ok (tk_raw t) /\ matching_ok (tk_normalized t) /\ tk_normalizer t = None /\
  tk_pre t = Some (pre_tokenize u (PTByteLevel prefix)) /\ (prefix = true -> un_letter u 32 = false /\ un_number u 32 = false) /\
  exists f, tk_model t = Some f /\ model_ok f /\ forall bs, bs <> [] -> Forall (fun b => (b < 256)%N) bs -> spells f name (bl_render bs).

(** The same with pre-tokenizers in front of the byte-level one, which cut the text. *)
Definition cut_byte_level (name : Z -> option str) (u : unicode) (front : list pre_tokenizer) (prefix : bool) (t : tokenizer) : Prop :=
  matching_ok (tk_raw t) /\ matching_ok (tk_normalized t) /\ tk_normalizer t = None /\
  tk_pre t = Some (pre_tokenize u (PTSequence (front ++ [PTByteLevel prefix]))) /\ (prefix = true -> un_letter u 32 = false /\ un_number u 32 = false) /\
  exists f, tk_model t = Some f /\ model_ok f /\ forall bs, bs <> [] -> Forall (fun b => (b < 256)%N) bs -> spells f name (bl_render bs).
(** Pre-tokenizers that cut the text and remove nothing. *)
Fixpoint removes_nothing (t : pre_tokenizer) : Prop :=
  match t with
  | PTPunctuation b => b <> NormalizedModel.Removed
  | PTDigits _ => True
  | PTSplit q b inverted => b <> NormalizedModel.Removed /\ finds_well (if inverted then PatternModel.PInvert q else q)
  | PTSequence ts => fold_right (fun t P => removes_nothing t /\ P) True ts
  | _ => False
  end.

(** ** Endings that add nothing visible *)

(** The sequences a template uses, in order. *)
Definition template_uses (tpl : list piece) : list bool := flat_map (fun p => match p with PSeq b _ => [b] | PSpecial _ _ => [] end) tpl.
(** The tokens a processor adds are hidden; each sequence is used once, in order.  Several
    processors: for single sequences only. *)
Fixpoint hides (name : Z -> option str) (pair add : bool) (p : processor) : Prop :=
  match p with
  | PBert cls sep | PRoberta cls sep _ _ => add = true -> name (pt_id cls) = None /\ name (pt_id sep) = None
  | PByteLevel _ _ => True
  | PTemplate single both toks =>
      template_uses (if pair then both else single) = (if pair then [false; true] else [false]) /\
      (add = true -> forall id l, aget str_eqb id toks = Some l -> Forall (fun i => name i = None) (fst l))
  | PSequence l => pair = false /\ fold_right (fun q P => hides name pair add q /\ P) True l
  end.
Definition ending_hides (name : Z -> option str) (t : tokenizer) (pair add : bool) : Prop :=
  with_default (hides name pair add) (tk_processor t) /\ tk_trunc t = None /\ with_default (fun d => name (pd_id d) = None) (tk_padding t).
