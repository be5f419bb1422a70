(** What it means that the ids and tokens of an encoding belong together (C80). *)
From Verif Require Import Base NormalizedSpec EncodingModel BpeModel WordPieceModel UnigramModel AddedVocabModel AddedVocabSpec PreTokenizedModel ProcessorModel DecoderModel PipelineModel ConfigModel LoadedModel.
Open Scope Z_scope.

(** An optional part. *)
Definition if_set {A} (P : A -> Prop) (o : option A) : Prop := forall x, o = Some x -> P x.

(** The ids and tokens of an encoding, and of its overflowing parts, are related one by one. *)
Inductive named (R : Z -> str -> Prop) : Encoding -> Prop :=
| Named : forall e, Forall2 R (ids e) (tokens e) -> Forall (named R) (overflowing e) -> named R e.

(** The same of the special tokens a post-processor adds, ... *)
Fixpoint specials_named (R : Z -> str -> Prop) (p : processor) : Prop :=
  match p with
  | PBert a b | PRoberta a b _ _ => R (pt_id a) (pt_value a) /\ R (pt_id b) (pt_value b)
  | PTemplate _ _ toks => forall k is ts, In (k, (is, ts)) toks -> Forall2 R is ts
  | PByteLevel _ _ => True
  | PSequence l => fold_right (fun q P => specials_named R q /\ P) True l
  end.
(** ... of the padding, ... *)
Definition padding_named (R : Z -> str -> Prop) (d : pad_params) : Prop := R (pd_id d) (pd_token d).
(** ... of the tokens of a model, ... *)
Definition model_named (R : Z -> str -> Prop) (f : str -> res (option (list token))) : Prop :=
  forall s toks, f s = Ok (Some toks) -> Forall (fun t => R (t_id t) (t_value t)) toks.
(** ... and of the added tokens found in a text: matches lie in the text, and what is matched
    belongs to the id of the pattern. *)
Definition found_named (R : Z -> str -> Prop) (m : matching) : Prop :=
  forall s k l a b, nth_error (mt_find m s) k = Some l -> In (a, b) l ->
    0 <= a /\ b <= zlen s /\ exists i, nth_error (mt_ids m) k = Some i /\ R i (part a b s).
(** A pre-tokenizer adds no tokens of its own. *)
Definition adds_no_tokens (f : pretok -> res pretok) : Prop :=
  forall p p', f p = Ok p' -> forall sp toks, In sp (pt_splits p') -> sp_toks sp = Some toks ->
    exists sp', In sp' (pt_splits p) /\ sp_toks sp' = Some toks.
(** All of it together. *)
Definition parts_named (R : Z -> str -> Prop) (t : tokenizer) : Prop :=
  found_named R (tk_raw t) /\ found_named R (tk_normalized t) /\ if_set adds_no_tokens (tk_pre t) /\
  if_set (model_named R) (tk_model t) /\ if_set (specials_named R) (tk_processor t) /\ if_set (padding_named R) (tk_padding t).


(** ** Loaded tokenizers *)

(** What an assembled tokenizer calls an id. *)
Definition named_by (a : assembled) (i : Z) (s : str) : Prop := av_id_to_token (as_lookups a) (as_added a) i = Some s.
(** The same, but a text that the model does not know may have its unknown id. *)
Definition unknown_id (m : loaded_model) : option Z :=
  match m with
  | MWordLevel w => vget (wl_unk w) (wl_vocab w)
  | MUnigram g => ug_unk g
  | _ => None
  end.
Definition named_or_unknown (m : loaded_model) (a : assembled) (i : Z) (s : str) : Prop :=
  named_by a i s \/ unknown_id m = Some i /\ bm_t2i (as_lookups a) s = None.

(** A vocabulary and its reverse: ids from 0 up, and the two belong together. *)
Definition two_way (v : vocab) (r : vocab_r) : Prop :=
  (forall t i, vget t v = Some i -> 0 <= i < zlen v) /\ forall t i, vget t v = Some i <-> vrget i r = Some t.
(** Models with such vocabularies; all merges and the unknown token of BPE are in it.  Nothing is said of
    BPE with dropout. *)
Definition whole_model (m : loaded_model) : Prop :=
  match m with
  | MBpe b None => two_way (b_vocab b) (b_vocab_r b) /\
      (forall k rank new, In (k, (rank, new)) (b_merges b) -> exists s, vget s (b_vocab b) = Some new) /\
      if_set (fun u => exists i, vget u (b_vocab b) = Some i) (b_unk b)
  | MBpe _ (Some _) => False
  | MWordPiece w => two_way (wp_vocab w) (wp_vocab_r w)
  | MWordLevel w => two_way (wl_vocab w) (wl_vocab_r w)
  | MUnigram g => NoDup (map fst (ug_vocab g))
  end.
Definition spells_unknown (m : loaded_model) : bool := match m with MWordLevel _ | MUnigram _ => true | _ => false end.
(** Added tokens that are looked for as they are written, without white space around them. *)
Definition as_written (n : option norm) (t : added_token) : Prop :=
  at_lstrip t = false /\ at_rstrip t = false /\ (at_single t = true -> n = None).
Definition all_as_written (l : loaded) : Prop := forall c t, In c (l_calls l) -> In t (call_tokens c) -> as_written (l_norm l) t.
(** What decoding makes of tokens: that of the decoder, or the tokens with spaces in between. *)
Definition decoded (d : option decoder) (toks : list str) : res str :=
  match d with Some d => decode ByNew d toks | None => Ok (join_sp toks) end.
