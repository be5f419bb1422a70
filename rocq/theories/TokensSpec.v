(** Which tokens an encoding consists of (C57, C58). *)
From Verif Require Import Base Utf8Model NormalizedModel NormalizedSpec EncodingModel BpeModel AddedVocabModel PreTokenizedModel PreTokenizedSpec
  PreTokenizerModel PipelineModel PipelineSpec.
Open Scope Z_scope.

(** The tokens of a piece: those of the added token it is, or else those the model makes of
    its text; at least one. *)
Definition tokens_from (t : tokenizer) (sp : split) (toks : list token) : Prop :=
  toks <> [] /\
  match sp_toks sp with
  | Some ts => toks = ts
  | None => exists f, tk_model t = Some f /\ f (sp_text sp) = Ok (Some toks)
  end.

(** [l] cut into runs: the elements of run number [i] are numbered [i]. *)
Fixpoint run_numbers {A} (i : Z) (ls : list (list A)) : list Z :=
  match ls with [] => [] | l :: ls' => repeat i (length l) ++ run_numbers (i + 1) ls' end.

(** An encoding of tokens that are all real: the lists other than the offsets. *)
Definition real_tokens (e : Encoding) (toks : list token) (ty : Z) : Prop :=
  ids e = map t_id toks /\ tokens e = map t_value toks /\ type_ids e = repeat ty (length toks) /\
  special e = repeat 0 (length toks) /\ attention e = repeat 1 (length toks) /\ overflowing e = [].

(** The parts in which the text is cut by the added tokens: the id of an added token, or
    nothing, and the part of the text. *)
Definition cut_added (sort_start sort_id : list io_pair -> list io_pair) (set : matching) (s : str) : list (option Z * str) :=
  map (fun x => (fst x, part (fst (snd x)) (snd (snd x)) s))
    (AddedVocabModel.find_matches sort_start sort_id (zlen s) (mt_ids set) (mt_find set s)).
(** The added tokens among them. *)
Definition added_found (l : list (option Z * str)) : list (Z * str) :=
  flat_map (fun x => match fst x with Some id => [(id, snd x)] | None => [] end) l.

(** The added tokens in a part of the text: the token it is, or those found in its
    normalized text. *)
Definition found_in (sort_start sort_id : list io_pair -> list io_pair) (t : tokenizer) (x : option Z * str) (found : list (Z * str)) : Prop :=
  match fst x with
  | Some id => found = [(id, snd x)]
  | None => exists n m, untouched n /\ ns_norm n = snd x /\ apply_normalizer (tk_normalizer t) n = Ok m /\
      found = match ns_norm m with [] => [] | _ => added_found (cut_added sort_start sort_id (tk_normalized t) (ns_norm m)) end
  end.

(** A pre-tokenizer that keeps the pieces that are added tokens. *)
Definition keeps_added (f : pretok -> res pretok) : Prop :=
  forall p p', f p = Ok p' -> subseq (filter has_toks (pt_splits p)) (filter has_toks (pt_splits p')).
(** All but the byte-level one. *)
Fixpoint no_bytes (t : pre_tokenizer) : Prop :=
  match t with
  | PTByteLevel _ => False
  | PTSequence ts => fold_right (fun t P => no_bytes t /\ P) True ts
  | _ => True
  end.
