(** Model of the encoding pipeline (/repo/tokenizer.go:390-512, 565-585 and
    /repo/added-vocabulary.go:472-526): added tokens, normalizer, pre-tokenizer, model and
    post-processing put together. *)
From Verif Require Import Base Utf8Model NormalizedModel EncodingModel BpeModel AddedVocabModel PreTokenizedModel ProcessorModel.
Open Scope Z_scope.

(** added-vocabulary.go:182-185 (matchingSet).  The ids of the patterns and, for a text, the
    matches of each pattern. *)
Record matching := Mset { mt_ids : list Z; mt_find : str -> list (list (Z * Z)) }.
Definition no_matching : matching := Mset [] (fun _ => []).

(** tokenizer.go:257-271 (Tokenizer), with the fields the pipeline reads.  A missing
    component is [None]. *)
Record tokenizer := Tkz {
  tk_raw : matching;                                      (* addedVocabulary.splitRe *)
  tk_normalized : matching;                               (* addedVocabulary.splitNormalizedRe *)
  tk_normalizer : option (ns -> res ns);
  tk_pre : option (pretok -> res pretok);
  tk_model : option (str -> res (option (list token)));
  tk_processor : option processor;
  tk_trunc : option trunc_params;
  tk_padding : option pad_params }.

Section Pipeline.
  (** sort.Sort of added-vocabulary.go:407-408. *)
  Variable sort_start sort_id : list io_pair -> list io_pair.

  (** added-vocabulary.go:472-495 (splitWithIndices).  A nil slice is dereferenced, here or
      when Split asks whether it is empty. *)
  Definition indexed_piece (n : ns) (p : option Z * (Z * Z)) : res split :=
    do m <- ns_slice n (Rng (fst (snd p)) (snd (snd p)) OnNormalized);
    match m with
    | None => Panic
    | Some m =>
        Ok (Spl m match fst p with
                  | None => None
                  | Some id => Some [Tok id (ns_norm m) (0, zlen (ns_norm m))]
                  end)
    end.
  Definition split_with_indices (set : matching) (n : ns) : res (list split) :=
    mapR (indexed_piece n) (find_matches sort_start sort_id (zlen (ns_norm n)) (mt_ids set) (mt_find set (ns_norm n))).

  (** added-vocabulary.go:503-526 (ExtractAndNormalize).  An error of the normalizer ends the
      process. *)
  Definition apply_normalizer (f : option (ns -> res ns)) (n : ns) : res ns :=
    match f with
    | None => Ok n
    | Some f => match f n with Err => Fatal | r => r end
    end.
  Definition extract_and_normalize (t : tokenizer) (s : str) : res pretok :=
    do p1 <- pt_split (fun _ n => split_with_indices (tk_raw t) n) (pt_new s);
    pt_split (fun _ n => do m <- apply_normalizer (tk_normalizer t) n; split_with_indices (tk_normalized t) m) p1.

  (** tokenizer.go:565-585 (doTokenize). *)
  Definition do_tokenize (t : tokenizer) (p : pretok) (typeId wordIdx : Z) (ot : offset_type) : res Encoding :=
    do p' <- pt_tokenize (fun n => match tk_model t with None => Err | Some f => f (ns_norm n) end) p;
    into_encoding p' typeId wordIdx ot.

  (** tokenizer.go:391-423. *)
  Definition encode_text (t : tokenizer) (typeId wordIdx : Z) (ot : offset_type) (s : str) : res Encoding :=
    do p <- extract_and_normalize t s;
    do p' <- match tk_pre t with None => Ok p | Some f => f p end;
    do_tokenize t p' typeId wordIdx ot.

  (** tokenizer.go:193-217 (InputSequence). *)
  Inductive input := Raw (s : str) | Words (l : list str).

  (** tokenizer.go:425-448 (EncodeSingleSequence). *)
  Fixpoint encode_words (t : tokenizer) (typeId : Z) (ot : offset_type) (i : Z) (l : list str) : res (list Encoding) :=
    match l with
    | [] => Ok []
    | s :: l' =>
        do e <- encode_text t typeId i ot s;
        do rest <- encode_words t typeId ot (i + 1) l';
        Ok (e :: rest)
    end.
  Definition encode_sequence (t : tokenizer) (typeId : Z) (ot : offset_type) (x : input) : res Encoding :=
    do l <- match x with
            | Words l => encode_words t typeId ot 0 l
            | Raw s => do e <- encode_text t typeId (-1) ot s; Ok [e]
            end;
    merge default_encoding l false.

  (** tokenizer.go:451-512 (Encode and EncodeCharOffsets). *)
  Inductive encode_input := ISingle (a : input) | IDual (a b : input).
  Definition tk_encode (t : tokenizer) (ot : offset_type) (x : encode_input) (add : bool) : res (option Encoding) :=
    match x with
    | ISingle a =>
        do e <- encode_sequence t 0 ot a;
        post_process (tk_processor t) (tk_trunc t) (tk_padding t) e None add
    | IDual a b =>
        do e <- encode_sequence t 0 ot a;
        do p <- encode_sequence t 1 ot b;
        post_process (tk_processor t) (tk_trunc t) (tk_padding t) e (Some p) add
    end.
End Pipeline.
