(** C57, C58: which tokens an encoding consists of. *)
From Verif Require Import Base BaseProofs Utf8Model Utf8Proofs NormalizedModel NormalizedSpec EncodingModel BpeModel AddedVocabModel AddedVocabSpec AddedFindProofs
  PreTokenizedModel PreTokenizedSpec PreTokenizerModel WordPieceModel PipelineModel PipelineSpec PipelineProofs TokensSpec TokensProofs AddedPatternModel AddedPatternSpec AddedPatternProofs
  PropByteLevel PropPipeline PropAddedPattern.
Open Scope Z_scope.

(** * C57 *)

(** The encoding of a text consists of the tokens of its pieces, in order; the word number of
    a token is the number of its piece. *)
Theorem C57_raw : forall sort_start sort_id t ty ot s e, encode_sequence sort_start sort_id t ty ot (Raw s) = Ok e ->
  exists p p' toks, extract_and_normalize sort_start sort_id t s = Ok p /\
    match tk_pre t with None => p' = p | Some f => f p = Ok p' end /\
    Forall2 (tokens_from t) (pt_splits p') toks /\
    real_tokens e (concat toks) ty /\ words e = run_numbers 0 toks.
Proof. intros ss si. exact (raw_tokens ss si). Qed.
Print Assumptions C57_raw.

(** The encoding of a list of words consists of the encodings of the words, in order; the
    word number of a token is the number of its word. *)
Theorem C57_words : forall sort_start sort_id t ty ot l e, encode_sequence sort_start sort_id t ty ot (Words l) = Ok e ->
  exists es, Forall2 (fun w e' => encode_sequence sort_start sort_id t ty ot (Raw w) = Ok e') l es /\
    ids e = concat (map ids es) /\ tokens e = concat (map tokens es) /\ offsets e = concat (map offsets es) /\
    type_ids e = repeat ty (length (ids e)) /\ special e = concat (map special es) /\ attention e = concat (map attention es) /\
    words e = run_numbers 0 (map ids es) /\ overflowing e = [].
Proof. intros ss si. exact (words_tokens ss si). Qed.
Print Assumptions C57_words.
Theorem C57_words_total : forall sort_start sort_id t ty ot l,
  Forall (fun w => exists e, encode_sequence sort_start sort_id t ty ot (Raw w) = Ok e) l ->
  exists e, encode_sequence sort_start sort_id t ty ot (Words l) = Ok e.
Proof. intros ss si. exact (words_ok ss si). Qed.
Print Assumptions C57_words_total.

(** The encoding of a pair (without post-processor, truncation and padding) consists of the
    tokens of the first, with type id 0, and of the second, with type id 1. *)
Theorem C57_dual : forall sort_start sort_id t ot a b e add, tk_processor t = None -> tk_trunc t = None -> tk_padding t = None ->
  tk_encode sort_start sort_id t ot (IDual a b) add = Ok (Some e) ->
  exists ea eb, encode_sequence sort_start sort_id t 0 ot a = Ok ea /\ encode_sequence sort_start sort_id t 1 ot b = Ok eb /\
    ids e = ids ea ++ ids eb /\ tokens e = tokens ea ++ tokens eb /\ offsets e = offsets ea ++ offsets eb /\ words e = words ea ++ words eb /\
    type_ids e = repeat 0 (length (ids ea)) ++ repeat 1 (length (ids eb)) /\ overflowing e = [].
Proof. intros ss si. exact (dual_tokens ss si). Qed.
Print Assumptions C57_dual.

(** "ab c" cut at white space and looked up; "[M]" is an added token. *)
Definition mark : str := [91; 77; 93]%N.
Definition mark_set : matching := re_matching [(TRe false false mark false false, 7)].
Definition ex_words := wl_tokenize (WL [([85]%N, 0); ([97; 98]%N, 1); ([99]%N, 2)] [] [85]%N).
Definition ex57 pre : tokenizer := Tkz mark_set no_matching None pre (Some (always ex_words)) None None None.
Definition summary (r : res Encoding) : option (list Z * list Z * list Z) := match r with Ok e => Some (ids e, words e, type_ids e) | _ => None end.
Example C57_ex :
  summary (encode_sequence (isort start_key) (isort id_key) (ex57 (Some (pre_tokenize ex_uni PTBert))) 1 OByte (Raw ([97; 98; 32] ++ mark ++ [99; 32; 100])%N)) =
    Some ([1; 7; 2; 0], [0; 1; 2; 3], [1; 1; 1; 1]) /\
  summary (encode_sequence (isort start_key) (isort id_key) (ex57 (Some (pre_tokenize ex_uni PTBert))) 0 OByte (Words [[97; 98; 32; 99]; [99]; []; [97; 98]]%N)) =
    Some ([1; 2; 2; 1], [0; 0; 1; 3], [0; 0; 0; 0]) /\
  match tk_encode (isort start_key) (isort id_key) (ex57 None) OByte (IDual (Raw [97; 98]%N) (Words [[99]; [99]]%N)) false with
  | Ok (Some e) => ids e = [1; 2; 2] /\ words e = [0; 0; 1] /\ type_ids e = [0; 1; 1] | _ => False end.
Proof. vm_compute. repeat split. Qed.

(** * C58 *)

(** The added tokens found in a text, and those found in what the normalizer makes of the
    parts in between, are all in its encoding, in order, with their ids. *)
Theorem C58_found_partial : forall sort_start sort_id, sorts start_key sort_start -> sorts id_key sort_id ->
  forall t ty ot s e, matching_ok (tk_raw t) -> matching_ok (tk_normalized t) -> with_default normalizer_ok (tk_normalizer t) ->
  with_default keeps_added (tk_pre t) -> clean s -> s <> [] ->
  encode_sequence sort_start sort_id t ty ot (Raw s) = Ok e ->
  exists fs, Forall2 (found_in sort_start sort_id t) (cut_added sort_start sort_id (tk_raw t) s) fs /\
    subseq (concat fs) (combine (ids e) (tokens e)).
Proof. intros ss si HS HI. exact (added_kept ss si HS HI). Qed.
Print Assumptions C58_found_partial.

(** All pre-tokenizers but the byte-level one keep them. *)
Theorem C58_pre_tokenizers : forall u t, no_bytes t -> keeps_added (pre_tokenize u t).
Proof. exact no_bytes_keeps. Qed.
Print Assumptions C58_pre_tokenizers.

(** With the byte-level pre-tokenizer all tokens come from the model: the added tokens are
    dropped. *)
Theorem C58_byte_level : forall sort_start sort_id t u prefix ty ot s e, tk_pre t = Some (pre_tokenize u (PTByteLevel prefix)) ->
  encode_sequence sort_start sort_id t ty ot (Raw s) = Ok e ->
  exists f texts toks, tk_model t = f /\ Forall2 (fun w ts => exists m, f = Some m /\ m w = Ok (Some ts)) texts toks /\ ids e = map t_id (concat toks).
Proof. exact added_lost. Qed.
Print Assumptions C58_byte_level.
(** So a text that is one added token has an empty encoding, whatever the token, the model,
    the normalizer and the rest. *)
Theorem C58_refuted : forall sort_start sort_id, sorts start_key sort_start -> sorts id_key sort_id ->
  forall t u prefix ty ot s id, matching_ok (tk_raw t) -> clean s -> s <> [] ->
  tk_pre t = Some (pre_tokenize u (PTByteLevel prefix)) -> cut_added sort_start sort_id (tk_raw t) s = [(Some id, s)] ->
  exists e, encode_sequence sort_start sort_id t ty ot (Raw s) = Ok e /\ ids e = [].
Proof. intros ss si HS HI. exact (whole_token_lost ss si HS HI). Qed.
Print Assumptions C58_refuted.

Lemma mark_ok : matching_ok mark_set.
Proof.
  apply re_matching_ok. constructor; [|constructor]. split; [discriminate|]. exists [91; 77; 93]%N. split; [repeat constructor; unfold scalar; lia|reflexivity].
Qed.
Lemma mark_clean : clean mark.
Proof. exists [91; 77; 93]%N. repeat split; repeat constructor; unfold scalar; lia. Qed.
Example C58_ex :
  matching_ok (tk_raw (ex57 (Some (pre_tokenize ex_uni PTBert)))) /\ matching_ok (tk_normalized (ex57 (Some (pre_tokenize ex_uni PTBert)))) /\
  with_default keeps_added (tk_pre (ex57 (Some (pre_tokenize ex_uni PTBert)))) /\ clean mark /\
  cut_added (isort start_key) (isort id_key) mark_set ([97; 98; 32] ++ mark)%N = [(None, [97; 98; 32]%N); (Some 7, mark)] /\
  cut_added (isort start_key) (isort id_key) mark_set mark = [(Some 7, mark)] /\
  summary (encode_sequence (isort start_key) (isort id_key) (ex57 (Some (pre_tokenize u55 (PTByteLevel false)))) 0 OByte (Raw mark)) = Some ([], [], []) /\
  summary (encode_sequence (isort start_key) (isort id_key) (ex57 (Some (pre_tokenize u55 (PTByteLevel false)))) 0 OByte (Raw ([97; 98] ++ mark ++ [99])%N)) = Some ([1; 2], [0; 1], [0; 0]).
Proof.
  split; [exact mark_ok|]. split; [exact none_matching|]. split; [apply C58_pre_tokenizers; exact I|]. split; [exact mark_clean|]. repeat split; vm_compute; reflexivity.
Qed.
