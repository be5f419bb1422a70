(** C82: a truncated text can be read back from its windows. *)
From Verif Require Import Base BaseProofs Utf8Model Utf8Proofs EncodingModel BpeModel AddedVocabModel AddedVocabSpec AddedFindProofs DecoderModel PreTokenizerModel PreTokenizerSpec ProcessorModel PipelineModel PipelineSpec TokensSpec PreTokenizedModel ReturnSpec
  PropByteLevel PropTokens PropPipeline RoundTripSpec PropRoundTrip WindowsSpec WindowTextSpec WindowTextProofs.
Open Scope Z_scope.

(** Whatever the tokenizer and the decoder: the ids shown of all parts, without what they share, decode
    to what the ids of the text encoded without truncation decode to. *)
Theorem C82_decode_partial : forall sort_start sort_id m av skip dec t ot x add max st stride before after e whole r,
  let name := shown m av skip in
  tk_trunc t = Some (Trunc max st stride) -> 0 <= stride -> pads_right (tk_padding t) ->
  single_frame add (tk_processor t) before after -> unshared (tk_padding t) [before; after] -> hidden_around name before after (tk_padding t) ->
  encode_sequence sort_start sort_id t 0 ot x = Ok e -> stride = 0 \/ Forall (fun i => name i <> None) (ids e) ->
  tk_encode sort_start sort_id t ot (ISingle x) add = Ok (Some r) ->
  tk_encode sort_start sort_id (untruncated t) ot (ISingle x) add = Ok (Some whole) ->
  decode_ids m av dec (reassembled name stride r) skip = decode_ids m av dec (ids whole) skip.
Proof. intros ss si m av skip dec t ot x add M st s B C e e' r name Ht Hs D F _. exact (windows_text ss si m av skip dec t ot x add M st s B C e e' r Ht Hs D F). Qed.
Print Assumptions C82_decode_partial.

(** Byte-level tokenizers: truncated encoding returns, and the parts decode to the text. *)
Theorem C82_byte_level_partial : forall sort_start sort_id, sorts start_key sort_start -> sorts id_key sort_id ->
  forall t u prefix m av skip mk ot x add max st stride before after,
  let name := shown m av skip in
  byte_level name u prefix t -> ending_returns t false add ->
  tk_trunc t = Some (Trunc max st stride) -> 0 <= stride ->
  single_frame add (tk_processor t) before after -> unshared (tk_padding t) [before; after] -> hidden_around name before after (tk_padding t) ->
  clean_input x -> ot <> OInvalid ->
  exists r, tk_encode sort_start sort_id t ot (ISingle x) add = Ok (Some r) /\
    decode_ids m av (Some (decode mk DByteLevel)) (reassembled name stride r) skip =
      Ok (concat (map (fun s => concat (map (spaced prefix) (plain_parts sort_start sort_id t s))) (input_texts x))).
Proof.
  intros ss si HS HI t u prefix m av skip mk ot x add M st s B C name By R Ht Hs F _. exact (bytes_windows ss si HS HI t u prefix m av skip mk ot x add M st s B C By R Ht Hs F).
Qed.
Print Assumptions C82_byte_level_partial.

(** "he é!!" in windows of three tokens that share one, with RoBERTa's tokens and padding. *)
Definition wt_tok (stride : Z) : tokenizer :=
  Tkz no_matching no_matching None (Some (pre_tokenize u55 (PTByteLevel false))) (Some (always (bpe_tokenize rt_bpe)))
    (Some (PRoberta (PTok [60; 115; 62]%N 257) (PTok [60; 115; 62]%N 257) true false)) (Some (Trunc 5 LongestFirst stride)) (Some (Padding (Fixed 6) PRight 258 0 [60; 112; 62]%N)).
Example C82_meets : forall stride, 0 <= stride -> byte_level (shown rt_model rt_added true) u55 false (wt_tok stride) /\ ending_returns (wt_tok stride) false true /\
  single_frame true (tk_processor (wt_tok stride)) ([257], [[60; 115; 62]%N]) ([257], [[60; 115; 62]%N]) /\
  unshared (tk_padding (wt_tok stride)) [([257], [[60; 115; 62]%N]); ([257], [[60; 115; 62]%N])] /\
  hidden_around (shown rt_model rt_added true) ([257], [[60; 115; 62]%N]) ([257], [[60; 115; 62]%N]) (tk_padding (wt_tok stride)).
Proof.
  intros stride Hs. destruct (rt_meets false no_matching none_matching) as (B & _). split; [exact B|]. split; [|split; [|split]].
  - split; [constructor|]. split; [split; [exact Hs|exact I]|reflexivity].
  - exact (SF_roberta true (PTok [60; 115; 62]%N 257) (PTok [60; 115; 62]%N 257) true false).
  - right. eexists. split; [left; reflexivity|discriminate].
  - split; [repeat constructor|]. intros d E. injection E as <-. reflexivity.
Qed.
Example C82_example : let t := wt_tok 1 in let s := [104; 101; 32; 195; 169; 33; 33]%N in
  match tk_encode (isort start_key) (isort id_key) t OByte (ISingle (Raw s)) true, tk_encode (isort start_key) (isort id_key) (untruncated t) OByte (ISingle (Raw s)) true with
  | Ok (Some r), Ok (Some w) => Some (map ids (r :: overflowing r), ids w, reassembled (shown rt_model rt_added true) 1 r, decode_ids rt_model rt_added (Some (decode ByNew DByteLevel)) (reassembled (shown rt_model rt_added true) 1 r) true)
  | _, _ => None end =
  Some ([[257; 256; 32; 195; 257; 258]; [257; 195; 169; 33; 257; 258]; [257; 33; 33; 257; 258; 258]], [257; 256; 32; 195; 169; 33; 33; 257], [256; 32; 195; 169; 33; 33], Ok s).
Proof. vm_compute. reflexivity. Qed.
