(** Vocabulary for the statements about the encoding pipeline. *)
From Verif Require Import Base Utf8Model PatternModel PatternSpec NormalizedModel NormalizedSpec EncodingModel BpeModel AddedVocabModel AddedVocabSpec
  PreTokenizedModel PreTokenizedSpec PreTokenizerModel ProcessorModel PipelineModel.
Open Scope Z_scope.

(** Valid UTF-8 without NUL characters. *)
Definition clean (s : str) : Prop := exists rs, Forall scalar rs /\ Forall (fun c => c <> 0%N) rs /\ s = encode rs.

(** Where each byte of a piece comes from in the whole text. *)
Definition sources (n : ns) : list (Z * Z) :=
  map (fun p => (ns_shift n + fst p, ns_shift n + snd p)) (ns_al n).

(** A piece that lies in the text [orig]. *)
Definition in_place (orig : str) (n : ns) : Prop :=
  wf n /\ ordered (ns_al n) /\ clean (ns_norm n) /\
  0 <= ns_shift n /\ ns_shift n + zlen (ns_orig n) <= zlen orig.

(** Tokens of a text: non-empty ranges of it, in order. *)
Definition tokens_of (s : str) (toks : list token) : Prop :=
  Forall (fun t => 0 <= fst (t_off t) /\ fst (t_off t) < snd (t_off t) /\ snd (t_off t) <= zlen s) toks /\
  ordered (map t_off toks).

(** Non-empty pieces that lie in the text in their order, with tokens in order. *)
Definition all_sources (l : list split) : list (Z * Z) := flat_map (fun sp => sources (sp_ns sp)) l.
Definition laid (p : pretok) : Prop :=
  Forall (fun sp => in_place (pt_orig p) (sp_ns sp) /\ tokens_of (sp_text sp) (toks_in sp) /\ sp_text sp <> []) (pt_splits p) /\
  ordered (all_sources (pt_splits p)).

(** ** What the pipeline expects of its components *)

(** The patterns of added tokens: non-empty, disjoint matches between characters. *)
Definition matching_ok (set : matching) : Prop :=
  forall s, valid_utf8 s -> matches_ok (zlen s) (mt_find set s) /\
    Forall (Forall (fun r => boundary s (fst r) /\ boundary s (snd r))) (mt_find set s).
(** A piece of the text as it was given: each character comes from itself. *)
Definition untouched (n : ns) : Prop :=
  exists rs, Forall scalar rs /\ ns_orig n = encode rs /\ ns_norm n = encode rs /\
    ns_al n = aligns_from rs 0 /\ ns_ao_values n = aligns_from rs 0.
(** A normalizer changes the text of a piece and keeps its alignments right. *)
Definition normalizer_ok (f : ns -> res ns) : Prop :=
  forall orig n m, in_place orig n -> untouched n -> f n = Ok m ->
    in_place orig m /\ ns_orig m = ns_orig n /\ ns_shift m = ns_shift n.
(** A pre-tokenizer keeps the pieces in order. *)
Definition pre_ok (f : pretok -> res pretok) : Prop :=
  forall p p', laid p -> f p = Ok p' -> laid p' /\ pt_orig p' = pt_orig p.
(** The same when it is only given text that no normalizer has changed. *)
Definition pre_fresh_ok (f : pretok -> res pretok) : Prop :=
  forall p p', laid p -> Forall (fun sp => untouched (sp_ns sp)) (pt_splits p) -> f p = Ok p' ->
    laid p' /\ pt_orig p' = pt_orig p.
(** A model makes tokens of the text. *)
Definition model_ok (f : str -> res (option (list token))) : Prop :=
  forall s toks, clean s -> s <> [] -> f s = Ok (Some toks) -> tokens_of s toks.
Definition with_default {A} (P : A -> Prop) (o : option A) : Prop := match o with None => True | Some a => P a end.
Definition components_ok (t : tokenizer) : Prop :=
  matching_ok (tk_raw t) /\ matching_ok (tk_normalized t) /\ with_default normalizer_ok (tk_normalizer t) /\
  (with_default pre_ok (tk_pre t) \/ tk_normalizer t = None /\ with_default pre_fresh_ok (tk_pre t)) /\
  with_default model_ok (tk_model t).

(** ** Normalizers that meet the contract *)

(** Non-empty matches between characters in every valid text. *)
Definition finds_well (p : pattern) : Prop :=
  well_behaved p /\ supported p /\ forall s, valid_utf8 s -> between_chars s p.
(** No more segments than characters, and no NUL in them. *)
Definition segments_ok (segs : str -> list (list N)) : Prop :=
  forall s, clean s -> zlen (segs s) <= zlen (runes s) /\ Forall (fun g => clean (encode g)) (segs s).
(** Changes that may be made at any time... *)
Definition local_change (o : op) : Prop :=
  match o with
  | OPrepend s | OAppend s => clean s
  | OReplace p content => finds_well p /\ PatternModel.find_matches p [] = Ok [((0, 0), false)] /\ clean content
  | OCase f => forall s, clean s -> clean (f s) /\ length (f s) = length s
  | _ => False
  end.
(** ...and those that may be made to the text as it was given. *)
Definition first_change (o : op) : Prop :=
  match o with
  | ONfd segs | ONfc _ segs => segments_ok segs
  | OFilter _ | OStrip _ _ _ => True
  | _ => local_change o
  end.
Definition changes_ok (os : list op) : Prop :=
  match os with [] => True | o :: os' => first_change o /\ Forall local_change os' end.

(** ** Settings of the pre-tokenizers that meet the contract *)

(** Sound patterns and a sound replacement; byte-level rewriting is treated apart. *)
Fixpoint placed (t : pre_tokenizer) : Prop :=
  match t with
  | PTSplit q _ inverted => finds_well (if inverted then PInvert q else q)
  | PTMetaspace rep find _ => clean rep /\ rep <> [] /\ finds_well (PRegexp find)
  | PTByteLevel _ => False
  | PTSequence ts => fold_right (fun t P => placed t /\ P) True ts
  | _ => True
  end.

(** Pre-tokenizers that cut the text without rewriting it. *)
Fixpoint cutting (t : pre_tokenizer) : Prop :=
  match t with
  | PTSplit q _ inverted => finds_well (if inverted then PInvert q else q)
  | PTMetaspace _ _ _ | PTByteLevel _ => False
  | PTSequence ts => fold_right (fun t P => cutting t /\ P) True ts
  | _ => True
  end.

(** Every range of an encoding and of the encodings that overflow from it. *)
Inductive all_offsets (P : Z * Z -> Prop) : Encoding -> Prop :=
| all_offsets_intro e : Forall P (offsets e) -> Forall (all_offsets P) (overflowing e) -> all_offsets P e.
(** All inputs are clean; their lengths. *)
Definition clean_input (x : input) : Prop := match x with Raw s => clean s | Words l => Forall clean l end.
Definition input_len (x : input) : Z := match x with Raw s => zlen s | Words l => fold_right (fun w n => Z.max (zlen w) n) 0 l end.
Definition clean_inputs (x : encode_input) : Prop :=
  match x with ISingle a => clean_input a | IDual a b => clean_input a /\ clean_input b end.
Definition inputs_len (x : encode_input) : Z :=
  match x with ISingle a => input_len a | IDual a b => Z.max (input_len a) (input_len b) end.

(** The offsets of the tokens that stand for text (special and padding tokens have (0,0))
    are in text order, in the encoding and in those that overflow from it. *)
Definition of_text (o : Z * Z) : bool := negb ((fst o =? 0) && (snd o =? 0)).
Definition in_text_order (e : Encoding) : Prop :=
  ordered (filter of_text (offsets e)) /\ Forall (fun o => ordered (filter of_text (offsets o))) (overflowing e).
(** Post-processors that put the input into the result once and leave its offsets alone. *)
Definition arranges_once (p : option processor) : Prop :=
  match p with
  | None => True
  | Some (PBert _ _) => True
  | Some (PTemplate single _ _) => zlen (filter (fun x => match x with PSeq false _ => true | _ => false end) single) = 1
  | Some (PByteLevel _ trim) => trim = false
  | Some _ => False
  end.

(** A model that always returns a token slice. *)
Definition always (f : str -> res (list token)) (s : str) : res (option (list token)) := do toks <- f s; Ok (Some toks).
