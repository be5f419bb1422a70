(** Vocabulary for the statement that Encode returns. *)
From Verif Require Import Base Utf8Model NormalizedModel NormalizedSpec PatternModel BpeModel BpeSpec PreTokenizedModel PreTokenizedSpec PreTokenizerModel EncodingModel ProcessorModel ProcessorSpec PipelineModel PipelineSpec.
Open Scope Z_scope.

(** No piece has an empty list of tokens. *)
Definition tokens_there (p : pretok) : Prop := Forall (fun sp => sp_toks sp <> Some []) (pt_splits p).
(** Every piece is text as it was given. *)
Definition fresh (p : pretok) : Prop := Forall (fun sp => untouched (sp_ns sp)) (pt_splits p).

(** ** Components that return *)

Definition normalizer_returns (f : ns -> res ns) : Prop := forall orig n, in_place orig n -> untouched n -> exists m, f n = Ok m.
Definition pre_returns (f : pretok -> res pretok) : Prop := forall p, laid p -> tokens_there p -> exists p', f p = Ok p' /\ tokens_there p'.
Definition pre_fresh_returns (f : pretok -> res pretok) : Prop :=
  forall p, laid p -> fresh p -> tokens_there p -> exists p', f p = Ok p' /\ tokens_there p'.
Definition model_returns (f : str -> res (option (list token))) : Prop :=
  forall s, clean s -> s <> [] -> exists toks, f s = Ok (Some toks) /\ toks <> [].
Definition components_return (t : tokenizer) : Prop :=
  with_default normalizer_returns (tk_normalizer t) /\
  (with_default pre_returns (tk_pre t) \/ tk_normalizer t = None /\ with_default pre_fresh_returns (tk_pre t)) /\
  exists f, tk_model t = Some f /\ model_returns f.

(** ** Endings that return *)

(** Nothing is lacking for the processor: trimming is set for RoBERTa, a template uses the first
    sequence and has the special tokens it names.  Byte-level processors may come first. *)
Inductive returning_processor (pair add : bool) : processor -> Prop :=
| returning_bert cls sep : returning_processor pair add (PBert cls sep)
| returning_roberta cls sep prefix : returning_processor pair add (PRoberta cls sep true prefix)
| returning_byte_level prefix trim : returning_processor pair add (PByteLevel prefix trim)
| returning_template single both toks ty : In (PSeq false ty) (if pair then both else single) ->
    Forall (fun q => match q with
                     | PSeq b _ => b = true -> pair = true
                     | PSpecial id _ => add = true -> aget str_eqb id toks <> None
                     end) (if pair then both else single) ->
    returning_processor pair add (PTemplate single both toks)
| returning_sequence front q : Forall (fun x => exists prefix trim, x = PByteLevel prefix trim) front -> returning_processor pair add q ->
    returning_processor pair add (PSequence (front ++ [q])).
(** Truncation takes from the longest, or from a single sequence when the special tokens fit. *)
Definition returning_truncation (pair : bool) (added : Z) (trunc : option trunc_params) : Prop :=
  match trunc with
  | None => True
  | Some t =>
      0 <= tr_stride t /\
      match tr_strategy t with LongestFirst => True | OnlyFirst => pair = false /\ added <= tr_max t | OnlySecond => False end
  end.
(** Padding is put at the end. *)
Definition returning_padding (padding : option pad_params) : Prop := with_default (fun d => pd_dir d = PRight) padding.
Definition dual (x : encode_input) : bool := match x with ISingle _ => false | IDual _ _ => true end.
Definition ending_returns (t : tokenizer) (pair add : bool) : Prop :=
  with_default (returning_processor pair add) (tk_processor t) /\
  returning_truncation pair (count_of (tk_processor t) pair add) (tk_trunc t) /\
  returning_padding (tk_padding t).

(** ** Normalizers that return *)

(** Text put in front or at the end, and changes of case. *)
Definition small_change (o : op) : Prop :=
  match o with
  | OPrepend s | OAppend s => clean s
  | OCase f => forall s, clean s -> clean (f s) /\ length (f s) = length s
  | _ => False
  end.
(** Changes of text as it was given: canonical decomposition or composition, removal of spaces at
    one end, one replacement, or such a change. *)
Definition opening (o : op) : Prop :=
  match o with
  | ONfd segs | ONfc _ segs => segments_ok segs
  | OStrip _ l r => l && r = false
  | OReplace _ _ => local_change o
  | _ => small_change o
  end.
(** The pattern finds nothing that begins in the text put in front. *)
Definition spares (front : str) (p : pattern) : Prop :=
  forall s ms, clean s -> s <> [] -> find_matches p (front ++ s) = Ok ms ->
    Forall (fun m => snd m = true -> zlen front <= fst (fst m)) ms.
(** Nothing; one change of the given text; or, as for SentencePiece, a mark in front and then one
    replacement that leaves the mark alone.  Small changes may follow. *)
Inductive returning : list op -> Prop :=
| returning_none : returning []
| returning_first o os : opening o -> Forall small_change os -> returning (o :: os)
| returning_mark front p content os : clean front -> front <> [] -> local_change (OReplace p content) -> spares front p ->
    Forall small_change os -> returning (OPrepend front :: OReplace p content :: os).
