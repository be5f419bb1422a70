(** What a tokenizer with the metaspace pre-tokenizer and decoder gives back (C75). *)
From Verif Require Import Base Utf8Model NormalizedModel EncodingModel BpeModel AddedVocabModel DecoderModel PreTokenizerModel PreTokenizerSpec MetaspaceSpec PipelineModel PipelineSpec TokensSpec RoundTripSpec WordsSpec.
Open Scope Z_scope.

(** The mark and every white-space character are seen as a space. *)
Definition blank (mark c : N) : N := if white c || (c =? mark)%N then 32%N else c.
(** Whether a mark is put in front of a part of a text: always, or for the first part only. *)
Definition leads (scheme : prepend_scheme) (first : bool) : bool := match scheme with Always => true | First => first | Never => false end.
(** A part of a text: with a space in front, if asked for and there is none. *)
Definition led (scheme : prepend_scheme) (mark : N) (first : bool) (rs : list N) : list N :=
  match map (blank mark) rs with
  | c :: l => if leads scheme first && negb (c =? 32)%N then 32%N :: c :: l else c :: l
  | [] => []
  end.

Section Parts.
  Variable sort_start sort_id : list io_pair -> list io_pair.
  Variable t : tokenizer.
  (** A text cut at the added tokens; no normalizer is set. *)
  Definition all_parts (s : str) : list (option Z * str) :=
    match s with
    | [] => []
    | _ => flat_map (fun x => match fst x with Some _ => [x] | None => cut_added sort_start sort_id (tk_normalized t) (snd x) end) (cut_added sort_start sort_id (tk_raw t) s)
    end.
  (** Its parts that are no added tokens; a part is the first one if no added token precedes it. *)
  Definition led_part (scheme : prepend_scheme) (mark : N) (first : bool) (x : option Z * str) : list (list N) :=
    match fst x with Some _ => [] | None => [led scheme mark first (runes (snd x))] end.
  Definition led_parts (scheme : prepend_scheme) (mark : N) (s : str) : list (list N) :=
    match all_parts s with
    | [] => []
    | x :: l => led_part scheme mark true x ++ flat_map (led_part scheme mark false) l
    end.
  Definition input_parts (scheme : prepend_scheme) (mark : N) (x : encode_input) : list (list N) := flat_map (led_parts scheme mark) (encode_texts x).

  (** The words given to the model: marks for spaces, cut in front of each mark. *)
  Definition meta_words (scheme : prepend_scheme) (mark : N) (x : encode_input) : list str :=
    flat_map (fun p => map encode (cut_up MergedWithNext (N.eqb mark) (map (fun c => if (c =? 32)%N then mark else c) p))) (input_parts scheme mark x).
  (** What comes back: all parts, without the first space if a mark is put in front. *)
  Definition meta_text (scheme : prepend_scheme) (mark : N) (x : encode_input) : str :=
    encode (match concat (input_parts scheme mark x) with
            | c :: l => if prepends scheme && (c =? 32)%N then l else c :: l
            | [] => []
            end).
End Parts.

(** The model makes tokens of whole characters that spell the word. *)
Definition spells_whole (f : str -> res (option (list token))) (name : Z -> option str) (w : str) : Prop :=
  exists toks, f w = Ok (Some toks) /\ toks <> [] /\ concat (map t_value toks) = w /\
    Forall (fun t => name (t_id t) = Some (t_value t) /\ t_value t <> [] /\ valid_utf8 (t_value t)) toks.

(** A tokenizer with the metaspace pre-tokenizer, no normalizer and model [f]; ids found for
    added tokens have no [name]. *)
Definition metaspace_tok (ss si : list io_pair -> list io_pair) (name : Z -> option str) (u : unicode) (scheme : prepend_scheme) (mark : N) (f : str -> res (option (list token))) (t : tokenizer) : Prop :=
  scalar mark /\ mark <> 0%N /\ matching_ok (tk_raw t) /\ matching_ok (tk_normalized t) /\ tk_normalizer t = None /\
  tk_pre t = Some (pre_tokenize u (PTMetaspace (encode_rune mark) (find_chars (N.eqb mark)) scheme)) /\
  tk_model t = Some f /\ model_ok f /\ added_hidden ss si t name.

(** One text without added tokens: white space and marks come back as spaces, and one in front
    is lost if a mark is put in front. *)
Definition meta_back (scheme : prepend_scheme) (mark : N) (rs : list N) : list N :=
  match map (blank mark) rs with
  | c :: l => if prepends scheme && (c =? 32)%N then l else c :: l
  | [] => []
  end.
(** Texts that come back unchanged. *)
Definition faithful (scheme : prepend_scheme) (mark : N) (rs : list N) : Prop :=
  Forall (fun c => c = 32%N \/ white c = false /\ c <> mark) rs /\ (prepends scheme = true -> hd_error rs <> Some 32%N).
