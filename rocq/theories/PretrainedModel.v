(** Model of the ready-made tokenizers: /repo/pretrained/gpt2.go, roberta.go and bert.go. *)
From Verif Require Import Base Utf8Model NormalizedModel EncodingModel BpeModel BpeSaveModel AddedVocabModel DecoderModel PreTokenizedModel PreTokenizerModel ProcessorModel PipelineModel
  AddedPatternModel BertNormModel WordPieceModel.
Open Scope Z_scope.

(** /repo/added-vocabulary.go:45-77.  The options of an added token. *)
Inductive at_option := WithSingleWord (b : bool) | WithLStrip (b : bool) | WithRStrip (b : bool) | WithNormalized (b : bool).
Definition at_apply (t : added_token) (o : at_option) : added_token :=
  match o with
  | WithSingleWord b => AT (at_content t) b (at_lstrip t) (at_rstrip t) (at_norm t)
  | WithLStrip b => AT (at_content t) (at_single t) b (at_rstrip t) (at_norm t)
  | WithRStrip b => AT (at_content t) (at_single t) (at_lstrip t) b (at_norm t)
  | WithNormalized b => AT (at_content t) (at_single t) (at_lstrip t) (at_rstrip t) b
  end.
(** 35-43, 82-92.  [NewAddedToken]. *)
Definition new_added_token (s : str) (special : bool) (opts : list at_option) : added_token :=
  fold_left at_apply opts (AT s false false false (negb special)).

(** A tokenizer with what decoding needs (/repo/tokenizer.go:257-271). *)
Record ready := Ready {
  rd_tok : tokenizer;
  rd_model : base_model;
  rd_added : added_vocab;
  rd_made : made;
  rd_decoder : decoder }.
(** tokenizer.go:515-530. *)
Definition rd_decode (r : ready) (ids : list Z) (skip : bool) : res str :=
  decode_ids (rd_model r) (rd_added r) (Some (decode (rd_made r) (rd_decoder r))) ids skip.

(** tokenizer.go:534-541 and added-vocabulary.go:272-360 for a new tokenizer: the added
    vocabulary after the calls, and the tokens looked for in the text as it is or after
    normalizing.  Only the texts of the patterns matter; quoted texts compile. *)
Definition added_by (m : base_model) (calls : list add_call) : res added_vocab :=
  do r <- add_history m (fun t => Some (at_content t)) (fun _ => true) new_added_vocab calls; Ok (fst r).
Definition looked_for (is_word : N -> bool) (n : option (ns -> res ns)) (m : base_model) (av : added_vocab) (norm : bool) : res matching :=
  do l <- token_patterns is_word n (av_token_to_id m av) norm (av_special av ++ av_added av); Ok (re_matching l).

(** ** GPT-2 and RoBERTa *)

(** /repo/model/bpe/bpe.go:105-157, 211-215, 264-330.  [NewBpeFromFiles]: the vocabulary has been
    read already ([order] is the order in which Go iterates over it); no unknown token, no prefix
    and no suffix.  The cache is left out (C16). *)
Definition bpe_from_files (v order : vocab) (merges : str) : res bpe :=
  do m <- read_merges v merges; Ok (Bpe v (build_vocab_r order) m None None None).
Definition bpe_model (b : bpe) (s : str) : res (option (list token)) := do toks <- bpe_tokenize b s; Ok (Some toks).
Definition bpe_base (b : bpe) : base_model := vocab_model (b_vocab b) (b_vocab_r b).

(** "Ġ", U+0120 (gpt2.go:59). *)
Definition G_DOT : str := [196; 160]%N.

(** gpt2.go:32-63.  The processor shares the settings of the pre-tokenizer (50-56). *)
Definition gpt2 (u : unicode) (b : bpe) (prefix trim : bool) : ready :=
  Ready (Tkz no_matching no_matching None (Some (pre_tokenize u (PTByteLevel prefix))) (Some (bpe_model b)) (Some (PByteLevel prefix trim)) None None)
    (bpe_base b) new_added_vocab ByNew (DBpe G_DOT).

(** "<s>" and "</s>"; /repo/processor/roberta.go:18-25 (DefaultRobertaProcessing). *)
Definition BOS : str := [60; 115; 62]%N.
Definition EOS : str := [60; 47; 115; 62]%N.
Definition roberta_default : processor := PRoberta (PTok BOS 0) (PTok EOS 2) true true.

(** roberta.go:32-66 and 85-110: the two differ in the files only.  The setting trimOffsets has
    no effect (56). *)
Definition roberta (u : unicode) (is_word : N -> bool) (b : bpe) (prefix : bool) : res ready :=
  do av <- added_by (bpe_base b) [AddSpecial [new_added_token BOS true []]; AddSpecial [new_added_token EOS true []]];
  do raw <- looked_for is_word None (bpe_base b) av false;
  do norm <- looked_for is_word None (bpe_base b) av true;
  Ok (Ready (Tkz raw norm None (Some (pre_tokenize u (PTByteLevel prefix))) (Some (bpe_model b)) (Some roberta_default) None None)
        (bpe_base b) av ByNew (DBpe G_DOT)).

(** ** BERT *)

Definition UNK : str := [91; 85; 78; 75; 93]%N.
Definition SEP : str := [91; 83; 69; 80; 93]%N.
Definition CLS : str := [91; 67; 76; 83; 93]%N.
Definition MASK : str := [91; 77; 65; 83; 75; 93]%N.
Definition HASHES : str := [35; 35]%N.

(** /repo/model/wordpiece/wordpiece.go:126-134, 183-225 (NewWordPieceFromFile). *)
Definition wp_from_file (v order : vocab) : wordpiece := wp_build v order UNK HASHES 100.
Definition wp_model (wp : wordpiece) (s : str) : res (option (list token)) := do toks <- wp_tokenize wp s; Ok (Some toks).
Definition wp_base (wp : wordpiece) : base_model := vocab_model (wp_vocab wp) (wp_vocab_r wp).

(** bert.go:28-73 and 80-122.  The first, for text in lower case, takes the default WordPiece
    decoder (69); the second keeps upper case and makes its decoder with the same values (118).
    A missing special token ends the process (48-57). *)
Definition bert (u : unicode) (is_word cc mn : N -> bool) (lower : str -> str) (wp : wordpiece) (uncased : bool) : res ready :=
  let n := Some (bert_normalize cc mn lower (BN true true true uncased)) in
  match av_token_to_id (wp_base wp) new_added_vocab SEP, av_token_to_id (wp_base wp) new_added_vocab CLS with
  | Some sep, Some cls =>
      do av <- added_by (wp_base wp) [AddSpecial [new_added_token MASK true []]; AddSpecial [new_added_token SEP true []]; AddSpecial [new_added_token CLS true []]];
      do raw <- looked_for is_word n (wp_base wp) av false;
      do norm <- looked_for is_word n (wp_base wp) av true;
      Ok (Ready (Tkz raw norm n (Some (pre_tokenize u PTBert)) (Some (wp_model wp)) (Some (PBert (PTok CLS cls) (PTok SEP sep))) None None)
            (wp_base wp) av (if uncased then ByDefault else ByNew) (DWordPiece HASHES true))
  | _, _ => Fatal
  end.
