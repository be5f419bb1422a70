(** Model of a tokenizer after training: /repo/tokenizer.go:742-853. *)
From Verif Require Import Base Utf8Model EncodingModel BpeModel AddedVocabModel DecoderModel PreTokenizerModel ProcessorModel PipelineModel PretrainedModel LoadedModel TrainerModel.

Section Trained.
  (** Package unicode, for the pre-tokenizers and for added tokens restricted to whole words. *)
  Variable u : unicode.
  Variable is_word : N -> bool.
  (** The parts of the tokenizer that training leaves alone.  Simplification: no normalizer and no
      truncation are set, and no tokens have been added before. *)
  Variables (pre : pre_tokenizer) (po : option processor) (dec : option decoder) (pa : option pad_params).

  (** tokenizer.go:848-850: the model is replaced and the special tokens of the trainer are added. *)
  Definition with_trained (b : bpe) (specials : list added_token) : res assembled :=
    let m := vocab_model (b_vocab b) (b_vocab_r b) in
    do av <- added_by m [AddSpecial specials];
    do raw <- looked_for is_word None m av false;
    do nrm <- looked_for is_word None m av true;
    Ok (Assembled (Tkz raw nrm None (Some (pre_tokenize u pre)) (Some (bpe_model b)) po None pa) m av dec).

  (** tokenizer.go:844-850 with /repo/model/bpe/trainer.go:580-587: the words have been counted (C46);
      the special tokens of the settings are [specials].  See [train_bpe] for the other arguments. *)
  Definition train_tokenizer (addr : nat -> nat -> str) (pick : list tmerge -> nat) (cf : tcfg) (specials : list added_token)
      (arrival : list nat) (wc : list (str * Z)) (fuel : nat) : res assembled :=
    do r <- train_bpe addr pick cf arrival wc fuel;
    with_trained (trained_model cf r) specials.
End Trained.
