(** Model of the short calls of /repo/tokenizer.go:1065-1122. *)
From Verif Require Import Base EncodingModel AddedVocabModel PreTokenizedModel PipelineModel.

Section Api.
  (** The sorting of PipelineModel.v. *)
  Variable sort_start sort_id : list io_pair -> list io_pair.

  (** tokenizer.go:1074-1083 (EncodeSingle) and 1092-1103 (EncodePair); [add] is the optional argument, by default false.
      The result may be nil. *)
  Definition given (add : option bool) : bool := match add with Some b => b | None => false end.
  Definition encode_single (t : tokenizer) (s : str) (add : option bool) : res (option Encoding) :=
    tk_encode sort_start sort_id t OByte (ISingle (Raw s)) (given add).
  Definition encode_pair (t : tokenizer) (s p : str) (add : option bool) : res (option Encoding) :=
    tk_encode sort_start sort_id t OByte (IDual (Raw s) (Raw p)) (given add).
  (** tokenizer.go:1111-1122 (Tokenize).  Reading the tokens of nil panics. *)
  Definition tokenize (t : tokenizer) (s : str) (add : option bool) : res (list str) :=
    do e <- encode_single t s add;
    match e with Some e => Ok (tokens e) | None => Panic end.
End Api.
