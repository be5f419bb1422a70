(** C55: the byte-level pre-tokenizer and the byte-level decoder. *)
From Verif Require Import Base BaseProofs Utf8Model Utf8Proofs PatternModel NormalizedModel NormalizedSpec BpeModel PreTokenizedModel
  PreTokenizedSpec DecoderModel DecoderSpec DecoderProofs PreTokenizerModel PreTokenizerSpec ExpandedProofs.
Open Scope Z_scope.

(** Every valid text without NUL characters is cut into pieces which the decoder turns into
    the text again.  The space must be neither a letter nor a number in the Unicode tables
    (it is neither). *)
Theorem C55_restored_partial : forall u prefix s m, un_letter u 32 = false -> un_number u 32 = false ->
  valid_utf8 s -> ~ In 0%N s ->
  exists p', pre_tokenize u (PTByteLevel prefix) (pt_new s) = Ok p' /\ pt_orig p' = s /\
    Forall (fun sp => sp_toks sp = None) (pt_splits p') /\
    decode m DByteLevel (map sp_text (pt_splits p')) = Ok (spaced prefix s).
Proof. exact byte_level_restored. Qed.
Print Assumptions C55_restored_partial.

(** Tables with ASCII letters, digits and e acute. *)
Definition u55 : unicode :=
  Uni (fun _ => false) (fun c => (48 <=? c) && (c <=? 57))%N (fun c => (97 <=? c) && (c <=? 122) || (c =? 233))%N (fun _ => []).

(** Not every text: with the prefix space a text that is one NUL character makes the
    program panic, and so does text that is not valid UTF-8 with any setting. *)
Theorem C55_refuted :
  pre_tokenize u55 (PTByteLevel true) (pt_new [0%N]) = Panic /\
  forall prefix, pre_tokenize u55 (PTByteLevel prefix) (pt_new [255%N]) = Panic.
Proof. split; [|intros []]; vm_compute; reflexivity. Qed.
Print Assumptions C55_refuted.

(** "it's 5 é!" with a prefix space: five pieces. *)
Example C55_ex :
  let s := [105; 116; 39; 115; 32; 53; 32; 195; 169; 33]%N in
  valid_utf8 s /\ ~ In 0%N s /\ spaced true s = (32 :: s)%N /\
  option_map (fun p => map sp_text (pt_splits p)) (match pre_tokenize u55 (PTByteLevel true) (pt_new s) with Ok p => Some p | _ => None end) =
    Some [[196; 160; 105; 116]; [39; 115]; [196; 160; 53]; [196; 160; 195; 131; 194; 169]; [33]]%N /\
  decode ByNew DByteLevel [[196; 160; 105; 116]; [39; 115]; [196; 160; 53]; [196; 160; 195; 131; 194; 169]; [33]]%N = Ok (32 :: s)%N.
Proof.
  cbn zeta. split; [exists [105; 116; 39; 115; 32; 53; 32; 233; 33]%N; split; [repeat constructor; unfold scalar; lia|reflexivity]|]. split; [cbn; intuition discriminate|].
  split; [reflexivity|]. split; vm_compute; reflexivity.
Qed.
