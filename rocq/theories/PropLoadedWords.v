(** C77: a BERT tokenizer loaded from a tokenizer.json file decodes to the words of the text. *)
From Coq Require Import String QArith.
From Verif Require Import Base BaseProofs Utf8Model Utf8Proofs NormalizedModel NormalizedSpec EncodingModel BpeModel WordPieceModel WordPieceSpec AddedVocabModel AddedVocabSpec AddedFindProofs AddedPatternModel DecoderModel PreTokenizedModel PreTokenizedSpec PreTokenizerModel PreTokenizerSpec
  ProcessorModel PipelineModel PipelineSpec SpmModel UnicodeNormModel PretrainedModel ReturnSpec RoundTripSpec WordsSpec ConfigModel ConfigSpec ConfigLoadProofs PropByteLevel PropPipeline PropReturn PropRoundTrip PropConfig PropBertNorm BertNormSpec
  LoadedModel LoadedSpec LoadedAddedProofs LoadedProofs PropLoaded LoadedWordsSpec LoadedWordsProofs.
Open Scope Z_scope.
Open Scope list_scope.

(** Texts in which no listed token is written (before and after the normalizer), when special tokens
    are skipped: the words of the normalized text that the model knows come back in their order,
    put together as the decoder does. *)
Theorem C77_bert_partial : forall sort_start sort_id, sorts start_key sort_start -> sorts id_key sort_id ->
  forall order, (forall v, Permutation (order v) v) ->
  forall to32 lower base64 compile quoted u is_word cc mn sp lib graphemes (S : Type) (of_q : Q -> S) lt bot zero plus bonus penal dropping
    v unk max handles lowercase strip cleanup po pa c,
  bert_file lower base64 compile quoted v unk max handles lowercase strip cleanup po pa c ->
  exists l a, from_reader order to32 lower base64 compile quoted (Some c) = Ok l /\
    assemble u is_word cc mn sp lower lib graphemes of_q lt bot zero plus bonus penal dropping l = Ok a /\ tk_processor (as_tok a) = po /\ tk_padding (as_tok a) = pa /\
    forall ot x add, clean_inputs x -> ot <> OInvalid ->
      Forall (fun s => bert_reads cc mn lower handles lowercase strip s /\ unwritten (c_added c) s /\ unwritten (c_added c) (BertNormSpec.bert_text handles lowercase strip mn lower (runes s))) (encode_texts x) ->
      ends_with (special_ids (fun s => vget s v) (zlen v) (c_added c)) (dual x) add po pa ->
      exists e xss, tk_encode sort_start sort_id (as_tok a) ot x add = Ok (Some e) /\
        Forall2 (comes_back v max unk (specials (c_added c))) (flat_map (fun s => bert_words u (BertNormSpec.bert_text handles lowercase strip mn lower (runes s))) (encode_texts x)) xss /\
        as_decode a (ids e) true = Ok (put_together cleanup (concat xss)).
Proof.
  intros ss si HS HI order HO to32 lower base64 compile quoted u is_word cc mn sp lib graphemes S of_q lt bot zero plus bonus penal dropping v unk max handles lowercase strip cleanup po pa c F.
  destruct (bert_loaded ss si HS HI order HO to32 lower base64 compile quoted u is_word cc mn sp lib graphemes of_q lt bot zero plus bonus penal dropping C54_wordpiece C71_wordpiece (C54_pre_tokenizers u PTBert I) (C71_pre_tokenizers u PTBert I)
    v unk max handles lowercase strip cleanup po pa c F) as (l & a & E1 & E2 & E3 & E4 & _ & D & _).
  exists l, a. split; [exact E1|]. split; [exact E2|]. split; [exact E3|]. split; [exact E4|exact D].
Qed.
Print Assumptions C77_bert_partial.

(** If the lower case takes more bytes than the text (with spaces around its Chinese characters),
    encoding it panics. *)
Theorem C77_longer_refuted : forall sort_start sort_id, sorts start_key sort_start -> sorts id_key sort_id ->
  forall order, (forall v, Permutation (order v) v) ->
  forall to32 lower base64 compile quoted u is_word cc mn sp lib graphemes (S : Type) (of_q : Q -> S) lt bot zero plus bonus penal dropping
    v unk max handles cleanup po pa c,
  bert_file lower base64 compile quoted v unk max handles true false cleanup po pa c ->
  exists l a, from_reader order to32 lower base64 compile quoted (Some c) = Ok l /\
    assemble u is_word cc mn sp lower lib graphemes of_q lt bot zero plus bonus penal dropping l = Ok a /\
    forall ot s add, clean s -> s <> [] -> Forall (fun c => dropped cc c = false /\ (handles = true -> extension_a c = false)) (runes s) ->
      let t := encode (if handles then spaced (runes s) else runes s) in
      unwritten (c_added c) s -> unwritten (c_added c) (lower t) -> zlen t < zlen (lower t) -> tk_encode sort_start sort_id (as_tok a) ot (ISingle (Raw s)) add = Panic.
Proof.
  intros ss si HS HI order HO to32 lower base64 compile quoted u is_word cc mn sp lib graphemes S of_q lt bot zero plus bonus penal dropping v unk max handles cleanup po pa c F.
  destruct (bert_loaded ss si HS HI order HO to32 lower base64 compile quoted u is_word cc mn sp lib graphemes of_q lt bot zero plus bonus penal dropping C54_wordpiece C71_wordpiece (C54_pre_tokenizers u PTBert I) (C71_pre_tokenizers u PTBert I)
    v unk max handles true false cleanup po pa c F) as (l & a & E1 & E2 & _ & _ & _ & _ & D).
  exists l, a. split; [exact E1|]. split; [exact E2|]. intros ot s add C Ne P t W1 W2 L. exact (D ot s add C P eq_refl eq_refl L W1 W2 Ne).
Qed.
Print Assumptions C77_longer_refuted.

(** * Examples *)

(** The file of an uncased BERT model in small. *)
Definition bf_vocab : vocab :=
  [(key "[PAD]", 0); (key "[UNK]", 1); (key "[CLS]", 2); (key "[SEP]", 3); (key "he", 4); (key ",", 5); (key "world", 6); (key "##s", 7)].
Definition bf_model : conf :=
  [(key "type", JStr (key "WordPiece")); (key "vocab", JObj (map (fun p => (fst p, jint (snd p))) bf_vocab)); (key "unk_token", JStr (key "[UNK]")); (key "continuing_subword_prefix", JStr (key "##"));
   (key "max_input_chars_per_word", jint 100)].
Definition bf_norm : conf :=
  [(key "type", JStr (key "BertNormalizer")); (key "clean_text", JBool true); (key "handle_chinese_chars", JBool true); (key "strip_accents", JNull); (key "lowercase", JBool true)].
Definition bf_pre : conf := [(key "type", JStr (key "BertPreTokenizer"))].
Definition bf_dec : conf := [(key "type", JStr (key "WordPiece")); (key "prefix", JStr (key "##")); (key "cleanup", JBool true)].
Definition bf_post : conf :=
  [(key "type", JStr (key "TemplateProcessing"));
   (key "single", JArr [JObj [(key "SpecialToken", JObj [(key "id", JStr (key "[CLS]")); (key "type_id", jint 0)])];
                        JObj [(key "Sequence", JObj [(key "id", JStr (key "A")); (key "type_id", jint 0)])];
                        JObj [(key "SpecialToken", JObj [(key "id", JStr (key "[SEP]")); (key "type_id", jint 0)])]]);
   (key "special_tokens", JObj [(key "[CLS]", JObj [(key "id", JStr (key "[CLS]")); (key "ids", JArr [jint 2]); (key "tokens", JArr [JStr (key "[CLS]")])]);
                                (key "[SEP]", JObj [(key "id", JStr (key "[SEP]")); (key "ids", JArr [jint 3]); (key "tokens", JArr [JStr (key "[SEP]")])])])].
Definition bf_pad : conf :=
  [(key "strategy", JObj [(key "Fixed", jint 9)]); (key "direction", JStr (key "Right")); (key "pad_id", jint 0); (key "pad_token", JStr (key "[PAD]"))].
Definition bf_added : list token_config :=
  [TC 0 (key "[PAD]") false false false false true; TC 1 (key "[UNK]") false false false false true; TC 2 (key "[CLS]") false false false false true; TC 3 (key "[SEP]") false false false false true; TC 9 (key "[new]") false false false true false].
Definition bf : config := Config None (Some bf_pad) bf_added (Some bf_norm) (Some bf_pre) (Some bf_post) (Some bf_dec) (Some bf_model).
Definition bf_processor : processor :=
  PTemplate [PSpecial (key "[CLS]") 0; PSeq false 0; PSpecial (key "[SEP]") 0] [] [(key "[CLS]", ([2], [key "[CLS]"])); (key "[SEP]", ([3], [key "[SEP]"]))].
Definition bf_padding : pad_params := Padding (Fixed 9) PRight 0 0 (key "[PAD]").
Lemma bf_file lower base64 compile quoted : bert_file lower base64 compile quoted bf_vocab (key "[UNK]") 100 true true false true (Some bf_processor) (Some bf_padding) bf.
Proof.
  assert (Nm : numbered bf_vocab) by (apply numberedb_ok; vm_compute; reflexivity).
  exists bf_model, bf_norm, bf_pre, bf_dec, true. split; [reflexivity|]. split; [reflexivity|]. split; [reflexivity|]. split; [reflexivity|]. split; [reflexivity|].
  split; [apply MI_stated; st|]. split; [split; [st|exact (proj1 Nm)]|]. split; [left; st|]. split; [left; st|]. split; [left; st|].
  split; [apply IN_bert; [st|left; st|left; st|right; split; [om|reflexivity]|left; st]|].
  split; [apply (IP_plain _ _ _ _ _ "BertPreTokenizer"); [cbn; tauto|st]|]. split; [apply ID_wordpiece; st|]. split; [|split; [|split; [exact Nm|split; [vm_compute; discriminate|split]]]].
  - constructor. apply IR_template; [st| | |].
    + left. eexists. split; [st|]. constructor; [|constructor; [|constructor; [|constructor]]].
      * eapply PJ_special; [st|om|st|st].
      * eapply PJ_first; [st|om|st|st].
      * eapply PJ_special; [st|om|st|st].
    + right. split; [om|reflexivity].
    + eexists. split; [st|]. split.
      * constructor; [|constructor; [|constructor]]; (eexists; split; [reflexivity|]; split; [st|]; split; st).
      * repeat ne. constructor.
  - constructor. apply IA; [apply PS_fixed; st|apply (DR_right _ "Right"); [cbn; tauto|st]|left; st|right; split; [om|reflexivity]|left; st].
  - repeat (apply Forall_cons; [split; [reflexivity|]; split; [discriminate|]; split; [apply plain_valid; reflexivity|]; first [intros H; discriminate H|intros _; exists 91%N; do 2 eexists; split; [reflexivity|split; [lia|discriminate]]]|]). apply Forall_nil.
  - left. cbn. tauto.
Qed.
(** [He, Worlds zz]: the model does not know the last word. *)
Definition bf_text : str := [72; 101; 44; 32; 87; 111; 114; 108; 100; 115; 32; 122; 122]%N.
Lemma no_bracket s : ~ In 91%N s -> unwritten bf_added s.
Proof. intros H t a z Ht E. apply H. rewrite E. apply in_or_app. right. apply in_or_app. left. destruct Ht as [<-|[<-|[<-|[<-|[<-|[]]]]]]; now left. Qed.
Example C77_meets : clean bf_text /\ bert_reads (fun _ => false) (fun _ => false) ascii_lower true true false bf_text /\ unwritten (c_added bf) bf_text /\ unwritten (c_added bf) (ascii_lower bf_text) /\
  ends_with (special_ids (fun s => vget s bf_vocab) (zlen bf_vocab) (c_added bf)) false true (Some bf_processor) (Some bf_padding) /\
  BertNormSpec.bert_text true true false (fun _ => false) ascii_lower (runes bf_text) = ascii_lower bf_text /\ bert_words u55 (ascii_lower bf_text) = [[104; 101]; [44]; [119; 111; 114; 108; 100; 115]; [122; 122]]%N.
Proof.
  split; [|split; [split; [|split; [|split]]|split; [|split; [|split; [|split]]]]].
  - exists bf_text. split; [repeat (constructor; [left; reflexivity|]); constructor|split; [repeat (constructor; [discriminate|]); constructor|reflexivity]].
  - change (runes bf_text) with bf_text. repeat (constructor; [split; reflexivity|]). constructor.
  - exists (ascii_lower bf_text). split; [repeat (constructor; [left; reflexivity|]); constructor|split; [repeat (constructor; [discriminate|]); constructor|reflexivity]].
  - reflexivity.
  - discriminate.
  - apply no_bracket. cbn. intuition discriminate.
  - apply no_bracket. cbn. intuition discriminate.
  - split; [split|split; [reflexivity|vm_compute; auto]].
    + eapply returning_template; [cbn; tauto|]. repeat (constructor; [first [intros H; discriminate H|intros _; vm_compute; discriminate]|]). constructor.
    + split; [reflexivity|]. intros _ id l H. cbn [aget] in H. destruct (str_eqb id _); [injection H as <-; constructor; [vm_compute; reflexivity|constructor]|].
      destruct (str_eqb id _); [injection H as <-; constructor; [vm_compute; reflexivity|constructor]|discriminate H].
  - reflexivity.
  - vm_compute. reflexivity.
Qed.
Definition bf_encoded (lower : str -> str) (s : str) : option (res (list Z * res str)) :=
  match from_reader (fun v => v) (fun q => q) lower (fun _ => Err) (fun _ => None) (fun _ _ => []) (Some bf) with
  | Ok l => match assemble u55 (fun _ => false) (fun _ => false) (fun _ => false) (fun _ => false) lower lf_lib (fun _ => []) (fun q => q) (fun _ _ => false) 0%Q 0%Q Qplus (fun _ => 0%Q) (fun q => q) (fun _ _ _ => Err) l with
            | Ok a => match tk_encode (isort start_key) (isort id_key) (as_tok a) OByte (ISingle (Raw s)) true with
                      | Ok (Some e) => Some (Ok (ids e, as_decode a (ids e) true))
                      | Panic => Some Panic
                      | _ => None
                      end
            | _ => None
            end
  | _ => None
  end.
(** [he, worlds] comes back. *)
Example C77_example : bf_encoded ascii_lower bf_text = Some (Ok ([2; 4; 5; 6; 7; 1; 3; 0; 0], Ok [104; 101; 44; 32; 119; 111; 114; 108; 100; 115]%N)).
Proof. vm_compute. reflexivity. Qed.
(** U+023A takes two bytes, its lower case U+2C65 three. *)
Definition stroke_lower (s : str) : str := if str_eqb s [200; 186]%N then [226; 177; 165]%N else s.
Example C77_longer_meets : let s := encode_rune 0x23a in
  clean s /\ s <> [] /\ Forall (fun c => dropped (fun _ => false) c = false /\ (true = true -> extension_a c = false)) (runes s) /\ encode (spaced (runes s)) = s /\ unwritten (c_added bf) s /\ unwritten (c_added bf) (stroke_lower s) /\ stroke_lower s = encode_rune 0x2c65 /\ zlen s < zlen (stroke_lower s) /\
  bf_encoded stroke_lower s = Some Panic.
Proof.
  cbv zeta. split; [exists [0x23a]%N; split; [constructor; [left; reflexivity|constructor]|split; [constructor; [discriminate|constructor]|reflexivity]]|]. split; [discriminate|].
  split; [change (runes _) with [0x23a]%N; constructor; [split; reflexivity|constructor]|]. split; [reflexivity|]. split; [apply no_bracket; cbn; intuition discriminate|]. split; [apply no_bracket; cbn; intuition discriminate|].
  split; [reflexivity|]. split; [reflexivity|]. vm_compute. reflexivity.
Qed.
(** [He], a Chinese character twice and an accent of its own, which a file that strips accents takes off. *)
Definition bs_norm : conf :=
  [(key "type", JStr (key "BertNormalizer")); (key "clean_text", JBool true); (key "handle_chinese_chars", JBool true); (key "strip_accents", JBool true); (key "lowercase", JBool true)].
Definition bs_vocab : vocab := [(key "[PAD]", 0); (key "[UNK]", 1); (key "[CLS]", 2); (key "[SEP]", 3); (key "he", 4); (encode_rune 0x4e2d, 5)].
Definition bs_model : conf :=
  [(key "type", JStr (key "WordPiece")); (key "vocab", JObj (map (fun p => (fst p, jint (snd p))) bs_vocab)); (key "unk_token", JStr (key "[UNK]")); (key "continuing_subword_prefix", JStr (key "##"));
   (key "max_input_chars_per_word", jint 100)].
Definition bs : config := Config None None bf_added (Some bs_norm) (Some bf_pre) None (Some bf_dec) (Some bs_model).
Lemma bs_file lower base64 compile quoted : bert_file lower base64 compile quoted bs_vocab (key "[UNK]") 100 true true true true None None bs.
Proof.
  assert (Nm : numbered bs_vocab) by (apply numberedb_ok; vm_compute; reflexivity).
  exists bs_model, bs_norm, bf_pre, bf_dec, true. split; [reflexivity|]. split; [reflexivity|]. split; [reflexivity|]. split; [reflexivity|]. split; [reflexivity|].
  split; [apply MI_stated; st|]. split; [split; [st|exact (proj1 Nm)]|]. split; [left; st|]. split; [left; st|]. split; [left; st|].
  split; [apply IN_bert; [st|left; st|left; st|left; st|left; st]|].
  split; [apply (IP_plain _ _ _ _ _ "BertPreTokenizer"); [cbn; tauto|st]|]. split; [apply ID_wordpiece; st|]. split; [constructor|]. split; [constructor|]. split; [exact Nm|]. split; [vm_compute; discriminate|]. split.
  - repeat (apply Forall_cons; [split; [reflexivity|]; split; [discriminate|]; split; [apply plain_valid; reflexivity|]; first [intros H; discriminate H|intros _; exists 91%N; do 2 eexists; split; [reflexivity|split; [lia|discriminate]]]|]). apply Forall_nil.
  - left. cbn. tauto.
Qed.
Definition bs_text : str := encode [72; 101; 0x301; 0x4e2d; 0x4e2d]%N.
Definition bs_mark (c : N) : bool := (c =? 0x301)%N.
Example C77_chinese_meets : clean bs_text /\ bert_reads (fun _ => false) bs_mark ascii_lower true true true bs_text /\ unwritten (c_added bs) bs_text /\
  BertNormSpec.bert_text true true true bs_mark ascii_lower (runes bs_text) = encode [104; 101; 32; 0x4e2d; 32; 32; 0x4e2d; 32]%N /\
  unwritten (c_added bs) (encode [104; 101; 32; 0x4e2d; 32; 32; 0x4e2d; 32]%N) /\
  bert_words u55 (encode [104; 101; 32; 0x4e2d; 32; 32; 0x4e2d; 32]%N) = [[104; 101]%N; encode_rune 0x4e2d; encode_rune 0x4e2d].
Proof.
  split; [|split; [split; [|split; [|split; [reflexivity|intros _; split; [reflexivity|vm_compute; reflexivity]]]]|split; [|split; [vm_compute; reflexivity|split; [|vm_compute; reflexivity]]]]].
  - exists [72; 101; 0x301; 0x4e2d; 0x4e2d]%N. split; [repeat (constructor; [left; reflexivity|]); constructor|]. split; [repeat (constructor; [discriminate|]); constructor|reflexivity].
  - change (runes bs_text) with [72; 101; 0x301; 0x4e2d; 0x4e2d]%N. repeat (constructor; [split; reflexivity|]); constructor.
  - exists [104; 101; 0x301; 32; 0x4e2d; 32; 32; 0x4e2d; 32]%N. split; [repeat (constructor; [left; reflexivity|]); constructor|]. split; [repeat (constructor; [discriminate|]); constructor|vm_compute; reflexivity].
  - apply no_bracket. vm_compute. intuition discriminate.
  - apply no_bracket. vm_compute. intuition discriminate.
Qed.
