(** C76 for files with the metaspace pre-tokenizer: Unigram models, and pairs and pre-split
    words with BPE models. *)
From Coq Require Import String QArith.
From Verif Require UnigramProofs.
From Verif Require Import Base BaseProofs Utf8Model Utf8Proofs NormalizedModel EncodingModel BpeModel BpeSpec AddedVocabModel AddedVocabSpec AddedFindProofs UnigramModel UnigramSpec DecoderModel PreTokenizerModel PreTokenizerSpec ProcessorModel
  PreTokenizedModel PipelineModel PipelineSpec PretrainedModel ConfigModel ConfigSpec ConfigProofs ConfigLoadProofs ReturnSpec RoundTripSpec WordsSpec MetaspaceSpec MetaTripSpec LoadedModel LoadedSpec LoadedProofs
  LoadedUnigramSpec LoadedUnigramProofs PropByteLevel PropConfig PropPipeline PropMetaTrip PropLoaded.
Open Scope Z_scope.
Open Scope list_scope.

(** The tokenizer loaded from a Unigram file gives back texts, pairs and lists of words whose characters are in
    the vocabulary, if no listed token is written in them and some segmentation of each word has
    a score above the lowest. *)
Theorem C76_unigram_partial : forall sort_start sort_id, sorts start_key sort_start -> sorts id_key sort_id ->
  forall order to32 lower base64 compile quoted u is_word cc mn sp lib graphemes (S : Type) (of_q : Q -> S) lt bot zero plus bonus penal dropping,
  score_laws lt bot plus ->
  forall voc unk fuse mark scheme po pa c,
  unigram_file lower compile quoted (tells_prefix lower compile quoted mark (prepends scheme)) voc unk fuse mark scheme po pa c ->
  exists l a, from_reader order to32 lower base64 compile quoted (Some c) = Ok l /\
    assemble u is_word cc mn sp lower lib graphemes of_q lt bot zero plus bonus penal dropping l = Ok a /\ tk_processor (as_tok a) = po /\ tk_padding (as_tok a) = pa /\
    (forall s, av_token_to_id (as_lookups a) (as_added a) s = file_id (place voc) (zlen voc) (c_added c) s) /\
    forall ot x add, clean_inputs x -> ot <> OInvalid -> Forall (unwritten (c_added c)) (encode_texts x) ->
      Forall (fun s => Forall (fun c => white c = false -> In (encode_rune c) (map fst voc)) (runes s)) (encode_texts x) ->
      Forall (fun w => exists gs, let g := UG (map (fun p => (fst p, of_q (snd p))) voc) unk false fuse in
                segmentation g w gs /\ lt bot (total lt zero plus bonus penal g gs) = true) (led_words scheme mark (encode_texts x)) ->
      ends_with (special_ids (place voc) (zlen voc) (c_added c)) (dual x) add po pa ->
      exists e, tk_encode sort_start sort_id (as_tok a) ot x add = Ok (Some e) /\
        as_decode a (ids e) true = Ok (encode (led_text scheme mark (prepends scheme) (encode_texts x))).
Proof.
  intros ss si HS HI order to32 lower base64 compile quoted u is_word cc mn sp lib graphemes S of_q lt bot zero plus bonus penal dropping Ls voc unk fuse mark scheme po pa c F.
  apply (unigram_file_loaded ss si HS HI order to32 lower base64 compile quoted u is_word cc mn sp lib graphemes of_q lt bot zero plus bonus penal dropping _ voc unk fuse mark scheme (prepends scheme) po pa c Ls F).
  intros de H. exact (ConfigProofs.decoder_ok lower compile quoted _ _ H).
Qed.
Print Assumptions C76_unigram_partial.

(** For one text this is the text itself, exactly if it has no mark, no white space but spaces
    and, where a mark is put in front, does not begin with a space. *)
Theorem C76_led_text : forall scheme mark s, valid_utf8 s -> encode (led_text scheme mark (prepends scheme) [s]) = s <-> faithful scheme mark (runes s).
Proof.
  intros scheme mark s (rs & Sc & ->). rewrite led_single, runes_encode by assumption. rewrite <- C75_faithful. split; [|intros ->; reflexivity].
  intros E. apply (f_equal runes) in E. rewrite !runes_encode in E by (assumption || now apply MetaTextProofs.back_scalar). exact E.
Qed.
Print Assumptions C76_led_text.

(** If the file names the scheme only, every text comes back with one more space in front (unless it
    begins with white space itself). *)
Theorem C76_unigram_scheme_refuted : forall sort_start sort_id, sorts start_key sort_start -> sorts id_key sort_id ->
  forall order to32 lower base64 compile quoted u is_word cc mn sp lib graphemes (S : Type) (of_q : Q -> S) lt bot zero plus bonus penal dropping,
  score_laws lt bot plus ->
  forall voc unk fuse mark scheme po pa c,
  unigram_file lower compile quoted (tells_scheme mark) voc unk fuse mark scheme po pa c -> scheme <> Never ->
  exists l a, from_reader order to32 lower base64 compile quoted (Some c) = Ok l /\
    assemble u is_word cc mn sp lower lib graphemes of_q lt bot zero plus bonus penal dropping l = Ok a /\ tk_processor (as_tok a) = po /\ tk_padding (as_tok a) = pa /\
    forall ot s add, clean s -> ot <> OInvalid -> unwritten (c_added c) s ->
      Forall (fun c => white c = false -> In (encode_rune c) (map fst voc)) (runes s) ->
      Forall (fun w => exists gs, let g := UG (map (fun p => (fst p, of_q (snd p))) voc) unk false fuse in
                segmentation g w gs /\ lt bot (total lt zero plus bonus penal g gs) = true) (led_words scheme mark [s]) ->
      ends_with (special_ids (place voc) (zlen voc) (c_added c)) false add po pa ->
      s <> [] -> faithful scheme mark (runes s) ->
      exists e, tk_encode sort_start sort_id (as_tok a) ot (ISingle (Raw s)) add = Ok (Some e) /\
        as_decode a (ids e) true = Ok (32%N :: s).
Proof.
  intros ss si HS HI order to32 lower base64 compile quoted u is_word cc mn sp lib graphemes S of_q lt bot zero plus bonus penal dropping Ls voc unk fuse mark scheme po pa c F Ns.
  destruct (unigram_file_loaded ss si HS HI order to32 lower base64 compile quoted u is_word cc mn sp lib graphemes of_q lt bot zero plus bonus penal dropping _ voc unk fuse mark scheme false po pa c Ls F) as (l & a & E1 & E2 & E3 & E4 & _ & D).
  { intros de (H1 & H2 & (s & H3) & H4). apply (decoder_scheme quoted de s (encode_rune mark) H1); [now left|exact H3|exact H4]. }
  exists l, a. split; [exact E1|]. split; [exact E2|]. split; [exact E3|]. split; [exact E4|]. intros ot s add C Hot W V G En Ne Fa.
  destruct (D ot (ISingle (Raw s)) add C Hot) as (e & E & Dd); [now constructor|now constructor|exact G|exact En|]. exists e. split; [exact E|]. rewrite Dd.
  f_equal. exact (led_spaced scheme mark s Ns Ne (LoadedUnigramProofs.clean_valid s C) Fa).
Qed.
Print Assumptions C76_unigram_scheme_refuted.

(** Files with BPE models: pairs and lists of words as well. *)
Theorem C76_metaspace_inputs_partial : forall sort_start sort_id, sorts start_key sort_start -> sorts id_key sort_id ->
  forall order, (forall v, Permutation (order v) v) ->
  forall to32 lower base64 compile quoted u is_word cc mn sp lib graphemes (S : Type) (of_q : Q -> S) lt bot zero plus bonus penal dropping
    v ms mark scheme po pa c,
  metaspace_file lower compile quoted (tells_prefix lower compile quoted mark (prepends scheme)) v ms mark scheme po pa c ->
  exists l a, from_reader order to32 lower base64 compile quoted (Some c) = Ok l /\
    assemble u is_word cc mn sp lower lib graphemes of_q lt bot zero plus bonus penal dropping l = Ok a /\ tk_processor (as_tok a) = po /\ tk_padding (as_tok a) = pa /\
    forall ot x add, clean_inputs x -> ot <> OInvalid -> Forall (unwritten (c_added c)) (encode_texts x) ->
      Forall (fun s => Forall (fun c => white c = false -> vget (encode_rune c) v <> None) (runes s)) (encode_texts x) ->
      ends_with (special_ids (fun s => vget s v) (zlen v) (c_added c)) (dual x) add po pa ->
      exists e, tk_encode sort_start sort_id (as_tok a) ot x add = Ok (Some e) /\
        as_decode a (ids e) true = Ok (encode (led_text scheme mark (prepends scheme) (encode_texts x))).
Proof.
  intros ss si HS HI order HO to32 lower base64 compile quoted u is_word cc mn sp lib graphemes S of_q lt bot zero plus bonus penal dropping v ms mark scheme po pa c F.
  apply (bpe_file_inputs ss si HS HI order to32 lower base64 compile quoted u is_word cc mn sp lib graphemes of_q lt bot zero plus bonus penal dropping _ v ms mark scheme (prepends scheme) po pa c HO C54_bpe F).
  intros de H. exact (ConfigProofs.decoder_ok lower compile quoted _ _ H).
Qed.
Print Assumptions C76_metaspace_inputs_partial.

(** * Examples *)

(** A file with the unknown token, the mark, "a", "b" and the mark with "a"; "</s>" is put at the
    end.  Scores are in hundredths. *)
Definition un_voc : list (str * Q) := [(key "<unk>", inject_Z (-200)); (mt_mark, inject_Z (-100)); ([97]%N, inject_Z (-100)); ([98]%N, inject_Z (-100)); ((mt_mark ++ [97])%N, inject_Z (-20))].
Definition un_model : conf :=
  [(key "type", JStr (key "Unigram")); (key "unk_id", jint 0); (key "vocab", JArr (map (fun p => JArr [JStr (fst p); JNum (snd p)]) un_voc))].
Definition un_post : conf :=
  [(key "type", JStr (key "TemplateProcessing"));
   (key "single", JArr [JObj [(key "Sequence", JObj [(key "id", JStr (key "A")); (key "type_id", jint 0)])];
                        JObj [(key "SpecialToken", JObj [(key "id", JStr (key "</s>")); (key "type_id", jint 0)])]]);
   (key "special_tokens", JObj [(key "</s>", JObj [(key "id", JStr (key "</s>")); (key "ids", JArr [jint 5]); (key "tokens", JArr [JStr (key "</s>")])])])].
Definition un_file (dec : conf) : config :=
  Config None None [TC 0 (key "<unk>") false false false false true; TC 5 (key "</s>") false false false false true; TC 6 (mt_mark ++ [97; 98])%N false false false true false] None (Some ms_pre) (Some un_post) (Some dec) (Some un_model).
Definition un_processor : processor := PTemplate [PSeq false 0; PSpecial (key "</s>") 0] [] [(key "</s>", ([5], [key "</s>"]))].
Definition un_score (q : Q) : option Z := Some (Qnum q).
Lemma un_file_ok quoted dec (says : conf -> Prop) : says dec -> unigram_file (fun s => s) ms_compile quoted says un_voc (Some 0) true 9601 Always (Some un_processor) None (un_file dec).
Proof.
  intros Sd. exists un_model, ms_pre, dec. split; [reflexivity|]. split; [reflexivity|]. split; [reflexivity|]. split; [reflexivity|]. split; [reflexivity|].
  split; [|split; [|split; [exact Sd|split; [|split; [constructor|split; [|split; [|split; [left; reflexivity|split; [discriminate|split; [right; left; reflexivity|split]]]]]]]]]].
  - split; [apply MI_stated; stx 0|]. split; [stx 2|]. split; [stx 1|]. split; [intros k H; injection H as <-; reflexivity|]. split; [right; split; [om|reflexivity]|right; split; [om|reflexivity]].
  - apply (IP_metaspace_scheme _ _ _ _ _ _ _ (key "always") "always"); [st|left; st|reflexivity|st|reflexivity|now left].
  - constructor. apply IR_template; [st| | |].
    + left. eexists. split; [st|]. constructor; [|constructor; [|constructor]].
      * eapply PJ_first; [st|om|st|st].
      * eapply PJ_special; [st|om|st|st].
    + right. split; [om|reflexivity].
    + eexists. split; [st|]. split.
      * constructor; [|constructor]. eexists. split; [reflexivity|]. split; [st|]. split; st.
      * repeat constructor. easy.
  - repeat (constructor; [vm_compute; intuition discriminate|]). constructor.
  - repeat constructor; cbn [fst]; [exists [60; 117; 110; 107; 62]%N|exists [9601]%N|exists [97]%N|exists [98]%N|exists [9601; 97]%N]; (split; [repeat constructor; left; reflexivity|vm_compute; reflexivity]).
  - constructor; [|constructor; [|constructor; [|constructor]]]; (split; [discriminate|]); (split; [|intros H; first [discriminate H|vm_compute; intuition discriminate]]); try (apply plain_valid; reflexivity).
    exists [9601; 97; 98]%N. split; [repeat constructor; left; reflexivity|vm_compute; reflexivity].
  - intros [|k] p H E; [|injection H as H; lia]. injection E as <-. left. reflexivity.
Qed.
(** The text "a b" meets the assumptions. *)
Definition un_input : encode_input := ISingle (Raw [97; 32; 98]%N).
Lemma un_words : led_words Always 9601 (encode_texts un_input) = [mt_mark ++ [97]; mt_mark ++ [98]]%N /\ led_text Always 9601 true (encode_texts un_input) = [97; 32; 98]%N.
Proof. split; vm_compute; reflexivity. Qed.
Definition un_g : unigram := UG (map (fun p => (fst p, un_score (snd p))) un_voc) (Some 0) false true.
Lemma un_scored w : In w [mt_mark ++ [97]; mt_mark ++ [98]]%N -> exists gs, segmentation un_g w gs /\ zlt None (total zlt (Some 0) zplus zbonus zpenal un_g gs) = true.
Proof.
  assert (En : forall k t sc, nth_error (ug_vocab un_g) k = Some (t, sc) -> entry (ug_vocab un_g) t k sc).
  { intros k t sc H. apply UnigramProofs.nodup_entry; [|exact H]. repeat (constructor; [vm_compute; intuition discriminate|]). constructor. }
  intros [<-|[<-|[]]].
  - exists [Known (mt_mark ++ [97])%N 4 (Some (-20))]. split; [|reflexivity]. rewrite <- (app_nil_r (mt_mark ++ [97])%N). apply (seg_cons un_g (Known (mt_mark ++ [97])%N 4 (Some (-20))) [] []); [|constructor]. split; [apply En; reflexivity|vm_compute; lia].
  - exists [Known mt_mark 1 (Some (-100)); Known [98]%N 3 (Some (-100))]. split; [|reflexivity].
    apply (seg_cons un_g (Known mt_mark 1 (Some (-100))) [98]%N); [split; [apply En; reflexivity|vm_compute; lia]|]. change [98]%N with ([98] ++ [])%N.
    apply (seg_cons un_g (Known [98]%N 3 (Some (-100))) [] []); [split; [apply En; reflexivity|cbn; lia]|constructor].
Qed.
Example C76_unigram_meets : exists l a, from_reader (fun v => v) (fun q => q) (fun s => s) (fun _ => Err) ms_compile (fun _ _ => []) (Some (un_file ms_dec)) = Ok l /\
  assemble u55 (fun _ => false) (fun _ => false) (fun _ => false) (fun _ => false) (fun s => s) lf_lib (fun _ => []) un_score zlt None (Some 0) zplus zbonus zpenal (fun _ _ _ => Err) l = Ok a /\
  exists e, tk_encode (isort start_key) (isort id_key) (as_tok a) OByte un_input true = Ok (Some e) /\ as_decode a (ids e) true = Ok [97; 32; 98]%N.
Proof.
  destruct (C76_unigram_partial (isort start_key) (isort id_key) (isort_sorts start_key) (isort_sorts id_key) (fun v => v) (fun q => q) (fun s => s) (fun _ => Err) ms_compile (fun _ _ => []) u55 (fun _ => false) (fun _ => false) (fun _ => false) (fun _ => false) lf_lib (fun _ => [])
    (option Z) un_score zlt None (Some 0) zplus zbonus zpenal (fun _ _ _ => Err) UnigramProofs.zlaws un_voc (Some 0) true 9601%N Always (Some un_processor) None (un_file ms_dec) (un_file_ok _ _ _ (ms_dec_ok _))) as (l & a & E1 & E2 & _ & _ & _ & D).
  exists l, a. split; [exact E1|]. split; [exact E2|].
  assert (Sc : Forall scalar [97; 32; 98]%N) by (repeat (constructor; [left; reflexivity|]); constructor).
  destruct (D OByte un_input true) as (e & E & Dd).
  - exists [97; 32; 98]%N. split; [exact Sc|]. split; [repeat (constructor; [discriminate|]); constructor|reflexivity].
  - discriminate.
  - constructor; [|constructor]. intros t x z H E. destruct H as [<-|[<-|[<-|[]]]]; apply (f_equal (@length N)) in E; rewrite !app_length in E; cbn in E; lia.
  - constructor; [|constructor]. change (runes [97; 32; 98]%N) with [97; 32; 98]%N. constructor; [intros _; vm_compute; auto 6|]. constructor; [intros H; discriminate H|]. constructor; [intros _; vm_compute; auto 6|constructor].
  - rewrite (proj1 un_words). apply Forall_forall. exact un_scored.
  - split; [|exact I]. split.
    + eapply returning_template; [now left|]. constructor; [intros H; discriminate H|]. constructor; [intros _; vm_compute; discriminate|constructor].
    + split; [reflexivity|]. intros _ id k H. cbn [aget] in H. destruct (str_eqb id _); [|discriminate H]. injection H as <-. constructor; [vm_compute; reflexivity|constructor].
  - exists e. split; [exact E|]. rewrite Dd. change (prepends Always) with true. rewrite (proj2 un_words). reflexivity.
Qed.
Definition un_decoded (dec : conf) (x : encode_input) : option (list Z * res str) :=
  match from_reader (fun v => v) (fun q => q) (fun s => s) (fun _ => Err) ms_compile (fun _ _ => []) (Some (un_file dec)) with
  | Ok l => match assemble u55 (fun _ => false) (fun _ => false) (fun _ => false) (fun _ => false) (fun s => s) lf_lib (fun _ => []) un_score zlt None (Some 0) zplus zbonus zpenal (fun _ _ _ => Err) l with
            | Ok a => match tk_encode (isort start_key) (isort id_key) (as_tok a) OByte x true with Ok (Some e) => Some (ids e, as_decode a (ids e) true) | _ => None end
            | _ => None
            end
  | _ => None
  end.
(** A list of words comes back with spaces between the words. *)
Example C76_unigram_example : un_decoded ms_dec un_input = Some ([4; 1; 3; 5], Ok [97; 32; 98]%N) /\ un_decoded ms_pre un_input = Some ([4; 1; 3; 5], Ok [32; 97; 32; 98]%N) /\
  un_decoded ms_dec (ISingle (Words [[97]; [98]; [97]]%N)) = Some ([4; 1; 3; 4; 5], Ok [97; 32; 98; 32; 97]%N) /\
  ms_decoded ms_dec [97; 32; 98]%N = Some ([3; 0; 2; 4], Ok [97; 32; 98]%N).
Proof. vm_compute. repeat split. Qed.
