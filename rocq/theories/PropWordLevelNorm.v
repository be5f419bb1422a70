(** C85: word-level tokenizers loaded from files with a normalizer and listed tokens of both kinds. *)
From Coq Require Import String QArith.
From Verif Require Import Base BaseProofs Utf8Model Utf8Proofs NormalizedModel NormalizedSpec EncodingModel BpeModel WordPieceModel AddedVocabModel AddedVocabSpec AddedFindProofs AddedPatternModel DecoderModel PreTokenizedModel PreTokenizedSpec PreTokenizerModel PreTokenizerSpec
  ProcessorModel PipelineModel PipelineSpec PlacedProofs SpmModel UnicodeNormModel PretrainedModel ReturnSpec RoundTripSpec WordsSpec ConfigModel ConfigSpec ConfigLoadProofs PropByteLevel PropPipeline PropReturn PropRoundTrip PropConfig
  LoadedModel LoadedSpec LoadedProofs PropLoaded LoadedWordsSpec WordLevelSpec WordLevelProofs PropWordLevel WordLevelNormSpec WordLevelNormProofs.
Open Scope Z_scope.
Open Scope list_scope.

(** Texts in which no listed token is written, neither before nor after normalizing: the words of
    the normalized texts are seen. *)
Theorem C85_normalized_partial : forall sort_start sort_id, sorts start_key sort_start -> sorts id_key sort_id ->
  forall order, (forall v, Permutation (order v) v) ->
  forall to32 lower base64 compile quoted u is_word cc mn sp lib graphemes (S : Type) (of_q : Q -> S) lt bot zero plus bonus penal dropping
    v unk no pre cut po pa c,
  wordlevel_norm_file lower base64 compile quoted v unk no pre po pa c -> cutting pre -> documented u pre = Some cut ->
  exists l a, from_reader order to32 lower base64 compile quoted (Some c) = Ok l /\
    assemble u is_word cc mn sp lower lib graphemes of_q lt bot zero plus bonus penal dropping l = Ok a /\ tk_processor (as_tok a) = po /\ tk_padding (as_tok a) = pa /\
    forall ot x ts add, clean_inputs x -> ot <> OInvalid ->
      Forall2 (fun s t => becomes cc mn lower no s t /\ unwritten (c_added c) s /\ unwritten (c_added c) t) (encode_texts x) ts ->
      ends_with (special_ids (fun s => vget s v) (zlen v) (c_added c)) (dual x) add po pa ->
      exists e xss, tk_encode sort_start sort_id (as_tok a) ot x add = Ok (Some e) /\
        Forall2 (word_seen v unk (specials (c_added c))) (flat_map (cut_words cut) ts) xss /\
        as_decode a (ids e) true = Ok (spaced_out (concat xss)).
Proof.
  intros ss si HS HI order HO to32 lower base64 compile quoted u is_word cc mn sp lib graphemes S of_q lt bot zero plus bonus penal dropping v unk no pre cut po pa c F Ct Doc.
  exact (norm_words_loaded ss si HS HI order HO to32 lower base64 compile quoted u is_word cc mn sp lib graphemes of_q lt bot zero plus bonus penal dropping C54_wordlevel C71_wordlevel
    v unk no pre cut po pa c F (C54_pre_tokenizers u pre (cutting_placed pre Ct)) (C71_pre_tokenizers u pre Ct) Doc).
Qed.
Print Assumptions C85_normalized_partial.

(** The file of C85_meets that turns texts to lower case, with the ordinary token "<b>". *)
Definition ascii_lower (s : str) : str := map (fun c => if (65 <=? c) && (c <=? 90) then c + 32 else c)%N s.
Definition wn_added : list token_config := [TC 1 (key "[CLS]") false false false false true; TC 4 (key "<b>") false false false true false].
Definition wn_norm : conf := [(key "type", JStr (key "Lowercase"))].
Definition wn_file : config := Config None None wn_added (Some wn_norm) (Some wf_pre) (Some wf_post) None (Some wf_model).
Lemma wn_ok lower base64 compile quoted : wordlevel_norm_file lower base64 compile quoted wf_vocab (key "[UNK]") (Some NLowercase) PTWhitespaceSplit (Some wf_processor) None wn_file.
Proof.
  destruct (wf_ok lower compile quoted) as (mo & pt & C1 & C2 & C3 & C4 & C5 & T & V & H1 & H2 & Ip & Ipo & Ipa & Nu & Vu & _).
  exists mo, pt. split; [exact C1|]. split; [exact C2|]. split; [exact C4|]. split; [exact C5|]. split; [exact T|]. split; [exact V|]. split; [exact H1|]. split; [exact H2|].
  split; [constructor; apply (IN_plain _ _ _ _ _ "Lowercase"); [cbn; tauto|st]|]. split; [exact Ip|]. split; [exact Ipo|]. split; [exact Ipa|]. split; [exact Nu|]. split; [exact Vu|].
  constructor; [|constructor; [|constructor]]; (split; [discriminate|split; [apply plain_valid; reflexivity|reflexivity]]).
Qed.
Definition wn_text : str := key "HE x SeeS".
Example C85_normalized_meets cc mn : cutting PTWhitespaceSplit /\ clean_inputs (ISingle (Raw wn_text)) /\
  Forall2 (fun s t => becomes cc mn ascii_lower (Some NLowercase) s t /\ unwritten (c_added wn_file) s /\ unwritten (c_added wn_file) t) (encode_texts (ISingle (Raw wn_text))) [key "he x sees"] /\
  ends_with (special_ids (fun s => vget s wf_vocab) (zlen wf_vocab) (c_added wn_file)) false true (Some wf_processor) None.
Proof.
  assert (Cl : forall s, forallb (fun c => (0 <? c) && (c <? 128))%N s = true -> clean s).
  { intros s H. exists s. rewrite forallb_forall in H. split; [|split].
    - apply Forall_forall. intros c Hc. specialize (H c Hc). apply andb_prop in H as [_ H]. apply N.ltb_lt in H. left. apply (N.lt_trans _ 128); [exact H|reflexivity].
    - apply Forall_forall. intros c Hc ->. now specialize (H _ Hc).
    - induction s as [|c s IH]; [reflexivity|]. rewrite encode_cons, <- IH by (intros x Hx; apply H; now right). specialize (H c (or_introl eq_refl)). apply andb_prop in H as [_ H]. unfold encode_rune. now rewrite H. }
  assert (Un : forall s, ~ In 91%N s -> ~ In 60%N s -> unwritten wn_added s).
  { intros s H1 H2 t a z Ht E. destruct Ht as [<-|[<-|[]]]; [apply H1|apply H2]; rewrite E; apply in_or_app; right; apply in_or_app; left; now left. }
  split; [exact I|]. split; [apply Cl; reflexivity|]. split.
  - constructor; [|constructor]. split; [split; [reflexivity|split; [reflexivity|apply Cl; reflexivity]]|]. split; apply Un; cbn; intuition discriminate.
  - split; [split|exact I].
    + eapply returning_template; [cbn; tauto|]. repeat (constructor; [first [intros H; discriminate H|intros _; vm_compute; discriminate]|]). constructor.
    + split; [reflexivity|]. intros _ id l H. cbn [aget] in H. destruct (str_eqb id _); [injection H as <-; constructor; [vm_compute; reflexivity|constructor]|discriminate H].
Qed.
Example C85_normalized_computed :
  match from_reader (fun v => v) (fun q => q) ascii_lower (fun _ => Err) (fun _ => None) (fun _ _ => []) (Some wn_file) with
  | Ok l => match assemble u55 (fun _ => false) (fun _ => false) (fun _ => false) (fun _ => false) ascii_lower lf_lib (fun _ => []) (fun q => q) (fun _ _ => false) 0%Q 0%Q Qplus (fun _ => 0%Q) (fun q => q) (fun _ _ _ => Err) l with
    | Ok a => match tk_encode (isort start_key) (isort id_key) (as_tok a) OByte (ISingle (Raw wn_text)) true with
      | Ok (Some e) => Some (ids e, as_decode a (ids e) true)
      | _ => None end
    | _ => None end
  | _ => None end = Some ([1; 2; 0; 3], Ok (key "he [UNK] sees")).
Proof. vm_compute. reflexivity. Qed.
