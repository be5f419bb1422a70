(** C85: a word-level tokenizer loaded from a file without a decoder decodes to the words of the text with single spaces. *)
From Coq Require Import String QArith.
From Verif Require Import Base BaseProofs Utf8Model Utf8Proofs NormalizedModel NormalizedSpec EncodingModel BpeModel WordPieceModel AddedVocabModel AddedVocabSpec AddedFindProofs AddedPatternModel DecoderModel PreTokenizedModel PreTokenizedSpec PreTokenizerModel PreTokenizerSpec
  ProcessorModel PipelineModel PipelineSpec PlacedProofs SpmModel UnicodeNormModel PretrainedModel ReturnSpec RoundTripSpec WordsSpec ConfigModel ConfigSpec ConfigLoadProofs PropByteLevel PropPipeline PropReturn PropRoundTrip PropConfig
  LoadedModel LoadedSpec LoadedProofs PropLoaded LoadedWordsSpec WordLevelSpec WordLevelProofs.
Open Scope Z_scope.
Open Scope list_scope.

(** Any pre-tokenizer that is documented to cut text; texts in which no listed token is written, when
    special tokens are skipped. *)
Theorem C85_words_partial : forall sort_start sort_id, sorts start_key sort_start -> sorts id_key sort_id ->
  forall order, (forall v, Permutation (order v) v) ->
  forall to32 lower base64 compile quoted u is_word cc mn sp lib graphemes (S : Type) (of_q : Q -> S) lt bot zero plus bonus penal dropping
    v unk pre cut po pa c,
  wordlevel_file lower compile quoted v unk pre po pa c -> cutting pre -> documented u pre = Some cut ->
  exists l a, from_reader order to32 lower base64 compile quoted (Some c) = Ok l /\
    assemble u is_word cc mn sp lower lib graphemes of_q lt bot zero plus bonus penal dropping l = Ok a /\ tk_processor (as_tok a) = po /\ tk_padding (as_tok a) = pa /\
    forall ot x add, clean_inputs x -> ot <> OInvalid -> Forall (unwritten (c_added c)) (encode_texts x) ->
      ends_with (special_ids (fun s => vget s v) (zlen v) (c_added c)) (dual x) add po pa ->
      exists e xss, tk_encode sort_start sort_id (as_tok a) ot x add = Ok (Some e) /\
        Forall2 (word_seen v unk (specials (c_added c))) (flat_map (cut_words cut) (encode_texts x)) xss /\
        as_decode a (ids e) true = Ok (spaced_out (concat xss)).
Proof.
  intros ss si HS HI order HO to32 lower base64 compile quoted u is_word cc mn sp lib graphemes S of_q lt bot zero plus bonus penal dropping v unk pre cut po pa c F Ct Doc.
  destruct (words_loaded ss si HS HI order HO to32 lower base64 compile quoted u is_word cc mn sp lib graphemes of_q lt bot zero plus bonus penal dropping C54_wordlevel C71_wordlevel
    v unk pre cut po pa c F (C54_pre_tokenizers u pre (cutting_placed pre Ct)) (C71_pre_tokenizers u pre Ct) Doc) as (l & a & E1 & E2 & E3 & E4 & D).
  exists l, a. split; [exact E1|]. split; [exact E2|]. split; [exact E3|]. split; [exact E4|]. intros ot x add C Hot W En. destruct (D ot x add C Hot En) as (e & ws & xss & D1 & _ & D2 & D3 & D4). exists e, xss. rewrite <- (D2 W). auto.
Qed.
Print Assumptions C85_words_partial.

(** Any text: the words between the listed tokens that are found in it. *)
Theorem C85_added_partial : forall sort_start sort_id, sorts start_key sort_start -> sorts id_key sort_id ->
  forall order, (forall v, Permutation (order v) v) ->
  forall to32 lower base64 compile quoted u is_word cc mn sp lib graphemes (S : Type) (of_q : Q -> S) lt bot zero plus bonus penal dropping
    v unk pre cut po pa c,
  wordlevel_file lower compile quoted v unk pre po pa c -> cutting pre -> documented u pre = Some cut ->
  exists l a, from_reader order to32 lower base64 compile quoted (Some c) = Ok l /\
    assemble u is_word cc mn sp lower lib graphemes of_q lt bot zero plus bonus penal dropping l = Ok a /\
    forall ot x add, clean_inputs x -> ot <> OInvalid ->
      ends_with (special_ids (fun s => vget s v) (zlen v) (c_added c)) (dual x) add po pa ->
      exists e ws xss, tk_encode sort_start sort_id (as_tok a) ot x add = Ok (Some e) /\ input_words sort_start sort_id (as_tok a) cut x ws /\
        Forall2 (word_seen v unk (specials (c_added c))) ws xss /\ as_decode a (ids e) true = Ok (spaced_out (concat xss)).
Proof.
  intros ss si HS HI order HO to32 lower base64 compile quoted u is_word cc mn sp lib graphemes S of_q lt bot zero plus bonus penal dropping v unk pre cut po pa c F Ct Doc.
  destruct (words_loaded ss si HS HI order HO to32 lower base64 compile quoted u is_word cc mn sp lib graphemes of_q lt bot zero plus bonus penal dropping C54_wordlevel C71_wordlevel
    v unk pre cut po pa c F (C54_pre_tokenizers u pre (cutting_placed pre Ct)) (C71_pre_tokenizers u pre Ct) Doc) as (l & a & E1 & E2 & _ & _ & D).
  exists l, a. split; [exact E1|]. split; [exact E2|]. intros ot x add C Hot En. destruct (D ot x add C Hot En) as (e & ws & xss & D1 & D0 & _ & D3 & D4). exists e, ws, xss. auto.
Qed.
Print Assumptions C85_added_partial.

(** With a pre-tokenizer that cuts at white space, a text of words of the vocabulary with single
    spaces between them comes back as it was. *)
Theorem C85_text_partial : forall sort_start sort_id, sorts start_key sort_start -> sorts id_key sort_id ->
  forall order, (forall v, Permutation (order v) v) ->
  forall to32 lower base64 compile quoted u is_word cc mn sp lib graphemes (S : Type) (of_q : Q -> S) lt bot zero plus bonus penal dropping
    v unk po pa c,
  wordlevel_file lower compile quoted v unk PTWhitespaceSplit po pa c ->
  exists l a, from_reader order to32 lower base64 compile quoted (Some c) = Ok l /\
    assemble u is_word cc mn sp lower lib graphemes of_q lt bot zero plus bonus penal dropping l = Ok a /\
    forall ot ws add, Forall (fun w => In w (map fst v) /\ ~ In w (specials (c_added c)) /\ w <> [] /\ Forall (fun c => c <> 32 /\ c <> 9 /\ c <> 10 /\ c <> 13)%N (runes w)) ws ->
      clean (spaced_out ws) -> Forall clean ws -> ot <> OInvalid -> unwritten (c_added c) (spaced_out ws) ->
      ends_with (special_ids (fun s => vget s v) (zlen v) (c_added c)) false add po pa ->
      exists e, tk_encode sort_start sort_id (as_tok a) ot (ISingle (Raw (spaced_out ws))) add = Ok (Some e) /\ as_decode a (ids e) true = Ok (spaced_out ws).
Proof.
  intros ss si HS HI order HO to32 lower base64 compile quoted u is_word cc mn sp lib graphemes S of_q lt bot zero plus bonus penal dropping v unk po pa c F.
  destruct (C85_words_partial ss si HS HI order HO to32 lower base64 compile quoted u is_word cc mn sp lib graphemes S of_q lt bot zero plus bonus penal dropping v unk PTWhitespaceSplit _ po pa c F I eq_refl) as (l & a & E1 & E2 & _ & _ & D).
  exists l, a. split; [exact E1|]. split; [exact E2|]. intros ot ws add Fw C Cw Hot W En.
  destruct (D ot (ISingle (Raw (spaced_out ws))) add C Hot) as (e & xss & Ee & X & Dd); [constructor; [exact W|constructor]|exact En|]. exists e. split; [exact Ee|]. rewrite Dd. f_equal. f_equal.
  cbn [encode_texts input_texts flat_map] in X. rewrite app_nil_r, spaced_words in X.
  - clear -Fw X. induction X as [|w xs ws xss (x & H1 & H2) X IH]; [reflexivity|]. apply Forall_cons_iff in Fw as [(W1 & W2 & _) Fw]. cbn [concat]. rewrite (IH Fw). destruct H1 as [[_ ->]|[H1 _]]; [|contradiction]. destruct H2 as [[H2 _]|[_ ->]]; [contradiction|reflexivity].
  - apply Forall_forall. intros w Hw. rewrite Forall_forall in Fw, Cw. destruct (Fw w Hw) as (_ & _ & Ne & H). split; [exact Ne|]. split; [destruct (Cw w Hw) as (rs & Sc & _ & ->); now exists rs|].
    eapply Forall_impl; [|exact H]. intros ch (h1 & h2 & h3 & h4). unfold is_white. apply orb_false_intro; [apply orb_false_intro; [apply orb_false_intro|]|]; now apply N.eqb_neq.
Qed.
Print Assumptions C85_text_partial.

(** Refuted: that every text comes back.  No text with a tab or a line break does, if the unknown
    token has none. *)
Theorem C85_text_refuted : forall sort_start sort_id, sorts start_key sort_start -> sorts id_key sort_id ->
  forall order, (forall v, Permutation (order v) v) ->
  forall to32 lower base64 compile quoted u is_word cc mn sp lib graphemes (S : Type) (of_q : Q -> S) lt bot zero plus bonus penal dropping
    v unk po pa c,
  wordlevel_file lower compile quoted v unk PTWhitespaceSplit po pa c ->
  exists l a, from_reader order to32 lower base64 compile quoted (Some c) = Ok l /\
    assemble u is_word cc mn sp lower lib graphemes of_q lt bot zero plus bonus penal dropping l = Ok a /\
    forall b ot s add, (b = 9 \/ b = 10 \/ b = 13)%N -> In b s -> ~ In b unk -> clean s -> ot <> OInvalid -> unwritten (c_added c) s ->
      ends_with (special_ids (fun s => vget s v) (zlen v) (c_added c)) false add po pa ->
      exists e, tk_encode sort_start sort_id (as_tok a) ot (ISingle (Raw s)) add = Ok (Some e) /\ as_decode a (ids e) true <> Ok s.
Proof.
  intros ss si HS HI order HO to32 lower base64 compile quoted u is_word cc mn sp lib graphemes S of_q lt bot zero plus bonus penal dropping v unk po pa c F.
  destruct (C85_words_partial ss si HS HI order HO to32 lower base64 compile quoted u is_word cc mn sp lib graphemes S of_q lt bot zero plus bonus penal dropping v unk PTWhitespaceSplit _ po pa c F I eq_refl) as (l & a & E1 & E2 & _ & _ & D).
  exists l, a. split; [exact E1|]. split; [exact E2|]. intros b ot s add Hb Hs Hu C Hot W En.
  destruct (D ot (ISingle (Raw s)) add C Hot) as (e & xss & Ee & X & Dd); [constructor; [exact W|constructor]|exact En|]. exists e. split; [exact Ee|]. rewrite Dd. intros [= Q]. rewrite <- Q in Hs.
  cbn [encode_texts input_texts flat_map] in X. rewrite app_nil_r in X. apply in_spaced in Hs as [->|(y & Hy & H)]; [destruct Hb as [Hb|[Hb|Hb]]; discriminate Hb|].
  assert (K : forall ws, Forall2 (word_seen v unk (specials (c_added c))) ws xss -> incl ws (cut_words (words_of is_white) s) -> False).
  { clear -Hy H Hb Hu. intros ws X. revert Hy. induction X as [|w xs ws xss (x & H1 & H2) X IH]; intros Hy I; [easy|]. cbn [concat] in Hy. apply in_app_or in Hy as [Hy|Hy]; [|apply IH; [exact Hy|intros z Hz; apply I; now right]].
    destruct H2 as [[_ ->]|[_ ->]]; [easy|]. destruct Hy as [->|[]]. destruct H1 as [[_ ->]|[_ ->]]; [|contradiction]. exact (no_breaks b s w Hb (I w (or_introl eq_refl)) H). }
  exact (K _ X (incl_refl _)).
Qed.
Print Assumptions C85_text_refuted.

(** * Examples *)

(** A small file with a post-processor that puts [CLS] in front, for texts of the words "he" and "sees". *)
Definition wf_vocab : vocab := [(key "[UNK]", 0); (key "[CLS]", 1); (key "he", 2); (key "sees", 3)].
Definition wf_model : conf := [(key "type", JStr (key "WordLevel")); (key "vocab", JObj (map (fun p => (fst p, jint (snd p))) wf_vocab)); (key "unk_token", JStr (key "[UNK]"))].
Definition wf_pre : conf := [(key "type", JStr (key "WhitespaceSplit"))].
Definition wf_post : conf :=
  [(key "type", JStr (key "TemplateProcessing"));
   (key "single", JArr [JObj [(key "SpecialToken", JObj [(key "id", JStr (key "[CLS]")); (key "type_id", jint 0)])];
                        JObj [(key "Sequence", JObj [(key "id", JStr (key "A")); (key "type_id", jint 0)])]]);
   (key "special_tokens", JObj [(key "[CLS]", JObj [(key "id", JStr (key "[CLS]")); (key "ids", JArr [jint 1]); (key "tokens", JArr [JStr (key "[CLS]")])])])].
Definition wf_added : list token_config := [TC 1 (key "[CLS]") true false false false true].
Definition wf_file : config := Config None None wf_added None (Some wf_pre) (Some wf_post) None (Some wf_model).
Definition wf_processor : processor := PTemplate [PSpecial (key "[CLS]") 0; PSeq false 0] [] [(key "[CLS]", ([1], [key "[CLS]"]))].
Lemma wf_ok lower compile quoted : wordlevel_file lower compile quoted wf_vocab (key "[UNK]") PTWhitespaceSplit (Some wf_processor) None wf_file.
Proof.
  assert (Nm : numbered wf_vocab) by (apply numberedb_ok; vm_compute; reflexivity).
  exists wf_model, wf_pre. split; [reflexivity|]. split; [reflexivity|]. split; [reflexivity|]. split; [reflexivity|]. split; [reflexivity|].
  split; [apply MI_stated; st|]. split; [split; [st|exact (proj1 Nm)]|]. split; [left; st|]. split; [discriminate|].
  split; [apply (IP_plain _ _ _ _ _ "WhitespaceSplit"); [cbn; tauto|st]|]. split; [|split; [constructor|split; [exact Nm|split; [now left|]]]].
  - constructor. apply IR_template; [st| | |].
    + left. eexists. split; [st|]. constructor; [|constructor; [|constructor]].
      * eapply PJ_special; [st|om|st|st].
      * eapply PJ_first; [st|om|st|st].
    + right. split; [om|reflexivity].
    + eexists. split; [st|]. split.
      * constructor; [|constructor]. eexists; split; [reflexivity|]; split; [st|]; split; st.
      * repeat ne. constructor.
  - constructor; [|constructor]. split; [reflexivity|]. split; [discriminate|]. apply plain_valid; reflexivity.
Qed.
Lemma wf_unwritten s : ~ In 91%N s -> unwritten wf_added s.
Proof. intros H t a z Ht E. apply H. rewrite E. apply in_or_app. right. apply in_or_app. left. destruct Ht as [<-|[]]. now left. Qed.
(** [he sees], and [he  x] with two spaces, whose second word becomes the unknown token. *)
Definition wf_text : str := [104; 101; 32; 115; 101; 101; 115]%N.
Example C85_meets : cutting PTWhitespaceSplit /\ wf_text = spaced_out [key "he"; key "sees"] /\
  Forall (fun w => In w (map fst wf_vocab) /\ ~ In w (specials (c_added wf_file)) /\ w <> [] /\ Forall (fun c => c <> 32 /\ c <> 9 /\ c <> 10 /\ c <> 13)%N (runes w)) [key "he"; key "sees"] /\
  clean wf_text /\ Forall clean [key "he"; key "sees"] /\ unwritten (c_added wf_file) wf_text /\
  ends_with (special_ids (fun s => vget s wf_vocab) (zlen wf_vocab) (c_added wf_file)) false true (Some wf_processor) None.
Proof.
  assert (Cl : forall s, forallb (fun c => (0 <? c) && (c <? 128))%N s = true -> runes s = s -> clean s).
  { intros s H E. exists s. rewrite forallb_forall in H. split; [|split].
    - apply Forall_forall. intros c Hc. specialize (H c Hc). apply andb_prop in H as [_ H]. apply N.ltb_lt in H. left. apply (N.lt_trans _ 128); [exact H|reflexivity].
    - apply Forall_forall. intros c Hc ->. now specialize (H _ Hc).
    - clear E. induction s as [|c s IH]; [reflexivity|]. rewrite encode_cons, <- IH by (intros x Hx; apply H; now right). specialize (H c (or_introl eq_refl)). apply andb_prop in H as [_ H]. unfold encode_rune. now rewrite H. }
  split; [exact I|]. split; [reflexivity|]. split; [|split; [|split; [|split]]].
  - constructor; [|constructor; [|constructor]]; (split; [cbn; tauto|split; [cbn; intuition discriminate|split; [discriminate|]]]); vm_compute; repeat (constructor; [repeat split; discriminate|]); constructor.
  - apply Cl; reflexivity.
  - constructor; [apply Cl; reflexivity|constructor; [apply Cl; reflexivity|constructor]].
  - apply wf_unwritten. cbn. intuition discriminate.
  - split; [split|exact I].
    + eapply returning_template; [cbn; tauto|]. repeat (constructor; [first [intros H; discriminate H|intros _; vm_compute; discriminate]|]). constructor.
    + split; [reflexivity|]. intros _ id l H. cbn [aget] in H. destruct (str_eqb id _); [injection H as <-; constructor; [vm_compute; reflexivity|constructor]|discriminate H].
Qed.
Example C85_unknown : cut_words (words_of is_white) [104; 101; 32; 32; 120]%N = [key "he"; [120]%N] /\
  word_seen wf_vocab (key "[UNK]") (specials wf_added) (key "he") [key "he"] /\ word_seen wf_vocab (key "[UNK]") (specials wf_added) [120]%N [key "[UNK]"].
Proof.
  split; [reflexivity|]. split.
  - exists (key "he"). split; [left; split; [cbn; tauto|reflexivity]|right; split; [cbn; intuition discriminate|reflexivity]].
  - exists (key "[UNK]"). split; [right; split; [cbn; intuition discriminate|reflexivity]|right; split; [cbn; intuition discriminate|reflexivity]].
Qed.
(** The whole computation for [he  x]: the decoded text has one space and the unknown token; and for
    [he [CLS] sees], where the token in the text is found and left out. *)
Definition wf_run (s : str) : option (list Z * res str) :=
  match from_reader (fun v => v) (fun q => q) (fun s => s) (fun _ => Err) (fun _ => None) (fun _ _ => []) (Some wf_file) with
  | Ok l => match assemble u55 (fun _ => false) (fun _ => false) (fun _ => false) (fun _ => false) (fun s => s) lf_lib (fun _ => []) (fun q => q) (fun _ _ => false) 0%Q 0%Q Qplus (fun _ => 0%Q) (fun q => q) (fun _ _ _ => Err) l with
    | Ok a => match tk_encode (isort start_key) (isort id_key) (as_tok a) OByte (ISingle (Raw s)) true with
      | Ok (Some e) => Some (ids e, as_decode a (ids e) true)
      | _ => None end
    | _ => None end
  | _ => None end.
Example C85_computed : wf_run [104; 101; 32; 32; 120]%N = Some ([1; 2; 0], Ok [104; 101; 32; 91; 85; 78; 75; 93]%N) /\
  wf_run (key "he [CLS] sees") = Some ([1; 2; 1; 3], Ok wf_text).
Proof. split; vm_compute; reflexivity. Qed.
