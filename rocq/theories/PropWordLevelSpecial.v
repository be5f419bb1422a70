(** C85: special tokens written in the texts that a word-level tokenizer loaded from a file with a
    normalizer encodes. *)
From Coq Require Import String QArith.
From Verif Require Import Base BaseProofs Utf8Model Utf8Proofs NormalizedModel NormalizedSpec EncodingModel BpeModel WordPieceModel AddedVocabModel AddedVocabSpec AddedFindProofs AddedPatternModel DecoderModel PreTokenizedModel PreTokenizedSpec PreTokenizerModel PreTokenizerSpec
  ProcessorModel PipelineModel PipelineSpec PlacedProofs SpmModel UnicodeNormModel PretrainedModel ReturnSpec RoundTripSpec WordsSpec ConfigModel ConfigSpec ConfigLoadProofs PropByteLevel PropPipeline PropReturn PropRoundTrip PropConfig
  LoadedModel LoadedSpec LoadedProofs PropLoaded LoadedWordsSpec WordLevelSpec WordLevelProofs PropWordLevel WordLevelNormSpec ItemsSpec WordLevelPartsProofs PropWordLevelNorm OrderSpec OrderProofs.
Open Scope Z_scope.
Open Scope list_scope.

(** Files whose listed tokens are special and stand between two characters that are not in them
    otherwise; tokens written in a text in the order in which the file lists them are gone, and the words
    of what stands between them, normalized, are seen. *)
Theorem C85_special_partial : forall sort_start sort_id, sorts start_key sort_start -> sorts id_key sort_id ->
  forall order, (forall v, Permutation (order v) v) ->
  forall to32 lower base64 compile quoted u is_word cc mn sp lib graphemes (S : Type) (of_q : Q -> S) lt bot zero plus bonus penal dropping
    v unk no pre cut po pa c l0 op cl, op <> cl ->
  wordlevel_norm_file lower base64 compile quoted v unk no pre po pa c -> cutting pre -> documented u pre = Some cut ->
  Forall plain_special (c_added c) -> NoDup (map tc_content (c_added c)) -> Forall (fun t => enclosed op cl (tc_content t)) (c_added c) -> with_ids (fun s => vget s v) (zlen v) (c_added c) l0 ->
  exists l a, from_reader order to32 lower base64 compile quoted (Some c) = Ok l /\
    assemble u is_word cc mn sp lower lib graphemes of_q lt bot zero plus bonus penal dropping l = Ok a /\ tk_processor (as_tok a) = po /\ tk_padding (as_tok a) = pa /\
    forall ot x qs ts add, clean_inputs x -> ot <> OInvalid -> encode_texts x = map (fun q => written (fst q) (snd q)) qs ->
      Forall (fun q => in_order l0 (snd q)) qs ->
      Forall2 (fun s t => clean s /\ free_of (map tc_content (c_added c)) s /\ becomes cc mn lower no s t) (flat_map between qs) ts ->
      ends_with (special_ids (fun s => vget s v) (zlen v) (c_added c)) (dual x) add po pa ->
      exists e xss, tk_encode sort_start sort_id (as_tok a) ot x add = Ok (Some e) /\
        Forall2 (word_seen v unk (specials (c_added c))) (flat_map (cut_words cut) ts) xss /\
        as_decode a (ids e) true = Ok (spaced_out (concat xss)).
Proof.
  intros ss si HS HI order HO to32 lower base64 compile quoted u is_word cc mn sp lib graphemes S of_q lt bot zero plus bonus penal dropping v unk no pre cut po pa c l0 op cl Noc F Ct Doc.
  intros Pl Nd Enc W. destruct (words_between_tokens ss si HS HI order HO to32 lower base64 compile quoted u is_word cc mn sp lib graphemes of_q lt bot zero plus bonus penal dropping C54_wordlevel C71_wordlevel
    v unk no pre cut po pa c l0 op cl Noc F (C54_pre_tokenizers u pre (cutting_placed pre Ct)) (C71_pre_tokenizers u pre Ct) Doc Pl Nd Enc W) as (l & a & E1 & E2 & E3 & E4 & D).
  exists l, a. split; [exact E1|]. split; [exact E2|]. split; [exact E3|]. split; [exact E4|]. intros ot x qs ts add C Hot Ex O Pa En. apply (D ot x qs ts add C Hot Ex); [|clear -Pa; induction Pa as [|s t P ts H Pa IH]; constructor; [tauto|exact IH]|exact En].
  apply (cut_ordered op cl Noc ss si HS HI _ _ _ _ Nd Enc W qs O). clear -Pa. induction Pa as [|s t P ts H Pa IH]; constructor; [apply H|exact IH].
Qed.
Print Assumptions C85_special_partial.

(** The tokens in any order, each of them once at most. *)
Theorem C85_order_partial : forall sort_start sort_id, sorts start_key sort_start -> sorts id_key sort_id ->
  forall order, (forall v, Permutation (order v) v) ->
  forall to32 lower base64 compile quoted u is_word cc mn sp lib graphemes (S : Type) (of_q : Q -> S) lt bot zero plus bonus penal dropping
    v unk no pre cut po pa c l0 op cl, op <> cl ->
  wordlevel_norm_file lower base64 compile quoted v unk no pre po pa c -> cutting pre -> documented u pre = Some cut ->
  Forall plain_special (c_added c) -> NoDup (map tc_content (c_added c)) -> Forall (fun t => enclosed op cl (tc_content t)) (c_added c) -> with_ids (fun s => vget s v) (zlen v) (c_added c) l0 ->
  exists l a, from_reader order to32 lower base64 compile quoted (Some c) = Ok l /\
    assemble u is_word cc mn sp lower lib graphemes of_q lt bot zero plus bonus penal dropping l = Ok a /\ tk_processor (as_tok a) = po /\ tk_padding (as_tok a) = pa /\
    forall ot x qs rs ts add, clean_inputs x -> ot <> OInvalid -> encode_texts x = map (fun q => written (fst q) (snd q)) qs ->
      Forall2 (found_in l0) qs rs ->
      Forall2 (fun s t => clean s /\ becomes cc mn lower no s t) (flat_map between rs) ts ->
      ends_with (special_ids (fun s => vget s v) (zlen v) (c_added c)) (dual x) add po pa ->
      exists e xss, tk_encode sort_start sort_id (as_tok a) ot x add = Ok (Some e) /\
        Forall2 (word_seen v unk (specials (c_added c))) (flat_map (cut_words cut) ts) xss /\
        as_decode a (ids e) true = Ok (spaced_out (concat xss)).
Proof.
  intros ss si HS HI order HO to32 lower base64 compile quoted u is_word cc mn sp lib graphemes S of_q lt bot zero plus bonus penal dropping v unk no pre cut po pa c l0 op cl Noc F Ct Doc.
  intros Pl Nd Enc W. destruct (words_between_tokens ss si HS HI order HO to32 lower base64 compile quoted u is_word cc mn sp lib graphemes of_q lt bot zero plus bonus penal dropping C54_wordlevel C71_wordlevel
    v unk no pre cut po pa c l0 op cl Noc F (C54_pre_tokenizers u pre (cutting_placed pre Ct)) (C71_pre_tokenizers u pre Ct) Doc Pl Nd Enc W) as (l & a & E1 & E2 & E3 & E4 & D).
  exists l, a. split; [exact E1|]. split; [exact E2|]. split; [exact E3|]. split; [exact E4|]. intros ot x qs rs ts add C Hot Ex O Pa En. destruct (cut_found op cl Noc ss si HS HI _ _ _ _ Nd Enc W qs rs O) as [Ew Fc]. apply (D ot x rs ts add C Hot); [now rewrite Ex, Ew|exact Fc|exact Pa|exact En].
Qed.
Print Assumptions C85_order_partial.

(** The file of PropWordLevelNorm with the special tokens "[CLS]" and "[S]", and the text "HE[CLS]x SeeS[S]". *)
Definition ws_added : list token_config := [TC 1 (key "[CLS]") false false false false true; TC 4 (key "[S]") false false false false true].
Definition ws_file : config := Config None None ws_added (Some wn_norm) (Some wf_pre) (Some wf_post) None (Some wf_model).
Lemma ws_ok lower base64 compile quoted : wordlevel_norm_file lower base64 compile quoted wf_vocab (key "[UNK]") (Some NLowercase) PTWhitespaceSplit (Some wf_processor) None ws_file.
Proof.
  destruct (wn_ok lower base64 compile quoted) as (mo & pt & C1 & C2 & C4 & C5 & T & V & H1 & H2 & Ino & Ip & Ipo & Ipa & Nu & Vu & _).
  exists mo, pt. split; [exact C1|]. split; [exact C2|]. split; [exact C4|]. split; [exact C5|]. split; [exact T|]. split; [exact V|]. split; [exact H1|]. split; [exact H2|].
  split; [exact Ino|]. split; [exact Ip|]. split; [exact Ipo|]. split; [exact Ipa|]. split; [exact Nu|]. split; [exact Vu|].
  constructor; [|constructor; [|constructor]]; (split; [discriminate|split; [apply plain_valid; reflexivity|reflexivity]]).
Qed.
Definition ws_ids : list (str * Z) := [(key "[CLS]", 1); (key "[S]", zlen wf_vocab)].
Definition ws_text : str * list (str * Z * str) := (key "HE", [(key "[CLS]", 1, key "x SeeS"); (key "[S]", zlen wf_vocab, [])]).
Lemma ws_clean s : forallb (fun c => (0 <? c) && (c <? 128))%N s = true -> clean s.
Proof.
  intros H. exists s. rewrite forallb_forall in H. split; [|split].
    - apply Forall_forall. intros c Hc. specialize (H c Hc). apply andb_prop in H as [_ H]. apply N.ltb_lt in H. left. apply (N.lt_trans _ 128); [exact H|reflexivity].
    - apply Forall_forall. intros c Hc ->. now specialize (H _ Hc).
    - induction s as [|c s IH]; [reflexivity|]. rewrite encode_cons, <- IH by (intros x Hx; apply H; now right). specialize (H c (or_introl eq_refl)). apply andb_prop in H as [_ H]. unfold encode_rune. now rewrite H.
Qed.
Lemma ws_free s : ~ In 91%N s -> free_of (map tc_content ws_added) s.
Proof. intros H1 t a z Ht E. apply H1. rewrite E. apply in_or_app. right. apply in_or_app. left. destruct Ht as [<-|[<-|[]]]; now left. Qed.
Example C85_special_meets cc mn : cutting PTWhitespaceSplit /\ Forall plain_special (c_added ws_file) /\ NoDup (map tc_content (c_added ws_file)) /\ Forall (fun t => enclosed 91 93 (tc_content t)) (c_added ws_file) /\ with_ids (fun s => vget s wf_vocab) (zlen wf_vocab) (c_added ws_file) ws_ids /\
  clean (written (fst ws_text) (snd ws_text)) /\ in_order ws_ids (snd ws_text) /\
  Forall2 (fun s t => clean s /\ free_of (map tc_content (c_added ws_file)) s /\ becomes cc mn ascii_lower (Some NLowercase) s t) (between ws_text) [key "he"; key "x sees"; []] /\
  ends_with (special_ids (fun s => vget s wf_vocab) (zlen wf_vocab) (c_added ws_file)) false true (Some wf_processor) None.
Proof.
  split; [exact I|]. split; [|split; [|split; [|split; [|split; [|split; [|split]]]]]].
  - repeat (apply Forall_cons; [unfold plain_special; tauto|]). apply Forall_nil.
  - repeat (constructor; [vm_compute; intuition discriminate|]). constructor.
  - apply Forall_cons; [exists (key "CLS"); split; [reflexivity|split; cbn; intuition discriminate]|]. apply Forall_cons; [exists (key "S"); split; [reflexivity|split; cbn; intuition discriminate]|apply Forall_nil].
  - repeat (constructor; [split; vm_compute; reflexivity|]). constructor.
  - apply ws_clean. reflexivity.
  - exists [1; 1]%nat. split; reflexivity.
  - repeat (constructor; [split; [apply ws_clean; reflexivity|split; [apply ws_free; cbn; intuition discriminate|split; [reflexivity|split; [reflexivity|apply ws_clean; reflexivity]]]]|]). constructor.
  - split; [split|exact I].
    + eapply returning_template; [cbn; tauto|]. repeat (constructor; [first [intros H; discriminate H|intros _; vm_compute; discriminate]|]). constructor.
    + split; [reflexivity|]. intros _ id l H. cbn [aget] in H. destruct (str_eqb id _); [injection H as <-; constructor; [vm_compute; reflexivity|constructor]|discriminate H].
Qed.
Definition ws_decoded (s : str) : option (list Z * res str) :=
  match from_reader (fun v => v) (fun q => q) ascii_lower (fun _ => Err) (fun _ => None) (fun _ _ => []) (Some ws_file) with
  | Ok l => match assemble u55 (fun _ => false) (fun _ => false) (fun _ => false) (fun _ => false) ascii_lower lf_lib (fun _ => []) (fun q => q) (fun _ _ => false) 0%Q 0%Q Qplus (fun _ => 0%Q) (fun q => q) (fun _ _ _ => Err) l with
            | Ok a => match tk_encode (isort start_key) (isort id_key) (as_tok a) OByte (ISingle (Raw s)) true with Ok (Some e) => Some (ids e, as_decode a (ids e) true) | _ => None end
            | _ => None
            end
  | _ => None
  end.
Example C85_special_example : match ws_decoded (key "HE[CLS]x SeeS[S]") with Some (_, r) => r | None => Err end = Ok (key "he [UNK] sees").
Proof. vm_compute. reflexivity. Qed.

(** The text "HE [S]x[CLS] SeeS": "[S]" is listed after "[CLS]", which follows it, and stays. *)
Definition wo_text : str * list (str * Z * str) := (key "HE ", [(key "[S]", zlen wf_vocab, key "x"); (key "[CLS]", 1, key " SeeS")]).
Definition wo_found : str * list (str * Z * str) := (key "HE [S]x", [(key "[CLS]", 1, key " SeeS")]).
Example C85_order_meets cc mn : clean (written (fst wo_text) (snd wo_text)) /\ found_in ws_ids wo_text wo_found /\
  Forall2 (fun s t => clean s /\ becomes cc mn ascii_lower (Some NLowercase) s t) (between wo_found) [key "he [s]x"; key " sees"].
Proof.
  split; [apply ws_clean; reflexivity|]. split; [split; [|split; [|split]]|].
  - repeat (apply Forall_cons; [cbn; tauto|]). apply Forall_nil.
  - repeat (constructor; [vm_compute; intuition discriminate|]). constructor.
  - repeat (apply Forall_cons; [apply ws_free; cbn; intuition discriminate|]). apply Forall_nil.
  - apply (found_lost ws_ids (key "HE ") (key "[S]") (zlen wf_vocab) (key "x") [(key "[CLS]", 1, key " SeeS")] (key "x") [(key "[CLS]", 1, key " SeeS")] (key "[CLS]", 1, key " SeeS")); [|now left|exists 0%nat, 1%nat; repeat split; auto]. apply found_kept; [apply found_end|intros y []].
  - repeat (constructor; [split; [apply ws_clean; reflexivity|split; [reflexivity|split; [reflexivity|apply ws_clean; reflexivity]]]|]). constructor.
Qed.
Example C85_order_example : match ws_decoded (key "HE [S]x[CLS] SeeS") with Some (_, r) => r | None => Err end = Ok (key "he [UNK] sees").
Proof. vm_compute. reflexivity. Qed.
