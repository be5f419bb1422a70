(** C50: the values of a tokenizer.json file determine the settings of the components made
    from it.  ConfigSpec.v says what each section asks for ([intended_...]); with [true] that
    is everything, with [false] the settings shown below to be ignored or misread are left
    out: the continuing prefix of WordPiece, merges with a space in a token, regular
    expressions in Replace, plain strings in Split, the scheme of a Metaspace decoder. *)
From Coq Require Import String QArith.
From Verif Require Import Base BpeModel PatternModel EncodingModel NormalizedModel WordPieceModel UnigramModel.
From Verif Require Import AddedVocabModel DecoderModel PreTokenizerModel ProcessorModel SpmModel ConfigModel ConfigSpec.
From Verif Require ConfigProofs ConfigLoadProofs.
Open Scope Z_scope.
Open Scope list_scope.

(** *** Models *)
Theorem C50_model_partial (order : vocab -> vocab) (to32 : Q -> Q) : forall fs dec m, intended_model to32 false fs dec m ->
  exists m', create_model order to32 (Some fs) dec = Ok m' /\ same_model m m'.
Proof. exact (ConfigLoadProofs.model_ok order to32). Qed.

(** The prefix of WordPiece is always "##", so any other stated prefix is ignored. *)
Theorem C50_wordpiece_prefix_refuted (order : vocab -> vocab) (to32 : Q -> Q) : forall fs dec w p,
  states fs "continuing_subword_prefix" (JStr p) -> p <> key "##" ->
  create_model order to32 (Some fs) dec = Ok (MWordPiece w) -> wp_prefix w <> p /\ wp_prefix w = key "##".
Proof.
  intros fs dec w p _ N E. rewrite (ConfigLoadProofs.wordpiece_prefix order to32 fs dec w E). auto.
Qed.

(** A file with a merge (given as an array) of tokens containing a space does not load. *)
Theorem C50_merge_space_refuted (order : vocab -> vocab) (to32 : Q -> Q) : forall fs dec js x y m,
  states fs "type" (JStr (key "BPE")) -> states fs "merges" (JArr js) -> In (JArr [JStr x; JStr y]) js ->
  In 32%N (x ++ y) -> create_model order to32 (Some fs) dec <> Ok m.
Proof. exact (ConfigLoadProofs.merge_space order to32). Qed.

(** *** Normalizers, pre-tokenizers, decoders *)
Theorem C50_normalizer_partial
    (base64 : str -> res str) (compile : str -> option (str -> list (Z * Z))) (quoted : str -> str -> list (Z * Z)) :
  forall fs n, intended_norm base64 compile quoted false (JObj fs) n ->
  create_normalizer base64 quoted (Some fs) = Ok (Some n).
Proof.
  intros fs n H. unfold create_normalizer, ConfigModel.section.
  now rewrite (ConfigProofs.norm_ok base64 compile quoted _ _ H).
Qed.

Theorem C50_pretokenizer_partial
    (lower : str -> str) (compile : str -> option (str -> list (Z * Z))) (quoted : str -> str -> list (Z * Z)) :
  forall fs p, intended_pre lower compile quoted false (JObj fs) p ->
  create_pretokenizer lower compile (Some fs) = Ok (Some p).
Proof.
  intros fs n H. unfold create_pretokenizer, ConfigModel.section.
  now rewrite (ConfigProofs.pre_ok lower compile quoted _ _ H).
Qed.

Theorem C50_decoder_partial
    (lower : str -> str) (compile : str -> option (str -> list (Z * Z))) (quoted : str -> str -> list (Z * Z)) :
  forall fs d, intended_decoder lower compile quoted false (JObj fs) d ->
  create_decoder quoted (Some fs) = Ok (Some d).
Proof.
  intros fs n H. unfold create_decoder, ConfigModel.section.
  now rewrite (ConfigProofs.decoder_ok lower compile quoted _ _ H).
Qed.

(** A Replace section with a regular expression never gives the component it describes; its
    pattern becomes the empty string. *)
Theorem C50_replace_regex_refuted
    (base64 : str -> res str) (compile : str -> option (str -> list (Z * Z))) (quoted : str -> str -> list (Z * Z)) :
  forall fs p content, states fs "type" (JStr (key "Replace")) -> pattern_given compile quoted fs true p ->
  create_normalizer base64 quoted (Some fs) <> Ok (Some (NReplace p content)) /\
  create_decoder quoted (Some fs) <> Ok (Some (DReplace p content)) /\
  (omits fs "Regex" -> states fs "content" (JStr content) ->
   create_normalizer base64 quoted (Some fs) = Ok (Some (NReplace (PString [] (quoted [])) content)) /\
   create_decoder quoted (Some fs) = Ok (Some (DReplace (PString [] (quoted [])) content))).
Proof.
  intros fs p content T P. split; [|split]; unfold create_normalizer, create_decoder, ConfigModel.section.
  - intro E. destruct (norm_of base64 quoted (JObj fs)) as [n| | | |] eqn:F; try discriminate. injection E as ->.
    exact (ConfigLoadProofs.norm_regex base64 compile quoted fs p content T P F).
  - intro E. destruct (decoder_of quoted (JObj fs)) as [n| | | |] eqn:F; try discriminate. injection E as ->.
    exact (ConfigLoadProofs.decoder_regex compile quoted fs p content T P F).
  - intros O C. exact (ConfigLoadProofs.regex_empty base64 compile quoted fs p content T P O C).
Qed.

(** A Split section with a plain string never gives the component it describes: the string
    is compiled as a regular expression. *)
Theorem C50_split_string_refuted
    (lower : str -> str) (compile : str -> option (str -> list (Z * Z))) (quoted : str -> str -> list (Z * Z)) :
  forall fs p b inv,
  states fs "type" (JStr (key "Split")) -> pattern_given compile quoted fs false p ->
  create_pretokenizer lower compile (Some fs) <> Ok (Some (PTSplit p b inv)).
Proof.
  intros fs p b inv T P E. unfold create_pretokenizer, ConfigModel.section in E.
  destruct (pretok_of lower compile (JObj fs)) as [n| | | |] eqn:F; try discriminate. injection E as ->.
  exact (ConfigLoadProofs.pre_string lower compile quoted fs p b inv T P F).
Qed.

(** The Metaspace decoder ignores prepend_scheme: without add_prefix_space nothing is
    dropped, also when the scheme is "always" or "first". *)
Theorem C50_decoder_scheme_refuted
    (lower : str -> str) (compile : str -> option (str -> list (Z * Z))) (quoted : str -> str -> list (Z * Z)) :
  forall fs s t scheme rep,
  states fs "type" (JStr (key "Metaspace")) -> given JStr fs "replacement" [] rep ->
  states fs "prepend_scheme" (JStr s) -> lower s = key t -> In (t, scheme) schemes -> scheme <> Never ->
  omits fs "add_prefix_space" ->
  intended_decoder lower compile quoted true (JObj fs) (DMetaspace rep true) /\
  create_decoder quoted (Some fs) = Ok (Some (DMetaspace rep false)).
Proof.
  intros fs s t scheme rep T R P L I N O. split.
  - pose proof (ID_metaspace_scheme lower compile quoted true fs rep s t scheme eq_refl T R P L I) as K.
    now destruct scheme.
  - unfold create_decoder, ConfigModel.section.
    now rewrite (ConfigLoadProofs.decoder_scheme quoted fs s rep T R P O).
Qed.

(** A section of type Nmt aborts the program. *)
Theorem C50_nmt_refuted (base64 : str -> res str) (quoted : str -> str -> list (Z * Z)) : forall fs, states fs "type" (JStr (key "Nmt")) ->
  create_normalizer base64 quoted (Some fs) = Panic.
Proof.
  intros fs T. unfold create_normalizer, ConfigModel.section.
  now rewrite (ConfigLoadProofs.norm_nmt base64 quoted fs T).
Qed.

(** *** Post-processors, truncation, padding *)
Theorem C50_processor : forall fs p, intended_processor (JObj fs) p ->
  create_processor (Some fs) = Ok (Some p).
Proof. intros fs n H. unfold create_processor, ConfigModel.section. now rewrite (ConfigProofs.processor_ok _ _ H). Qed.

Theorem C50_truncation : forall fs t, intended_trunc (JObj fs) t -> create_truncation (Some fs) = Ok (Some t).
Proof. intros fs n H. unfold create_truncation, ConfigModel.section. now rewrite (ConfigProofs.trunc_ok _ _ H). Qed.

(** A strategy that does not exist is taken for LongestFirst. *)
Theorem C50_truncation_unknown_refuted : forall fs max stride s,
  states fs "max_length" (jint max) -> states fs "stride" (jint stride) ->
  states fs "strategy" (JStr s) -> ~ In s (map (fun p => key (fst p)) strategies) ->
  create_truncation (Some fs) = Ok (Some (Trunc max LongestFirst stride)).
Proof.
  intros fs max stride s H1 H2 H3 N. unfold create_truncation, ConfigModel.section.
  now rewrite (ConfigLoadProofs.trunc_unknown fs max stride s H1 H2 H3 N).
Qed.

Theorem C50_padding : forall fs p, intended_pad (JObj fs) p -> create_padding (Some fs) = Ok (Some p).
Proof. intros fs n H. unfold create_padding, ConfigModel.section. now rewrite (ConfigProofs.pad_ok _ _ H). Qed.

(** *** Added tokens: contents and flags are kept, in order; the ids are not read. *)
Theorem C50_added : forall l,
  Forall2 token_asked (filter tc_special l) (fst (create_added l)) /\
  Forall2 token_asked (filter (fun t => negb (tc_special t)) l) (snd (create_added l)).
Proof. exact ConfigLoadProofs.added_tokens. Qed.

Theorem C50_added_id_refuted : forall m pattern compiles c av cs,
  tc_content c <> [] -> bm_t2i m (tc_content c) = None -> tc_id c <> bm_size m ->
  add_history m pattern compiles new_added_vocab (add_calls [c]) = Ok (av, cs) ->
  av_token_to_id m av (tc_content c) <> Some (tc_id c).
Proof.
  intros m pattern compiles c av cs NE NI D H E.
  rewrite (ConfigLoadProofs.added_id_is_size m pattern compiles c av cs NE NI H) in E.
  injection E as E. congruence.
Qed.

(** *** Whole files *)
Theorem C50_file_partial
    (order : vocab -> vocab) (to32 : Q -> Q) (lower : str -> str) (base64 : str -> res str) (compile : str -> option (str -> list (Z * Z))) (quoted : str -> str -> list (Z * Z)) :
  forall tr pd ad no pt pp de mo m n p po d t pa,
  intended_model to32 false mo de m ->
  intended_section (intended_norm base64 compile quoted false) no n ->
  intended_section (intended_pre lower compile quoted false) pt p ->
  intended_section intended_processor pp po ->
  intended_section (intended_decoder lower compile quoted false) de d ->
  intended_section intended_trunc tr t ->
  intended_section intended_pad pd pa ->
  exists m', same_model m m' /\
    from_reader order to32 lower base64 compile quoted (Some (Config tr pd ad no pt pp de (Some mo)))
    = Ok (Loaded m' n p po d (add_calls ad) t pa).
Proof. exact (ConfigLoadProofs.whole_ok order to32 lower base64 compile quoted). Qed.

Print Assumptions C50_model_partial.
Print Assumptions C50_wordpiece_prefix_refuted.
Print Assumptions C50_merge_space_refuted.
Print Assumptions C50_normalizer_partial.
Print Assumptions C50_pretokenizer_partial.
Print Assumptions C50_decoder_partial.
Print Assumptions C50_replace_regex_refuted.
Print Assumptions C50_split_string_refuted.
Print Assumptions C50_decoder_scheme_refuted.
Print Assumptions C50_nmt_refuted.
Print Assumptions C50_processor.
Print Assumptions C50_truncation.
Print Assumptions C50_truncation_unknown_refuted.
Print Assumptions C50_padding.
Print Assumptions C50_added.
Print Assumptions C50_added_id_refuted.
Print Assumptions C50_file_partial.

(** *** Examples *)

Ltac st :=
  split; [repeat (constructor; [cbn; let H := fresh in intro H; repeat (destruct H as [H|H]; [discriminate H|]); exact H|]);
          constructor
         |cbn; tauto].
Ltac om :=
  split; [repeat (constructor; [cbn; let H := fresh in intro H; repeat (destruct H as [H|H]; [discriminate H|]); exact H|]);
          constructor
         |cbn; let v := fresh in let H := fresh in intros v H;
          repeat (destruct H as [H|H]; [first [discriminate H | now injection H]|]); easy].

(** A BPE file: vocabulary a, b, ab; one merge; prefix and unknown token stated. *)
Definition ex_vocab : vocab := [(key "a", 0); (key "b", 1); (key "ab", 2)].
Definition ex_bpe : conf :=
  [(key "type", JStr (key "BPE")); (key "unk_token", JStr (key "a")); (key "dropout", JNull);
   (key "continuing_subword_prefix", JStr (key "@"));
   (key "vocab", JObj (map (fun p => (fst p, jint (snd p))) ex_vocab));
   (key "merges", JArr [JStr (key "a b")])].

Example C50_bpe_example : exists vr t, table_of ex_vocab [(key "a", key "b")] t /\ t <> [] /\
  intended_model (fun q => q) false ex_bpe None (MBpe (Bpe ex_vocab vr t (Some (key "a")) (Some (key "@")) None) None).
Proof.
  assert (T : table_of ex_vocab [(key "a", key "b")] [((0, 1), (0, 2))]).
  { intros a b r new. unfold merge_at. split.
    - intro H. cbn in H. unfold pair_eqb in H. cbn [fst snd] in H.
      destruct (Z.eqb_spec a 0) as [->|]; [|discriminate].
      destruct (Z.eqb_spec b 1) as [->|]; [|discriminate].
      injection H as <- <-. exists 0%nat. split; [reflexivity|]. split.
      + exists (key "a"), (key "b"). repeat split; reflexivity.
      + intros j new' L (x & y & K & _). destruct j as [|[|j]]; [lia|discriminate K|discriminate K].
    - intros (i & -> & (x & y & K & A & B & C) & _). destruct i as [|[|i]]; [|discriminate K|discriminate K].
      injection K as <- <-. vm_compute in A, B, C. injection A as <-. injection B as <-. injection C as <-. reflexivity. }
  exists [], [((0, 1), (0, 2))]. split; [exact T|]. split; [easy|].
  apply (IM_bpe (fun q => q) false ex_bpe None ex_vocab [] [(key "a", key "b")] _ (Some (key "a")) (Some (key "@")) None None
           [JStr (key "a b")]).
  - constructor. st.
  - split; [st|]. repeat (constructor; [cbn; intro H; repeat (destruct H as [H|H]; [discriminate H|]); exact H|]). constructor.
  - st.
  - constructor; [|constructor]. apply (MJ_line (key "a") (key "b")); cbn; intros [H|[]]; discriminate H.
  - constructor; [|constructor]. repeat split; discriminate.
  - exact T.
  - intros _. constructor; [|constructor]. split; cbn; intros [H|[]]; discriminate H.
  - st.
  - st.
  - om.
  - om.
  - discriminate.
Qed.

Definition ex_wordpiece : conf :=
  [(key "unk_token", JStr (key "?")); (key "max_input_chars_per_word", jint 7);
   (key "continuing_subword_prefix", JStr (key "@@"));
   (key "vocab", JObj [(key "?", jint 0); (key "a", jint 1)])].
Definition ex_wp_decoder : conf :=
  [(key "type", JStr (key "WordPiece")); (key "prefix", JStr (key "@@")); (key "cleanup", JBool true)].

(** The stated prefix "@@" is lost. *)
Example C50_wordpiece_example :
  create_model (fun v => v) (fun q => q) (Some ex_wordpiece) (Some ex_wp_decoder)
  = Ok (MWordPiece (WP [(key "?", 0); (key "a", 1)] [(0, key "?"); (1, key "a")] (key "?") (key "##") 7))
  /\ states ex_wordpiece "continuing_subword_prefix" (JStr (key "@@"))
  /\ model_is ex_wordpiece (Some ex_wp_decoder) "WordPiece".
Proof.
  split; [vm_compute; reflexivity|]. split; [st|].
  apply (MI_decoder _ _ ex_wp_decoder); [om|reflexivity|st|now left].
Qed.

Example C50_unigram_example :
  let fs := [(key "type", JStr (key "Unigram")); (key "unk_id", jint 0);
             (key "vocab", JArr [JArr [JStr (key "u"); JNum (-3 # 2)]; JArr [JStr (key "a"); JNum (-1 # 4)]]);
             (key "fuse_unk", JBool false)] in
  intended_model (fun q => q) true fs None (MUnigram (UG [(key "u", -3 # 2); (key "a", -1 # 4)]%Q (Some 0) false false)).
Proof.
  apply IM_unigram; [constructor; st|st|st| |right; split; [om|reflexivity]|left; st].
  intros u H. injection H as <-. reflexivity.
Qed.

(** A sequence of normalizers with a plain replacement. *)
Definition ex_norms : conf :=
  [(key "type", JStr (key "Sequence"));
   (key "normalizers", JArr [
      JObj [(key "type", JStr (key "BertNormalizer")); (key "lowercase", JBool true); (key "strip_accents", JNull)];
      JObj [(key "type", JStr (key "Replace")); (key "pattern", JObj [(key "String", JStr (key "x"))]);
            (key "content", JStr (key "y"))]])].
Example C50_normalizer_example : forall quoted,
  intended_norm (fun _ => Err) (fun _ => None) quoted false (JObj ex_norms)
    (NSeq [NBert false true false false; NReplace (PString (key "x") (quoted (key "x"))) (key "y")]).
Proof.
  intro quoted. eapply IN_sequence; [st|st|]. constructor; [|constructor; [|constructor]].
  - apply IN_bert; [st|right; split; [om|reflexivity]|right; split; [om|reflexivity]|right; split; [om|reflexivity]|left; st].
  - apply (IN_replace _ _ _ _ _ false); [st| |reflexivity|st].
    apply (PG_string _ _ _ [(key "String", JStr (key "x"))]); [st|st|om].
Qed.

Definition ex_regex : conf :=
  [(key "type", JStr (key "Replace")); (key "pattern", JObj [(key "Regex", JStr (key "x+"))]); (key "content", JStr (key "y"))].
(** The regular expression becomes the empty string. *)
Example C50_replace_regex_example : forall compile quoted find, compile (key "x+") = Some find ->
  pattern_given compile quoted ex_regex true (PRegexp find) /\
  create_normalizer (fun _ => Err) quoted (Some ex_regex) = Ok (Some (NReplace (PString [] (quoted [])) (key "y"))).
Proof.
  intros compile quoted find C. split.
  - apply (PG_regex _ _ _ [(key "Regex", JStr (key "x+"))] (key "x+")); [st|st| |exact C].
    cbn. intros [H|[]]. discriminate H.
  - reflexivity.
Qed.

Definition ex_split (k : string) : conf :=
  [(key "type", JStr (key "Split")); (key "pattern", JObj [(key k, JStr (key "a.b"))]);
   (key "behavior", JStr (key "Isolated")); (key "invert", JBool false)].
Example C50_split_example : forall lower compile quoted find, compile (key "a.b") = Some find ->
  intended_pre lower compile quoted false (JObj (ex_split "Regex")) (PTSplit (PRegexp find) Isolated false) /\
  pattern_given compile quoted (ex_split "String") false (PString (key "a.b") (quoted (key "a.b"))) /\
  create_pretokenizer lower compile (Some (ex_split "String")) = Ok (Some (PTSplit (PRegexp find) Isolated false)).
Proof.
  intros lower compile quoted find C. split; [|split].
  - apply (IP_split _ _ _ _ _ true _ "Isolated"); [st| |reflexivity|st| |st].
    + apply (PG_regex _ _ _ [(key "Regex", JStr (key "a.b"))] (key "a.b")); [st|st| |exact C].
      cbn. intros [H|[]]. discriminate H.
    + cbn. tauto.
  - apply (PG_string _ _ _ [(key "String", JStr (key "a.b"))]); [st|st|om].
  - vm_compute in C |- *. rewrite C. reflexivity.
Qed.

Example C50_decoder_example :
  let fs := [(key "type", JStr (key "Sequence")); (key "decoders", JArr [
      JObj [(key "type", JStr (key "Fuse"))];
      JObj [(key "type", JStr (key "Strip")); (key "content", JStr (key " ")); (key "start", jint 1); (key "stop", jint 0)]])] in
  intended_decoder (fun s => s) (fun _ => None) (fun _ _ => []) false (JObj fs) (DSequence [DFuse; DStrip (key " ") 1 0]).
Proof.
  eapply ID_sequence; [st|st|]. constructor; [|constructor; [|constructor]].
  - apply (ID_plain _ _ _ _ _ "Fuse"); [now left|st].
  - apply ID_strip; st.
Qed.

(** The template of a RoBERTa-like file. *)
Definition ex_template : conf :=
  [(key "type", JStr (key "TemplateProcessing"));
   (key "single", JArr [JObj [(key "SpecialToken", JObj [(key "id", JStr (key "<s>")); (key "type_id", jint 0)])];
                        JObj [(key "Sequence", JObj [(key "id", JStr (key "A")); (key "type_id", jint 0)])]]);
   (key "pair", JArr [JObj [(key "Sequence", JObj [(key "id", JStr (key "A")); (key "type_id", jint 0)])];
                      JObj [(key "Sequence", JObj [(key "id", JStr (key "B")); (key "type_id", jint 1)])]]);
   (key "special_tokens", JObj [(key "<s>", JObj [(key "id", JStr (key "<s>")); (key "ids", JArr [jint 5]);
                                                  (key "tokens", JArr [JStr (key "<s>")])])])].
Example C50_processor_example :
  intended_processor (JObj ex_template)
    (PTemplate [PSpecial (key "<s>") 0; PSeq false 0] [PSeq false 0; PSeq true 1] [(key "<s>", ([5], [key "<s>"]))]).
Proof.
  apply IR_template; [st| | |].
  - left. eexists. split; [st|]. constructor; [|constructor; [|constructor]].
    + eapply PJ_special; [st|om|st|st].
    + eapply PJ_first; [st|om|st|st].
  - left. eexists. split; [st|]. constructor; [|constructor; [|constructor]].
    + eapply PJ_first; [st|om|st|st].
    + eapply PJ_second; [st|om|st|st].
  - eexists. split; [st|]. split.
    + constructor; [|constructor]. eexists. split; [reflexivity|]. split; [st|]. split; st.
    + repeat constructor. easy.
Qed.

Example C50_truncation_example :
  let fs := [(key "direction", JStr (key "Right")); (key "max_length", jint 128);
             (key "strategy", JStr (key "OnlySecond")); (key "stride", jint 3)] in
  intended_trunc (JObj fs) (Trunc 128 OnlySecond 3).
Proof. apply (IT _ _ _ "OnlySecond"); [st|st|st|cbn; tauto]. Qed.

Example C50_truncation_unknown_example :
  create_truncation (Some [(key "max_length", jint 128); (key "strategy", JStr (key "only_second")); (key "stride", jint 3)])
  = Ok (Some (Trunc 128 LongestFirst 3)).
Proof. reflexivity. Qed.

Example C50_padding_example :
  let fs := [(key "strategy", JObj [(key "Fixed", jint 32)]); (key "direction", JStr (key "Left"));
             (key "pad_id", jint 9); (key "pad_token", JStr (key "<pad>"))] in
  intended_pad (JObj fs) (Padding (Fixed 32) PLeft 9 0 (key "<pad>")).
Proof.
  apply IA; [apply PS_fixed; st|apply (DR_left _ "Left"); [cbn; tauto|st]|left; st|right; split; [om|reflexivity]|left; st].
Qed.

(** A token listed with id 50 over a model of one token gets id 1. *)
Example C50_added_example :
  let m := Base (fun t => if str_eqb t (key "a") then Some 0 else None) (fun _ => None) 1 in
  let c := TC 50 (key "<mask>") false true false false true in
  exists av, add_history m (fun t => Some (at_content t)) (fun _ => true) new_added_vocab (add_calls [c]) = Ok (av, [1])
             /\ av_token_to_id m av (key "<mask>") = Some 1.
Proof. eexists. split; vm_compute; reflexivity. Qed.

(** A whole file. *)
Example C50_file_example :
  exists l, from_reader (fun v => v) (fun q => q) (fun s => s) (fun _ => Err) (fun _ => None) (fun _ _ => [])
    (Some (Config None None [TC 0 (key "?") false false false false true] (Some ex_norms) None (Some ex_template)
             (Some ex_wp_decoder) (Some ex_wordpiece))) = Ok l
  /\ l_dec l = Some (DWordPiece (key "@@") true) /\ l_trunc l = None
  /\ l_calls l = [AddSpecial [AT (key "?") false false false false]].
Proof. eexists. split; [vm_compute; reflexivity|]. repeat split; reflexivity. Qed.
