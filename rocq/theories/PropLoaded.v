(** C76: a tokenizer loaded from a tokenizer.json file decodes what it encodes. *)
From Coq Require Import String QArith.
From Verif Require ReturnModelProofs.
From Verif Require Import Base BaseProofs Utf8Model Utf8Proofs NormalizedModel EncodingModel BpeModel BpeTokProofs AddedVocabModel AddedVocabSpec AddedFindProofs AddedPatternModel DecoderModel PreTokenizedModel PreTokenizerModel PreTokenizerSpec
  ProcessorModel PipelineModel PipelineSpec SpmModel UnicodeNormModel PretrainedModel ReturnSpec RoundTripSpec MetaspaceSpec MetaTripSpec MetaTextProofs ConfigModel ConfigSpec ConfigLoadProofs PropByteLevel PropPipeline PropRoundTrip PropConfig PropMetaTrip
  LoadedModel LoadedSpec LoadedAddedProofs LoadedProofs.
Open Scope Z_scope.
Open Scope list_scope.

(** * Byte-level files *)

(** Texts in which no listed token is written, when special tokens are skipped. *)
Theorem C76_byte_level_partial : forall sort_start sort_id, sorts start_key sort_start -> sorts id_key sort_id ->
  forall order, (forall v, Permutation (order v) v) ->
  forall to32 lower base64 compile quoted u is_word cc mn sp lib graphemes (S : Type) (of_q : Q -> S) lt bot zero plus bonus penal dropping
    v ms prefix po pa c,
  byte_level_file lower compile quoted v ms (PTByteLevel prefix) po pa c -> (prefix = true -> un_letter u 32 = false /\ un_number u 32 = false) ->
  exists l a, from_reader order to32 lower base64 compile quoted (Some c) = Ok l /\
    assemble u is_word cc mn sp lower lib graphemes of_q lt bot zero plus bonus penal dropping l = Ok a /\ tk_processor (as_tok a) = po /\ tk_padding (as_tok a) = pa /\
    forall ot x add, clean_inputs x -> ot <> OInvalid -> Forall (unwritten (c_added c)) (encode_texts x) ->
      ends_with (special_ids (fun s => vget s v) (zlen v) (c_added c)) (dual x) add po pa ->
      exists e, tk_encode sort_start sort_id (as_tok a) ot x add = Ok (Some e) /\
        as_decode a (ids e) true = Ok (concat (map (spaced prefix) (encode_texts x))).
Proof.
  intros ss si HS HI order HO to32 lower base64 compile quoted u is_word cc mn sp lib graphemes S of_q lt bot zero plus bonus penal dropping v ms prefix po pa c F U.
  destruct (byte_level_loaded ss si HS HI order HO to32 lower base64 compile quoted u is_word cc mn sp lib graphemes of_q lt bot zero plus bonus penal dropping C54_bpe v ms prefix po pa c F U) as (l & a & E1 & E2 & E3 & E4 & _ & D).
  exists l, a. split; [exact E1|]. split; [exact E2|]. split; [exact E3|]. split; [exact E4|exact D].
Qed.
Print Assumptions C76_byte_level_partial.

(** The same if the file asks for more pre-tokenizers in front, which remove nothing: digits,
    punctuation, splits at any pattern. *)
Theorem C76_cut_partial : forall sort_start sort_id, sorts start_key sort_start -> sorts id_key sort_id ->
  forall order, (forall v, Permutation (order v) v) ->
  forall to32 lower base64 compile quoted u is_word cc mn sp lib graphemes (S : Type) (of_q : Q -> S) lt bot zero plus bonus penal dropping
    v ms front po pa c,
  byte_level_file lower compile quoted v ms (PTSequence (front ++ [PTByteLevel false])) po pa c -> removes_nothing (PTSequence front) ->
  exists l a, from_reader order to32 lower base64 compile quoted (Some c) = Ok l /\
    assemble u is_word cc mn sp lower lib graphemes of_q lt bot zero plus bonus penal dropping l = Ok a /\ tk_processor (as_tok a) = po /\ tk_padding (as_tok a) = pa /\
    forall ot x add, clean_inputs x -> ot <> OInvalid -> Forall (unwritten (c_added c)) (encode_texts x) ->
      ends_with (special_ids (fun s => vget s v) (zlen v) (c_added c)) (dual x) add po pa ->
      exists e, tk_encode sort_start sort_id (as_tok a) ot x add = Ok (Some e) /\
        as_decode a (ids e) true = Ok (concat (encode_texts x)).
Proof.
  intros ss si HS HI order HO to32 lower base64 compile quoted u is_word cc mn sp lib graphemes S of_q lt bot zero plus bonus penal dropping v ms front po pa c F K.
  exact (cut_bytes_loaded ss si HS HI order HO to32 lower base64 compile quoted u is_word cc mn sp lib graphemes of_q lt bot zero plus bonus penal dropping C54_bpe v ms front po pa c F K).
Qed.
Print Assumptions C76_cut_partial.

(** * Ids of the listed tokens *)

(** Whatever model the file describes: the tokens it knows keep their ids, the others are
    numbered from the size of its vocabulary, special ones first; the ids written in the list do
    not matter. *)
Theorem C76_ids : forall m added, base_ok m -> Forall (fun t => tc_content t <> [] /\ valid_utf8 (tc_content t)) added ->
  exists av, added_by m (add_calls added) = Ok av /\
    forall s i, (av_token_to_id m av s = Some i <-> file_id (bm_t2i m) (bm_size m) added s = Some i) /\
                (av_id_to_token m av i = Some s <-> file_id (bm_t2i m) (bm_size m) added s = Some i).
Proof.
  intros m added B F. destruct (added_reached m B added F) as (av & E & R). exists av. split; [exact E|]. intros s i. split; [now rewrite (reached_ids m added av R)|exact (reached_names m B added av R i s)].
Qed.
Print Assumptions C76_ids.

(** The list may number them as it should, in its own order: if a special one follows another
    one, both get the wrong id. *)
Theorem C76_ids_refuted : forall m a b, base_ok m ->
  tc_content a <> [] -> valid_utf8 (tc_content a) -> tc_content b <> [] -> valid_utf8 (tc_content b) -> tc_content a <> tc_content b ->
  bm_t2i m (tc_content a) = None -> bm_t2i m (tc_content b) = None ->
  tc_special a = false -> tc_special b = true -> tc_id a = bm_size m -> tc_id b = bm_size m + 1 ->
  exists av, added_by m (add_calls [a; b]) = Ok av /\
    av_token_to_id m av (tc_content a) = Some (tc_id b) /\ av_token_to_id m av (tc_content b) = Some (tc_id a).
Proof.
  intros m a b B A1 A2 B1 B2 Ne Ua Ub Sa Sb Ia Ib. destruct (added_reached m B [a; b]) as (av & E & R); [repeat constructor; assumption|]. exists av. split; [exact E|].
  rewrite !(reached_ids m [a; b] av R). unfold file_id, listed. cbn [filter]. rewrite Sa, Sb. cbn [negb map app unknown existsb]. rewrite Ua, Ub. cbn [existsb orb].
  assert (X : str_eqb (tc_content a) (tc_content b) = false) by (destruct (str_eqb _ _) eqn:Q; [apply str_eqb_eq in Q; contradiction|reflexivity]).
  rewrite X. cbn [orb position]. rewrite X, !str_eqb_refl. cbn [option_map]. rewrite Ia, Ib. split; f_equal; lia.
Qed.
Print Assumptions C76_ids_refuted.

(** * Metaspace files *)

(** If the decoder section tells whether the first mark is to be dropped, texts come back as in
    C75. *)
Theorem C76_metaspace_partial : forall sort_start sort_id, sorts start_key sort_start -> sorts id_key sort_id ->
  forall order, (forall v, Permutation (order v) v) ->
  forall to32 lower base64 compile quoted u is_word cc mn sp lib graphemes (S : Type) (of_q : Q -> S) lt bot zero plus bonus penal dropping
    v ms mark scheme po pa c,
  metaspace_file lower compile quoted (tells_prefix lower compile quoted mark (prepends scheme)) v ms mark scheme po pa c ->
  exists l a, from_reader order to32 lower base64 compile quoted (Some c) = Ok l /\
    assemble u is_word cc mn sp lower lib graphemes of_q lt bot zero plus bonus penal dropping l = Ok a /\ tk_processor (as_tok a) = po /\ tk_padding (as_tok a) = pa /\
    forall ot rs add, clean (encode rs) -> Forall scalar rs -> ot <> OInvalid -> unwritten (c_added c) (encode rs) ->
      Forall (fun c => white c = false -> vget (encode_rune c) v <> None) rs ->
      ends_with (special_ids (fun s => vget s v) (zlen v) (c_added c)) false add po pa ->
      exists e, tk_encode sort_start sort_id (as_tok a) ot (ISingle (Raw (encode rs))) add = Ok (Some e) /\
        as_decode a (ids e) true = Ok (encode (meta_back scheme mark rs)).
Proof.
  intros ss si HS HI order HO to32 lower base64 compile quoted u is_word cc mn sp lib graphemes S of_q lt bot zero plus bonus penal dropping v ms mark scheme po pa c F.
  destruct (metaspace_loaded ss si HS HI order HO to32 lower base64 compile quoted u is_word cc mn sp lib graphemes of_q lt bot zero plus bonus penal dropping C54_bpe _ v ms mark scheme (prepends scheme) po pa c F) as (l & a & E1 & E2 & E3 & E4 & D).
  { intros de H. exact (ConfigProofs.decoder_ok lower compile quoted _ _ H). }
  exists l, a. split; [exact E1|]. split; [exact E2|]. split; [exact E3|]. split; [exact E4|]. intros ot rs add C Sc Hot W V En. destruct (D ot rs add C Sc Hot W V En) as (e & E & Dd). exists e. split; [exact E|]. rewrite Dd. f_equal. f_equal.
  exact (led_back scheme mark rs).
Qed.
Print Assumptions C76_metaspace_partial.

(** Most files name the scheme only.  Then every text comes back with one more space in front
    (unless it begins with white space itself). *)
Theorem C76_scheme_refuted : forall sort_start sort_id, sorts start_key sort_start -> sorts id_key sort_id ->
  forall order, (forall v, Permutation (order v) v) ->
  forall to32 lower base64 compile quoted u is_word cc mn sp lib graphemes (S : Type) (of_q : Q -> S) lt bot zero plus bonus penal dropping
    v ms mark scheme po pa c,
  metaspace_file lower compile quoted (tells_scheme mark) v ms mark scheme po pa c -> scheme <> Never ->
  exists l a, from_reader order to32 lower base64 compile quoted (Some c) = Ok l /\
    assemble u is_word cc mn sp lower lib graphemes of_q lt bot zero plus bonus penal dropping l = Ok a /\ tk_processor (as_tok a) = po /\ tk_padding (as_tok a) = pa /\
    forall ot rs add, clean (encode rs) -> Forall scalar rs -> ot <> OInvalid -> unwritten (c_added c) (encode rs) ->
      Forall (fun c => white c = false -> vget (encode_rune c) v <> None) rs ->
      ends_with (special_ids (fun s => vget s v) (zlen v) (c_added c)) false add po pa ->
      rs <> [] -> faithful scheme mark rs ->
      exists e, tk_encode sort_start sort_id (as_tok a) ot (ISingle (Raw (encode rs))) add = Ok (Some e) /\
        as_decode a (ids e) true = Ok (32%N :: encode rs).
Proof.
  intros ss si HS HI order HO to32 lower base64 compile quoted u is_word cc mn sp lib graphemes S of_q lt bot zero plus bonus penal dropping v ms mark scheme po pa c F Ns.
  destruct (metaspace_loaded ss si HS HI order HO to32 lower base64 compile quoted u is_word cc mn sp lib graphemes of_q lt bot zero plus bonus penal dropping C54_bpe _ v ms mark scheme false po pa c F) as (l & a & E1 & E2 & E3 & E4 & D).
  { intros de (H1 & H2 & (s & H3) & H4). apply (decoder_scheme quoted de s (encode_rune mark) H1); [now left|exact H3|exact H4]. }
  exists l, a. split; [exact E1|]. split; [exact E2|]. split; [exact E3|]. split; [exact E4|]. intros ot rs add C Sc Hot W V En Ne Fa. destruct (D ot rs add C Sc Hot W V En) as (e & E & Dd). exists e. split; [exact E|]. rewrite Dd. f_equal. cbn [andb].
  rewrite (led_faithful scheme mark rs Ns Ne Fa). reflexivity.
Qed.
Print Assumptions C76_scheme_refuted.

(** * Examples *)

Lemma no_rune a b c l : (a < 192)%N -> forall r, a :: b :: c :: l <> encode_rune r.
Proof. intros L r E. unfold encode_rune in E. destruct (r <? 128)%N; [discriminate E|]. destruct (r <? 2048)%N; [discriminate E|]. destruct (negb (scalarb r)); [|destruct (r <? 65536)%N]; apply (f_equal (hd 0%N)) in E; cbn [hd] in E; lia. Qed.
Lemma plain_valid s : forallb (fun c => c <? 128)%N s = true -> valid_utf8 s.
Proof.
  intros H. exists s. rewrite forallb_forall in H. split; [apply Forall_forall; intros c Hc; left; specialize (H c Hc); apply N.ltb_lt in H; lia|].
  induction s as [|c l IH]; [reflexivity|]. unfold encode. cbn [map concat]. unfold encode_rune at 1. change 0x80%N with 128%N. rewrite (H c (or_introl eq_refl)). cbn [app]. f_equal. apply IH. intros x Hx. apply H. now right.
Qed.
Ltac ne := constructor; [cbn; let H := fresh in intro H; repeat (destruct H as [H|H]; [discriminate H|]); exact H|].
Ltac stx i := split; [repeat ne; constructor|match i with 0 => idtac | 1 => right | 2 => right; right end; left; reflexivity].
Definition numberedb (v : vocab) : bool :=
  (fix go (l : vocab) := match l with [] => true | x :: l => negb (existsb (fun y => str_eqb (fst x) (fst y) || (snd x =? snd y)) l) && ((0 <=? snd x) && (snd x <? zlen v)) && go l end) v.
Lemma numberedb_ok v : numberedb v = true -> numbered v.
Proof.
  unfold numberedb, numbered. generalize (zlen v) as n. intros n. induction v as [|x l IH]; intros H; [repeat constructor|].
  apply andb_true_iff in H as [H H3]. apply andb_true_iff in H as [H1 H2]. apply negb_true_iff in H1. apply andb_true_iff in H2 as [L1 L2]. apply Z.leb_le in L1. apply Z.ltb_lt in L2.
  destruct (IH H3) as (N1 & N2 & F). cbn [map].
  assert (K : forall y, In y l -> fst x <> fst y /\ snd x <> snd y).
  { intros y Hy. assert (Q : (str_eqb (fst x) (fst y) || (snd x =? snd y)) = false).
    { destruct (_ || _) eqn:Q; [|reflexivity]. assert (existsb (fun y => str_eqb (fst x) (fst y) || (snd x =? snd y)) l = true) by (apply existsb_exists; eauto). congruence. }
    apply orb_false_iff in Q as [Q1 Q2]. split; intros E; [rewrite E, str_eqb_refl in Q1; discriminate|rewrite E, Z.eqb_refl in Q2; discriminate]. }
  split; [constructor; [|exact N1]|split; [constructor; [|exact N2]|constructor; [lia|exact F]]]; intros Hi; apply in_map_iff in Hi as (y & E & Hy); destruct (K y Hy); congruence.
Qed.

(** The 256 characters and "he"; three listed tokens, one of them not special; RoBERTa's
    processor; padding. *)
Definition lf_model : conf :=
  [(key "type", JStr (key "BPE")); (key "vocab", JObj (map (fun p => (fst p, jint (snd p))) rt_vocab)); (key "merges", JArr [JStr (key "h e")])].
Definition lf_pre : conf := [(key "type", JStr (key "ByteLevel")); (key "add_prefix_space", JBool false); (key "trim_offsets", JBool true)].
Definition lf_post : conf :=
  [(key "type", JStr (key "RobertaProcessing")); (key "sep", JArr [JStr (key "<s>"); jint 257]); (key "cls", JArr [JStr (key "<s>"); jint 257]);
   (key "trim_offsets", JBool true); (key "add_prefix_space", JBool false)].
Definition lf_pad : conf :=
  [(key "strategy", JObj [(key "Fixed", jint 9)]); (key "direction", JStr (key "Right")); (key "pad_id", jint 258); (key "pad_token", JStr (key "<p>"))].
Definition lf_added : list token_config :=
  [TC 257 (key "[M]") false false false true false; TC 258 (key "<s>") false false false false true; TC 259 (key "<p>") false false false false true].
Definition lf : config := Config None (Some lf_pad) lf_added None (Some lf_pre) (Some lf_post) (Some lf_pre) (Some lf_model).
Definition lf_processor : processor := PRoberta (PTok (key "<s>") 257) (PTok (key "<s>") 257) true false.
Definition lf_padding : pad_params := Padding (Fixed 9) PRight 258 0 (key "<p>").
Lemma lf_file lower compile quoted : byte_level_file lower compile quoted rt_vocab [(key "h", key "e")] (PTByteLevel false) (Some lf_processor) (Some lf_padding) lf.
Proof.
  assert (Nm : numbered rt_vocab) by (apply numberedb_ok; vm_compute; reflexivity).
  exists lf_model, lf_pre, lf_pre, None, None. split; [reflexivity|]. split; [reflexivity|]. split; [reflexivity|]. split; [reflexivity|]. split; [reflexivity|].
  split; [|split; [|split; [|split; [|split; [|split; [exact Nm|split]]]]]].
  - split; [apply MI_stated; stx 0|]. split; [split; [stx 1|exact (proj1 Nm)]|]. split; [|split; [|split; [|split; [|split; [|split]]]]].
    + exists [JStr (key "h e")]. split; [stx 2|]. constructor; [|constructor]. apply (MJ_line (key "h") (key "e")); cbn; intros [H|[]]; discriminate H.
    + constructor; [|constructor]. split; [|split]; vm_compute; discriminate.
    + constructor; [|constructor]. split; cbn; intros [H|[]]; discriminate H.
    + split; [repeat ne; constructor|]. intros j H. repeat (destruct H as [H|H]; [discriminate H|]). destruct H.
    + split; [repeat ne; constructor|]. intros j H. repeat (destruct H as [H|H]; [discriminate H|]). destruct H.
    + split; [repeat ne; constructor|]. intros j H. repeat (destruct H as [H|H]; [discriminate H|]). destruct H.
    + split; [repeat ne; constructor|]. intros j H. repeat (destruct H as [H|H]; [discriminate H|]). destruct H.
  - apply (IP_bytelevel _ _ _ _ _ false true); [st|left; st|left; st].
  - apply (ID_bytelevel _ _ _ _ _ false true); [st|left; st|left; st].
  - constructor. apply IR_roberta; st.
  - constructor. apply IA; [apply PS_fixed; st|apply (DR_right _ "Right"); [cbn; tauto|st]|left; st|right; split; [om|reflexivity]|left; st].
  - intros k Hk. assert (A : forallb (fun k => match vget (byte_char (N.of_nat k)) rt_vocab with Some _ => true | None => false end) (seq 0 256) = true) by (vm_compute; reflexivity).
    rewrite forallb_forall in A. specialize (A (N.to_nat k)). rewrite N2Nat.id in A. intros E. rewrite E in A. assert (false = true) by (apply A, in_seq; lia). discriminate.
  - constructor; [|constructor; [|constructor; [|constructor]]]; (split; [discriminate|split; [apply plain_valid; reflexivity|]]); intros H; try discriminate H.
    + intros [(r & E)|(x & y & [E|[]] & F)]; [revert E; apply no_rune; reflexivity|injection E as <- <-; discriminate F].
    + intros [(r & E)|(x & y & [E|[]] & F)]; [revert E; apply no_rune; reflexivity|injection E as <- <-; discriminate F].
Qed.
(** The same file with digits cut off and a split at a pattern in front. *)
Definition lf_cut : conf :=
  [(key "type", JStr (key "Sequence"));
   (key "pretokenizers", JArr [JObj [(key "type", JStr (key "Digits")); (key "individual_digits", JBool true)];
      JObj [(key "type", JStr (key "Split")); (key "pattern", JObj [(key "Regex", JStr (key "x"))]); (key "behavior", JStr (key "Isolated")); (key "invert", JBool false)];
      JObj lf_pre])].
Definition lf_front : list pre_tokenizer := [PTDigits true; PTSplit (PatternModel.PRegexp (find_chars (N.eqb 120))) NormalizedModel.Isolated false].
Definition lf2 : config := Config None (Some lf_pad) lf_added None (Some lf_cut) (Some lf_post) (Some lf_pre) (Some lf_model).
Example C76_cut_meets lower quoted : let compile := fun _ => Some (find_chars (N.eqb 120)) in
  byte_level_file lower compile quoted rt_vocab [(key "h", key "e")] (PTSequence (lf_front ++ [PTByteLevel false])) (Some lf_processor) (Some lf_padding) lf2 /\
  removes_nothing (PTSequence lf_front) /\ Forall (unwritten (c_added lf2)) (encode_texts (ISingle (Raw [97; 49; 120; 50; 195; 169]%N))) /\
  ends_with (special_ids (fun s => vget s rt_vocab) (zlen rt_vocab) (c_added lf2)) false true (Some lf_processor) (Some lf_padding).
Proof.
  cbv zeta. split; [|split; [|split]].
  - destruct (lf_file lower (fun _ => Some (find_chars (N.eqb 120))) quoted) as (mo & pt & de & unk & suffix & C1 & C2 & C3 & C4 & C5 & Bs & Ip & Id & Ipo & Ipa & Nu & Vb & Ap).
    exists mo, lf_cut, de, unk, suffix. split; [exact C1|]. split; [reflexivity|]. split; [exact C3|]. split; [exact C4|]. split; [exact C5|]. split; [exact Bs|]. injection C2 as <-.
    split; [|split; [exact Id|split; [exact Ipo|split; [exact Ipa|split; [exact Nu|split; [exact Vb|exact Ap]]]]]].
    apply (IP_sequence _ _ _ _ _ [JObj [(key "type", JStr (key "Digits")); (key "individual_digits", JBool true)];
      JObj [(key "type", JStr (key "Split")); (key "pattern", JObj [(key "Regex", JStr (key "x"))]); (key "behavior", JStr (key "Isolated")); (key "invert", JBool false)];
      JObj lf_pre]); [st|st|].
    constructor; [apply IP_digits; st|]. constructor; [|constructor; [exact Ip|constructor]].
    apply (IP_split _ _ _ _ _ true _ "Isolated"); [st| |reflexivity|st|cbn; tauto|st].
    apply (PG_regex _ _ _ [(key "Regex", JStr (key "x"))] (key "x")); [stx 1|split; [repeat ne; constructor|now left]|cbn; intros [H|[]]; discriminate H|reflexivity].
  - cbn. split; [exact I|]. split; [|exact I]. split; [discriminate|apply ReturnModelProofs.chars_find_well].
  - constructor; [|constructor]. intros t a z Ht E. apply (f_equal (fun s => existsb (fun c => (c =? 91) || (c =? 60))%N s)) in E. rewrite !existsb_app in E.
    cbn in Ht. destruct Ht as [<-|[<-|[<-|[]]]]; cbn in E; rewrite ?orb_true_r in E; discriminate E.
  - vm_compute. split; [split; [constructor|]|split; [reflexivity|]]; intuition.
Qed.
(** The special tokens come first, whatever the list says. *)
Example C76_listed_example : map (file_id (fun s => vget s rt_vocab) (zlen rt_vocab) lf_added) [key "<s>"; key "<p>"; key "[M]"; key "he"; key "x y"] = [Some 257; Some 258; Some 259; Some 256; None].
Proof. vm_compute. reflexivity. Qed.
Example C76_ids_meets : let m := vocab_model rt_vocab (build_vocab_r rt_vocab) in
  base_ok m /\ Forall (fun t => tc_content t <> [] /\ valid_utf8 (tc_content t)) lf_added /\
  match lf_added with a :: b :: _ => bm_t2i m (tc_content a) = None /\ bm_t2i m (tc_content b) = None /\ tc_special a = false /\ tc_special b = true /\ tc_id a = bm_size m /\ tc_id b = bm_size m + 1 | _ => False end.
Proof.
  cbv zeta. split; [apply numbered_base; [apply numberedb_ok; vm_compute; reflexivity|apply Permutation_refl]|]. split.
  - repeat (constructor; [split; [discriminate|apply plain_valid; reflexivity]|]). constructor.
  - vm_compute. repeat split.
Qed.
Definition lf_lib : norm_lib := NormLib (fun _ _ => true) (fun _ _ => []).
(** "hé" and a pair come back. *)
Example C76_byte_level_meets : let sorts' := (isort start_key, isort id_key) in
  exists l a, from_reader (fun v => v) (fun q => q) (fun s => s) (fun _ => Err) (fun _ => None) (fun _ _ => []) (Some lf) = Ok l /\
    assemble u55 (fun _ => false) (fun _ => false) (fun _ => false) (fun _ => false) (fun s => s) lf_lib (fun _ => []) (fun q => q) (fun _ _ => false) 0%Q 0%Q Qplus (fun _ => 0%Q) (fun q => q) (fun _ _ _ => Err) l = Ok a /\
    exists e, tk_encode (fst sorts') (snd sorts') (as_tok a) OByte (IDual (Raw [104; 101; 195; 169]%N) (Words [[33]; [104]]%N)) true = Ok (Some e) /\
      as_decode a (ids e) true = Ok [104; 101; 195; 169; 33; 104]%N.
Proof.
  cbv zeta. destruct (C76_byte_level_partial (isort start_key) (isort id_key) (isort_sorts start_key) (isort_sorts id_key) (fun v => v) (fun v => Permutation_refl v) (fun q => q) (fun s => s) (fun _ => Err) (fun _ => None) (fun _ _ => []) u55
    (fun _ => false) (fun _ => false) (fun _ => false) (fun _ => false) lf_lib (fun _ => []) Q (fun q => q) (fun _ _ => false) 0%Q 0%Q Qplus (fun _ => 0%Q) (fun q => q) (fun _ _ _ => Err)
    _ _ _ _ _ _ (lf_file _ _ _) ltac:(discriminate)) as (l & a & E1 & E2 & E3 & E4 & D).
  exists l, a. split; [exact E1|]. split; [exact E2|]. apply (D OByte (IDual (Raw [104; 101; 195; 169]%N) (Words [[33]; [104]]%N)) true).
  - split; [exists [104; 101; 233]%N|constructor; [exists [33]%N|constructor; [exists [104]%N|constructor]]]; (split; [repeat (constructor; [left; reflexivity|]); constructor|split; [repeat (constructor; [discriminate|]); constructor|reflexivity]]).
  - discriminate.
  - apply Forall_forall. intros s Hs t x z Ht E. assert (L : (3 <= length s)%nat) by (rewrite E, !app_length; destruct Ht as [<-|[<-|[<-|[]]]]; cbn; lia).
    destruct Hs as [<-|[<-|[<-|[]]]]; cbn in L; try lia. assert (X : In 60%N [104; 101; 195; 169]%N \/ In 91%N [104; 101; 195; 169]%N).
    { rewrite E. destruct Ht as [<-|[<-|[<-|[]]]]; [right|left|left]; apply in_or_app; right; now left. }
    cbn in X. intuition discriminate.
  - split; [split; [constructor|intros _; split; vm_compute; reflexivity]|split; [reflexivity|vm_compute; auto]].
Qed.

(** BPE with the mark, "a", "b" and the mark merged with "a"; "</s>" at the end; the decoder
    section tells whether to drop the first mark, or names the scheme. *)
Definition ms_model : conf :=
  [(key "type", JStr (key "BPE")); (key "vocab", JObj (map (fun p => (fst p, jint (snd p))) mt_vocab)); (key "merges", JArr [JArr [JStr mt_mark; JStr (key "a")]])].
Definition ms_pre : conf := [(key "type", JStr (key "Metaspace")); (key "replacement", JStr mt_mark); (key "prepend_scheme", JStr (key "always"))].
Definition ms_dec : conf := [(key "type", JStr (key "Metaspace")); (key "replacement", JStr mt_mark); (key "add_prefix_space", JBool true)].
Definition ms_post : conf :=
  [(key "type", JStr (key "TemplateProcessing"));
   (key "single", JArr [JObj [(key "Sequence", JObj [(key "id", JStr (key "A")); (key "type_id", jint 0)])];
                        JObj [(key "SpecialToken", JObj [(key "id", JStr (key "</s>")); (key "type_id", jint 0)])]]);
   (key "special_tokens", JObj [(key "</s>", JObj [(key "id", JStr (key "</s>")); (key "ids", JArr [jint 4]); (key "tokens", JArr [JStr (key "</s>")])])])].
Definition ms_file (dec : conf) : config :=
  Config None None [TC 4 (key "</s>") false false false false true; TC 5 (key "<xy>") false false false true false] None (Some ms_pre) (Some ms_post) (Some dec) (Some ms_model).
Definition ms_processor : processor := PTemplate [PSeq false 0; PSpecial (key "</s>") 0] [] [(key "</s>", ([4], [key "</s>"]))].
Definition ms_compile (s : str) : option (str -> list (Z * Z)) := if str_eqb s mt_mark then Some (find_chars (N.eqb 9601)) else None.
Lemma ms_file_ok quoted dec (says : conf -> Prop) : says dec -> metaspace_file (fun s => s) ms_compile quoted says mt_vocab [(mt_mark, key "a")] 9601 Always (Some ms_processor) None (ms_file dec).
Proof.
  intros Sd. assert (Nm : numbered mt_vocab) by (apply numberedb_ok; vm_compute; reflexivity).
  exists ms_model, ms_pre, dec, None, None. split; [reflexivity|]. split; [reflexivity|]. split; [reflexivity|]. split; [reflexivity|]. split; [reflexivity|].
  split; [|split; [|split; [exact Sd|split; [|split; [constructor|split; [exact Nm|split; [left; reflexivity|split; [discriminate|split; [vm_compute; discriminate|]]]]]]]]].
  - split; [apply MI_stated; stx 0|]. split; [split; [stx 1|exact (proj1 Nm)]|]. split; [|split; [|split; [|split; [|split; [|split]]]]].
    + eexists. split; [stx 2|]. constructor; [|constructor]. apply MJ_pair.
    + constructor; [|constructor]. split; [|split]; vm_compute; discriminate.
    + constructor; [|constructor]. split; vm_compute; intuition discriminate.
    + om.
    + om.
    + om.
    + om.
  - apply (IP_metaspace_scheme _ _ _ _ _ _ _ (key "always") "always"); [st|left; st|reflexivity|st|reflexivity|now left].
  - constructor. apply IR_template; [st| | |].
    + left. eexists. split; [st|]. constructor; [|constructor; [|constructor]].
      * eapply PJ_first; [st|om|st|st].
      * eapply PJ_special; [st|om|st|st].
    + right. split; [om|reflexivity].
    + eexists. split; [st|]. split.
      * constructor; [|constructor]. eexists. split; [reflexivity|]. split; [st|]. split; st.
      * repeat constructor. easy.
  - constructor; [|constructor; [|constructor]]; (split; [discriminate|]; split; [apply plain_valid; reflexivity|]); intros H; [|discriminate H].
    intros [(r & E)|(x & y & [E|[]] & F)]; [revert E; apply no_rune; reflexivity|injection E as <- <-; discriminate F].
Qed.
Lemma ms_dec_ok quoted : tells_prefix (fun s => s) ms_compile quoted 9601 (prepends Always) ms_dec.
Proof. apply ID_metaspace; [st|left; st|om|left; st]. Qed.
Lemma ms_pre_says : tells_scheme 9601 ms_pre.
Proof. split; [st|]. split; [st|]. split; [exists (key "always"); st|om]. Qed.
(** The text "a b": it meets the assumptions; with the second decoder section it comes back as
    " a b". *)
Lemma ms_text : let rs := [97; 32; 98]%N in
  clean (encode rs) /\ Forall scalar rs /\ unwritten (c_added (ms_file ms_dec)) (encode rs) /\ Forall (fun c => white c = false -> vget (encode_rune c) mt_vocab <> None) rs /\
  (forall add, ends_with (special_ids (fun s => vget s mt_vocab) (zlen mt_vocab) (c_added (ms_file ms_dec))) false add (Some ms_processor) None) /\ rs <> [] /\ faithful Always 9601 rs.
Proof.
  cbv zeta. assert (Sc : Forall scalar [97; 32; 98]%N) by (repeat (constructor; [left; reflexivity|]); constructor).
  split; [exists [97; 32; 98]%N; split; [exact Sc|split; [repeat (constructor; [discriminate|]); constructor|reflexivity]]|]. split; [exact Sc|].
  split; [intros t x z [<-|[<-|[]]] E; apply (f_equal (@length N)) in E; rewrite !app_length in E; cbn in E; lia|].
  split; [constructor; [intros _; vm_compute; discriminate|constructor; [intros H; discriminate H|constructor; [intros _; vm_compute; discriminate|constructor]]]|].
  split; [|split; [discriminate|split; [|discriminate]]].
  - intros add. split; [|exact I]. split.
    + eapply returning_template; [now left|]. constructor; [intros H; discriminate H|]. constructor; [intros _; vm_compute; discriminate|constructor].
    + split; [reflexivity|]. intros _ id l H. cbn [aget] in H. destruct (str_eqb id _); [|discriminate H]. injection H as <-. constructor; [vm_compute; reflexivity|constructor].
  - constructor; [right; split; [reflexivity|discriminate]|constructor; [now left|constructor; [right; split; [reflexivity|discriminate]|constructor]]].
Qed.
Definition ms_decoded (dec : conf) (s : str) : option (list Z * res str) :=
  match from_reader (fun v => v) (fun q => q) (fun s => s) (fun _ => Err) ms_compile (fun _ _ => []) (Some (ms_file dec)) with
  | Ok l => match assemble u55 (fun _ => false) (fun _ => false) (fun _ => false) (fun _ => false) (fun s => s) lf_lib (fun _ => []) (fun q => q) (fun _ _ => false) 0%Q 0%Q Qplus (fun _ => 0%Q) (fun q => q) (fun _ _ _ => Err) l with
            | Ok a => match tk_encode (isort start_key) (isort id_key) (as_tok a) OByte (ISingle (Raw s)) true with Ok (Some e) => Some (ids e, as_decode a (ids e) true) | _ => None end
            | _ => None
            end
  | _ => None
  end.
Example C76_metaspace_example : ms_decoded ms_dec [97; 32; 98]%N = Some ([3; 0; 2; 4], Ok [97; 32; 98]%N) /\ ms_decoded ms_pre [97; 32; 98]%N = Some ([3; 0; 2; 4], Ok [32; 97; 32; 98]%N).
Proof. vm_compute. split; reflexivity. Qed.
