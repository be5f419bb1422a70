(** Word-level files with a normalizer: texts with special tokens in them (C85). *)
From Coq Require Import String QArith.
From Verif Require Import Base BaseProofs Utf8Model Utf8Proofs SliceModel SliceProofs PatternModel PatternSpec PatternProofs NormalizedModel NormalizedSpec NormalizedProofs NormalizedInvProofs NormalizedExactProofs NormalizedOpProofs ExpandedProofs EncodingModel EncodingProofs BpeModel BpeTokProofs
  AddedVocabModel AddedVocabSpec AddedVocabProofs DecoderModel DecoderProofs PreTokenizerModel PreTokenizerSpec ChunkProofs PreTokenizerProofs ProcessorModel PreTokenizedModel PreTokenizedSpec MetaspaceProofs PipelineModel PipelineSpec PipelineProofs PlacedProofs PlacedNormProofs
  AddedPatternModel SpmModel UnicodeNormModel PretrainedModel ConfigModel ConfigSpec ConfigProofs ConfigLoadProofs
  TokensSpec TokensProofs ReturnSpec ReturnNormProofs ReturnModelProofs ReturnProofs RoundTripSpec RoundTripProofs RoundTripBpeProofs MetaTripSpec MetaModelProofs WordsSpec WordsProofs TurnedProofs LoadedModel LoadedSpec LoadedAddedProofs LoadedProofs LoadedWordsProofs WordLevelSpec BareProofs AddedPatternProofs ItemsSpec MaskedProofs WrittenProofs LlamaSpec LlamaProofs WordPieceModel WordPieceSpec WordPieceProofs BertNormModel BertNormSpec BertNormProofs AddedFindProofs BertWordsProofs WordsGlueProofs LoadedWordsSpec LlamaPartsProofs WordLevelProofs WordLevelNormSpec WordLevelNormProofs WordPartsProofs OrderSpec OrderProofs.
Open Scope Z_scope.
Open Scope list_scope.

Section File.
  Variable ss si : list io_pair -> list io_pair.
  Hypothesis HS : sorts start_key ss.
  Hypothesis HI : sorts id_key si.
  Variable order : vocab -> vocab.
  Hypothesis HO : forall v, Permutation (order v) v.
  Variable to32 : Q -> Q.
  Variable lower : str -> str.
  Variable base64 : str -> res str.
  Variable compile : str -> option (str -> list (Z * Z)).
  Variable quoted : str -> str -> list (Z * Z).
  Variable u : unicode.
  Variables is_word cc mn sp : N -> bool.
  Variable lib : norm_lib.
  Variable graphemes : str -> list str.
  Context {S : Type}.
  Variable of_q : Q -> S.
  Variable lt : S -> S -> bool.
  Variables bot zero : S.
  Variable plus : S -> S -> S.
  Variable bonus : nat -> S.
  Variable penal : S -> S.
  Variable dropping : bpe -> Q -> str -> res (list token).
  Hypothesis Mo : forall w, PipelineSpec.model_ok (always (wl_tokenize w)).
  Hypothesis Mr : forall w, vget (wl_unk w) (wl_vocab w) <> None -> model_returns (always (wl_tokenize w)).
  Local Notation put := (assemble u is_word cc mn sp lower lib graphemes of_q lt bot zero plus bonus penal dropping).

  Lemma words_between_tokens v unk no pre cut po pa c l0 op cl : op <> cl -> wordlevel_norm_file lower base64 compile quoted v unk no pre po pa c ->
    PipelineSpec.pre_ok (pre_tokenize u pre) -> pre_returns (pre_tokenize u pre) -> documented u pre = Some cut ->
    Forall plain_special (c_added c) -> NoDup (map tc_content (c_added c)) -> Forall (fun t => enclosed op cl (tc_content t)) (c_added c) -> with_ids (fun s => vget s v) (zlen v) (c_added c) l0 ->
    exists l a, from_reader order to32 lower base64 compile quoted (Some c) = Ok l /\ put l = Ok a /\ tk_processor (as_tok a) = po /\ tk_padding (as_tok a) = pa /\
      (forall ot x qs ts add, clean_inputs x -> ot <> OInvalid -> encode_texts x = map (fun q => written (fst q) (snd q)) qs ->
        Forall (cut_at ss si l0) qs ->
        Forall2 (fun s t => clean s /\ becomes cc mn lower no s t) (flat_map between qs) ts ->
        ends_with (special_ids (fun s => vget s v) (zlen v) (c_added c)) (dual x) add po pa ->
        exists e xss, tk_encode ss si (as_tok a) ot x add = Ok (Some e) /\
          Forall2 (word_seen v unk (specials (c_added c))) (flat_map (cut_words cut) ts) xss /\
          as_decode a (ids e) true = Ok (spaced_out (concat xss))).
  Proof.
    intros Noc (mo & pt & C1 & C2 & C4 & C5 & T & V & H1 & H2 & Ino & Ip & Ipo & Ipa & Nu & Vu & Ap) Po Pr Doc Pl Nd Enc W0.
    pose proof (wordlevel_loaded order to32 mo None v unk T V H1 H2) as Em. set (wl := WL v (build_vocab_r (order v)) unk) in *. set (ad := c_added c) in *.
    assert (Fa : Forall (fun t => tc_content t <> [] /\ valid_utf8 (tc_content t)) ad) by (eapply Forall_impl; [|exact Ap]; cbn; tauto).
    assert (Fn : Forall (fun t => tc_content t <> []) ad) by (eapply Forall_impl; [|exact Fa]; cbn; tauto).
    assert (Gu : vget unk v <> None) by (intros X; apply (proj1 (ag_none str_eqb str_eqb_eq v unk)) in X; contradiction).
    set (m := vocab_model v (build_vocab_r (order v))). pose proof (numbered_base v _ Nu (HO v)) as B. fold m in B.
    destruct (added_reached m B ad Fa) as (av & Ea & R). set (nf := norm_fun cc mn sp lower lib graphemes no).
    assert (Si : Forall (fun t => tc_single t = false) ad) by (eapply Forall_impl; [|exact Pl]; intros t H; apply H).
    destruct (looked_plain is_word nf m ad av false R Si) as (l1 & E1 & F1). destruct (looked_plain is_word nf m ad av true R Si) as (l2 & E2 & F2).
    destruct (specials_looked is_word _ _ ad av _ l0 _ _ Pl Nd Fn Ea (reached_ids m ad av R) W0 E1 E2) as (Q1 & Q2 & Ef).
    eexists. eexists. split; [|split].
    - unfold from_reader. rewrite C1, C2, C4, C5, Em. cbn [bind].
      unfold create_normalizer, create_pretokenizer, create_processor, create_decoder, create_truncation, create_padding.
      rewrite (section_ok _ _ _ _ no (norm_ok base64 compile quoted) Ino). cbn [bind]. cbn [ConfigModel.section]. rewrite (ConfigProofs.pre_ok lower compile quoted _ _ Ip). cbn [bind].
      rewrite (section_ok _ _ _ _ po processor_ok Ipo). cbn [bind].
      rewrite (section_ok _ _ _ _ pa pad_ok Ipa). reflexivity.
    - unfold assemble. cbn [l_model l_norm l_calls l_pre l_post l_trunc l_pad l_dec lookups wl wl_vocab wl_vocab_r option_map]. fold m. fold ad. fold nf. rewrite Ea. cbn [bind]. rewrite E1. cbn [bind]. rewrite E2. reflexivity.
    - split; [reflexivity|]. split; [reflexivity|]. intros ot x qs ts add C Hot Ex O W En. cbn [as_tok]. set (tk := Tkz _ _ _ _ _ _ _ _).
      assert (K1 : ending_returns tk (dual x) add).
      { split; [|split]; [|exact I|]; cbn; [destruct po; [apply En|constructor]|]. unfold returning_padding. destruct pa; [apply En|exact I]. }
      assert (K2 : ending_hides (shown m av true) tk (dual x) add).
      { split; [|split; [reflexivity|]]; cbn.
        + destruct po as [p|]; [|exact I]. apply (hides_mono (except (special_ids (fun s => vget s v) (zlen v) ad))); [|apply En]. intros i. apply (except_hidden m B ad av R).
        + destruct pa as [d|]; [|exact I]. apply (hidden_ids m B ad av R). apply En. }
      set (mk := made_of lower mn no).
      assert (Ets : ts = map mk (flat_map between qs)).
      { clear -W. induction W as [|s t l ts' (_ & H) W IH]; [reflexivity|]. cbn [map]. unfold mk at 1. now rewrite <- IH, (becomes_made lower cc mn no s t H). }
      assert (W' : forall s, In s (flat_map between qs) -> clean s /\ becomes cc mn lower no s (mk s)).
      { rewrite Ets in W. clear -W. revert W. generalize (flat_map between qs). induction l as [|s l IH]; intros W; [easy|]. cbn [map] in W. inversion W; subst. intros s' [<-|Hs]; [assumption|now apply IH]. }
      set (rn := running lower cc mn sp lib graphemes no). set (tk' := with_normalizer tk rn).
      assert (Ag : tk_encode ss si tk ot x add = tk_encode ss si tk' ot x add).
      { apply encode_agrees. intros s _. unfold tk', rn. destruct no as [y|]; reflexivity. }
      assert (Lp : flat_map (raw_parts ss si tk') (encode_texts x) = filter (fun s => match s with [] => false | _ => true end) (flat_map between qs)).
      { rewrite Ex. exact (parts_cut ss si tk' l0 qs Q1 O). }
      assert (Wp : forall s, In s (flat_map (raw_parts ss si tk') (encode_texts x)) -> clean s /\ becomes cc mn lower no s (mk s)).
      { intros s Hs. rewrite Lp in Hs. apply filter_In in Hs as [Hs _]. exact (W' s Hs). }
      destruct (cut_parts ss si HS HI tk' u pre cut rn mk (always (wl_tokenize wl)) m av true ot x add) as (e & tss & Ee & F & Sh).
      + exact (looked_ok _ _ Fa av l1 F1).
      + intros s id w Hi. assert (Q : In id (mt_ids (re_matching l1))) by (apply (found_ids ss si HS HI (tk_raw tk) s id w); [intros z; cbn [tk_raw tk re_matching mt_find mt_ids]; now rewrite !map_length|exact Hi]).
        cbn [mt_ids re_matching] in Q. apply in_map_iff in Q as (y & <- & Hy). rewrite Forall_forall in F1. destruct (F1 y Hy) as (k & Hk & _ & Ek). rewrite (reached_ids _ _ av R) in Ek.
        apply (hidden_ids _ B ad av R). unfold special_ids. apply in_flat_map. exists k. split; [exact Hk|]. rewrite Forall_forall in Pl. rewrite (proj1 (Pl k Hk)), Ek. now left.
      + reflexivity.
      + apply becomes_turns. exact Wp.
      + intros s Hs. exact (made_empty lower cc mn no s (proj1 (Wp s Hs)) (proj2 (Wp s Hs))).
      + reflexivity.
      + exact Doc.
      + exact Po.
      + exact Pr.
      + reflexivity.
      + apply Mo.
      + apply Mr. exact Gu.
      + intros s Hs. cbn [tk_normalized tk' with_normalizer tk]. rewrite Q2. constructor.
      + exact K1.
      + exact K2.
      + exact C.
      + exact Hot.
      + rewrite Lp in F.
        assert (Ew : flat_map (fun s => map encode (cut (runes (mk s)))) (filter (fun s => match s with [] => false | _ => true end) (flat_map between qs)) = flat_map (cut_words cut) ts).
        { rewrite Ets. clear -W'. revert W'. generalize (flat_map between qs). induction l as [|s l IH]; intros W'; [reflexivity|]. cbn [map flat_map]. rewrite <- IH by (intros y Hy; apply W'; now right). destruct (W' s (or_introl eq_refl)) as (Cs & Bs).
          pose proof (made_empty lower cc mn no s Cs Bs) as M. fold mk in M. destruct s as [|b s]; [cbn [filter]; rewrite (proj2 M eq_refl); reflexivity|]. cbn [filter flat_map]. f_equal.
          unfold cut_words. destruct (mk (b :: s)) eqn:Eg; [discriminate (proj1 M eq_refl)|reflexivity]. }
        rewrite Ew in F. exists e. set (ws := flat_map (cut_words cut) ts) in *.
        assert (K : exists xss, Forall2 (word_seen v unk (specials ad)) ws xss /\ shown_all m av true (map t_id (concat tss)) = concat xss).
        { exact (words_shown v unk order ad av ws tss B R Gu F). }
        destruct K as (xss & X & D). exists xss. split; [now rewrite Ag|]. split; [exact X|]. unfold as_decode. cbn [as_lookups as_added as_decoder option_map]. unfold decode_ids. rewrite tokens_of_shown. fold m. rewrite Sh, D. now rewrite join_spaced.
  Qed.
End File.
