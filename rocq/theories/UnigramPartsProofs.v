(** Metaspace files with Unigram models: texts with special tokens in them (C76). *)
From Coq Require Import String QArith.
From Verif Require Import Base BaseProofs Utf8Model Utf8Proofs SliceModel SliceProofs PatternModel PatternSpec PatternProofs NormalizedModel NormalizedSpec NormalizedProofs NormalizedInvProofs NormalizedExactProofs NormalizedOpProofs ExpandedProofs EncodingModel EncodingProofs BpeModel BpeTokProofs
  AddedVocabModel AddedVocabSpec AddedVocabProofs DecoderModel DecoderProofs PreTokenizerModel PreTokenizerSpec ChunkProofs PreTokenizerProofs ProcessorModel PreTokenizedModel PreTokenizedSpec MetaspaceProofs PipelineModel PipelineSpec PipelineProofs PlacedProofs PlacedNormProofs
  AddedPatternModel SpmModel UnicodeNormModel PretrainedModel ConfigModel ConfigSpec ConfigProofs ConfigLoadProofs
  TokensSpec TokensProofs ReturnSpec ReturnNormProofs ReturnModelProofs ReturnProofs RoundTripSpec RoundTripProofs RoundTripBpeProofs MetaTripSpec MetaModelProofs WordsSpec WordsProofs TurnedProofs LoadedModel LoadedSpec LoadedAddedProofs LoadedProofs LoadedWordsProofs WordLevelSpec BareProofs AddedPatternProofs ItemsSpec MaskedProofs MetaspaceSpec MetaTripProofs MetaTextProofs LoadedUnigramSpec LoadedUnigramProofs CutBytesProofs WordPieceProofs WrittenProofs UnigramModel UnigramSpec UnigramProofs LoadedPartsProofs OrderSpec OrderProofs.
Open Scope Z_scope.
Open Scope list_scope.

Section Unigram.
  Variable ss si : list io_pair -> list io_pair.
  Hypothesis HS : sorts start_key ss.
  Hypothesis HI : sorts id_key si.
  Variable order : vocab -> vocab.
  Variable to32 : Q -> Q.
  Variable lower : str -> str.
  Variable base64 : str -> res str.
  Variable compile : str -> option (str -> list (Z * Z)).
  Variable quoted : str -> str -> list (Z * Z).
  Variable u : unicode.
  Variables is_word cc mn sp : N -> bool.
  Variable lib : norm_lib.
  Variable graphemes : str -> list str.
  Context {S : Type}.
  Variable of_q : Q -> S.
  Variable lt : S -> S -> bool.
  Variables bot zero : S.
  Variable plus : S -> S -> S.
  Variable bonus : nat -> S.
  Variable penal : S -> S.
  Variable dropping : bpe -> Q -> str -> res (list token).
  Local Notation put := (assemble u is_word cc mn sp lower lib graphemes of_q lt bot zero plus bonus penal dropping).

  Lemma unigram_between says op cl voc unk fuse mark scheme drop po pa c l0 : op <> cl -> score_laws lt bot plus -> unigram_file lower compile quoted says voc unk fuse mark scheme po pa c ->
    (forall de, says de -> decoder_of quoted (JObj de) = Ok (DMetaspace (encode_rune mark) drop)) ->
    Forall plain_special (c_added c) -> NoDup (map tc_content (c_added c)) -> Forall (fun t => enclosed op cl (tc_content t)) (c_added c) -> with_ids (place voc) (zlen voc) (c_added c) l0 ->
    exists l a, from_reader order to32 lower base64 compile quoted (Some c) = Ok l /\ put l = Ok a /\ tk_processor (as_tok a) = po /\ tk_padding (as_tok a) = pa /\
      (forall ot x qs add, clean_inputs x -> ot <> OInvalid -> encode_texts x = map (fun q => written (fst q) (snd q)) qs ->
        Forall (cut_at ss si l0) qs ->
        Forall (fun s => valid_utf8 s /\ free_of (map tc_content (c_added c)) s /\ Forall (fun c => white c = false -> In (encode_rune c) (map fst voc)) (runes s)) (flat_map between qs) ->
        Forall (fun w => exists gs, let g := UG (map (fun p => (fst p, of_q (snd p))) voc) unk false fuse in segmentation g w gs /\ lt bot (total lt zero plus bonus penal g gs) = true) (words_between scheme mark qs) ->
        ends_with (special_ids (place voc) (zlen voc) (c_added c)) (dual x) add po pa ->
        exists e, tk_encode ss si (as_tok a) ot x add = Ok (Some e) /\
          as_decode a (ids e) true = Ok (encode (match flat_map (fun q => concat (led_between scheme mark q)) qs with c :: l => if drop && (c =? 32)%N then l else c :: l | [] => [] end))).
  Proof.
    intros Noc Ls (mo & pt & de & C1 & C2 & C3 & C4 & C5 & Us & Ip & Sy & Ipo & Ipa & Ndv & Vv & Sm & M0 & Vm & Fa & Fu) Hd Pl Nd Enc W. specialize (Hd de Sy). pose proof (unigram_loaded order to32 _ _ _ _ _ Us) as Em.
    set (lm := MUnigram (UG voc unk false fuse)) in *. set (g := UG (map (fun p => (fst p, of_q (snd p))) voc) unk false fuse). set (m := lookups lm). set (ad := c_added c) in *.
    assert (B : AddedVocabSpec.base_ok m) by (apply (NamesLoadedProofs.lookups_ok lower graphemes of_q lt plus bonus penal dropping lm); exact Ndv).
    assert (Fv : Forall (fun t => tc_content t <> [] /\ valid_utf8 (tc_content t)) ad) by (eapply Forall_impl; [|exact Fa]; cbn; tauto).
    assert (Mo : PipelineSpec.model_ok (run_model of_q lt bot zero plus bonus penal dropping lm)).
    { apply always_model. intros s toks C N E. exists (zlen s). split; [|lia]. exact (proj1 (unigram_tiles lt bot zero plus bonus penal Ls g s toks eq_refl E)). }
    assert (Pc : forall s, bm_t2i m s = place voc s) by (intros s; exact (ug_place voc unk false fuse s Ndv)).
    destruct (added_reached m B ad Fv) as (av & Ea & R).
    destruct (looked_made m ad Fv av R is_word false) as (l1 & E1 & F1). destruct (looked_made m ad Fv av R is_word true) as (l2 & E2 & F2).
    assert (Fn : Forall (fun t => tc_content t <> []) ad) by (eapply Forall_impl; [|exact Fv]; cbn; tauto).
    assert (Ei : forall s, av_token_to_id m av s = file_id (place voc) (zlen voc) ad s) by (intros s; rewrite (reached_ids m ad av R s); exact (file_id_ext _ _ _ _ s Pc)).
    destruct (specials_looked is_word _ _ ad av _ l0 _ _ Pl Nd Fn Ea Ei W E1 E2) as (Q1 & Q2 & Ef).
    eexists. eexists. split; [|split].
    - unfold from_reader. rewrite C1, C2, C3, C4, C5, Em. cbn [bind].
      unfold create_normalizer, create_pretokenizer, create_processor, create_decoder, create_truncation, create_padding.
      cbn [ConfigModel.section]. cbn [bind]. rewrite (ConfigProofs.pre_ok lower compile quoted _ _ Ip). cbn [bind].
      rewrite (section_ok _ _ _ _ po processor_ok Ipo). cbn [bind]. rewrite Hd. cbn [bind].
      rewrite (section_ok _ _ _ _ pa pad_ok Ipa). reflexivity.
    - unfold assemble. cbn [l_model l_norm l_calls l_pre l_post l_trunc l_pad l_dec norm_fun option_map]. fold m. fold ad. rewrite Ea. cbn [bind]. rewrite E1. cbn [bind]. rewrite E2. reflexivity.
    - split; [reflexivity|]. split; [reflexivity|]. intros ot x qs add C Hot Ex O Pa Fin En. cbn [as_tok]. set (tk := Tkz _ _ _ _ _ _ _ _).
      assert (En' : ends_with (special_ids (bm_t2i m) (bm_size m) ad) (dual x) add po pa) by (unfold m; cbn [lookups bm_size lm ug_vocab]; rewrite (special_ids_ext _ _ _ _ Pc); exact En).
      destruct (any_ending lm ad B av (tk_pre tk) (re_matching l1) (re_matching l2) (tk_model tk) po pa (dual x) add R En') as [K1 K2].
      assert (Nd' : NoDup (map fst l0)) by now rewrite Ef.
      assert (El : Forall (fun y => enclosed op cl (fst y)) l0) by (apply Forall_forall; intros y Hy; apply (in_map fst) in Hy; rewrite Ef in Hy; apply in_map_iff in Hy as (k & <- & Ht); rewrite Forall_forall in Enc; now apply Enc).
      assert (Ip' : input_parts ss si tk scheme mark x = filter kept (flat_map (led_between scheme mark) qs)).
      { unfold input_parts. rewrite Ex. clear Ex C En En' Fin K1 K2 Pa. induction O as [|[p ps] qs Oq O IH]; [reflexivity|]. cbn [map flat_map fst snd]. rewrite filter_app, IH. f_equal.
        apply led_written. exact (all_cut ss si tk l0 p ps HS HI Q1 Q2 Oq). }
      destruct (meta_decodes ss si HS HI tk (run_model of_q lt bot zero plus bonus penal dropping lm) u mark scheme m av true) with (drop := drop) (mk := ByNew) (ot := ot) (x := x) (add := add) as (e & E & D).
      + exact Sm.
      + exact M0.
      + exact (looked_ok _ _ Fv av l1 F1).
      + exact (looked_ok _ _ Fv av l2 F2).
      + reflexivity.
      + reflexivity.
      + reflexivity.
      + exact Mo.
      + intros set0 s id w Hs Hi. assert (Q : In id (mt_ids set0)) by (apply (found_ids ss si HS HI set0 s id w); [destruct Hs as [-> | ->]; intros z; cbn [tk_raw tk_normalized tk re_matching mt_find mt_ids]; now rewrite !map_length|exact Hi]).
        assert (K : forall l, Forall (of_token m ad av) l -> In id (mt_ids (re_matching l)) -> shown m av true id = None).
        { intros l F H. cbn [mt_ids re_matching] in H. apply in_map_iff in H as (y & <- & Hy). rewrite Forall_forall in F. destruct (F y Hy) as (k & Hk & _ & Ek). rewrite (reached_ids _ _ av R) in Ek.
          apply (hidden_ids _ B ad av R). unfold special_ids. apply in_flat_map. exists k. split; [exact Hk|]. rewrite Forall_forall in Pl. rewrite (proj1 (Pl k Hk)), Ek. now left. }
        destruct Hs as [-> | ->]; [exact (K l1 F1 Q)|exact (K l2 F2 Q)].
      + exact K1.
      + exact K2.
      + exact C.
      + exact Hot.
      + apply Forall_forall. intros w Hw. unfold meta_words in Hw. apply in_flat_map in Hw as (part & Hp & Hw). rewrite Ip' in Hp. apply filter_In in Hp as [Hp _].
        assert (Hwb : In w (words_between scheme mark qs)) by (unfold words_between; apply in_flat_map; exists part; auto). rewrite Forall_forall in Fin. destruct (Fin w Hwb) as (gs & Sg & Tg).
        apply in_flat_map in Hp as ([p ps] & Hq & Hp).
        assert (X : exists sch s, part = led sch mark true (runes s) /\ In s (flat_map between qs)).
        { destruct Hp as [<-|Hp]; [exists scheme, p; split; [reflexivity|]; apply in_flat_map; exists (p, ps); split; [exact Hq|now left]|]. cbn [snd] in Hp. apply in_map_iff in Hp as (y & <- & Hy).
          exists (match scheme with First => Never | x => x end), (snd y). split; [apply led_later|]. apply in_flat_map. exists (p, ps). split; [exact Hq|]. right. cbn [snd]. now apply in_map. }
        destruct X as (sch & s & -> & Hs). rewrite Forall_forall in Pa. destruct (Pa s Hs) as (Vs & Fs & Kc).
        assert (Hw' : In w (led_words sch mark [s])) by (unfold led_words; cbn [flat_map]; rewrite app_nil_r; exact Hw). assert (Vx : Forall valid_utf8 [s]) by now constructor.
        destruct (word_shape sch mark [s] w Sm Vx Hw') as (s' & ws & a0 & z0 & Hs' & Ew & Ne & Sw & _ & K). destruct Hs' as [<-|[]].
        assert (Mf : map fst (ug_vocab g) = map fst voc) by (unfold g; cbn [ug_vocab]; rewrite map_map; reflexivity).
        assert (Un : forall t x0 y0, In t (map tc_content (filter tc_special ad)) -> w <> x0 ++ t ++ y0).
        { intros t x0 y0 Ht E. apply in_map_iff in Ht as (tc & <- & Htc). apply filter_In in Htc as [Htc Hsp]. pose proof Fa as Fa'. rewrite Forall_forall in Fa'. destruct (Fa' tc Htc) as (T1 & T2 & T3). specialize (T3 Hsp).
          destruct (unmarked_written sch mark _ w (tc_content tc) x0 y0 Sm Vx Hw' T2 T1 T3 E) as (s' & a' & z' & Hs' & Es'). destruct Hs' as [<-|[]]. apply (Fs (tc_content tc) a' z'); [now apply in_map|exact Es']. }
        apply (unigram_spells g); [|exact Ls|reflexivity|exists ws; auto| | | |exists gs; split; [exact Sg|exact Tg]|].
        * unfold g. cbn [ug_vocab]. apply Forall_map. exact Vv.
        * rewrite Ew. destruct ws as [|c0 ws]; [congruence|]. rewrite encode_cons. intros X. apply app_eq_nil in X as [X _]. now apply (encode_rune_nonempty c0).
        * rewrite Ew, runes_encode, Mf by assumption. eapply Forall_impl; [|exact K]. intros c0 [->|[Hc E]]; [exact Vm|]. rewrite Forall_forall in Kc. exact (Kc c0 Hc E).
        * intros k t sc x0 y0 Hu Hk. apply Un. unfold g in Hk. cbn [ug_vocab] in Hk. rewrite nth_error_map in Hk. destruct (nth_error voc k) as [pv|] eqn:Ep; [|discriminate]. injection Hk as <- _. exact (Fu k pv Hu Ep).
        * intros t id x0 y0 Ht E. apply (shown_other _ B _ _ R t id); [|intros (tc & Htc & Hsp & <-); apply (Un (tc_content tc) x0 y0); [apply in_map, filter_In; auto|exact E]].
          rewrite Pc. rewrite <- (ug_place voc unk false fuse t Ndv). rewrite <- (NamesLoadedProofs.scored_id of_q (UG voc unk false fuse) t). exact Ht.
      + exists e. split; [exact E|]. unfold as_decode. cbn [as_lookups as_added as_decoder option_map]. rewrite D. f_equal. f_equal. rewrite Ip'.
        assert (Y : concat (filter kept (flat_map (led_between scheme mark) qs)) = flat_map (fun q => concat (led_between scheme mark q)) qs).
        { transitivity (concat (flat_map (led_between scheme mark) qs)).
          - generalize (flat_map (led_between scheme mark) qs). clear. induction l as [|[|a z] l IH]; [reflexivity|exact IH|]. cbn [filter kept concat]. now rewrite IH.
          - clear. induction qs as [|q qs IH]; [reflexivity|]. cbn [flat_map]. now rewrite concat_app, IH. }
        now rewrite Y.
  Qed.
End Unigram.
