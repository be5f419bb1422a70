(** BERT files: texts with special tokens in them (C77). *)
From Coq Require Import String QArith.
From Verif Require Import Base BaseProofs Utf8Model Utf8Proofs SliceModel SliceProofs PatternModel PatternSpec PatternProofs NormalizedModel NormalizedSpec NormalizedProofs NormalizedInvProofs NormalizedExactProofs NormalizedOpProofs ExpandedProofs EncodingModel EncodingProofs BpeModel BpeTokProofs
  AddedVocabModel AddedVocabSpec AddedVocabProofs DecoderModel DecoderProofs PreTokenizerModel PreTokenizerSpec ChunkProofs PreTokenizerProofs ProcessorModel PreTokenizedModel PreTokenizedSpec MetaspaceProofs PipelineModel PipelineSpec PipelineProofs PlacedProofs PlacedNormProofs
  AddedPatternModel SpmModel UnicodeNormModel PretrainedModel ConfigModel ConfigSpec ConfigProofs ConfigLoadProofs
  TokensSpec TokensProofs ReturnSpec ReturnNormProofs ReturnModelProofs ReturnProofs RoundTripSpec RoundTripProofs RoundTripBpeProofs MetaTripSpec MetaModelProofs WordsSpec WordsProofs TurnedProofs LoadedModel LoadedSpec LoadedAddedProofs LoadedProofs LoadedWordsProofs WordLevelSpec BareProofs AddedPatternProofs ItemsSpec MaskedProofs WrittenProofs LlamaSpec LlamaProofs WordPieceModel WordPieceSpec WordPieceProofs BertNormModel BertNormSpec BertNormProofs AddedFindProofs BertWordsProofs WordsGlueProofs LoadedWordsSpec LlamaPartsProofs OrderSpec OrderProofs.
Open Scope Z_scope.
Open Scope list_scope.

Section Parts.
  Variable ss si : list io_pair -> list io_pair.
  Hypothesis HS : sorts start_key ss.
  Hypothesis HI : sorts id_key si.

  (** The parts between the added tokens are normalized and cut. *)
  Lemma cut_parts t u pre cut f g md m av skip ot x add : let L := flat_map (raw_parts ss si t) (encode_texts x) in
    matching_ok (tk_raw t) -> (forall s id w, In (Some id, w) (cut_added ss si (tk_raw t) s) -> shown m av skip id = None) ->
    tk_normalizer t = Some f -> turns L f g -> (forall s, In s L -> g s = [] <-> s = []) ->
    tk_pre t = Some (pre_tokenize u pre) -> documented u pre = Some cut -> PipelineSpec.pre_ok (pre_tokenize u pre) -> pre_returns (pre_tokenize u pre) ->
    tk_model t = Some md -> PipelineSpec.model_ok md -> model_returns md ->
    (forall s, In s L -> Forall (fun l => l = []) (mt_find (tk_normalized t) (g s))) ->
    ending_returns t (dual x) add -> ending_hides (shown m av skip) t (dual x) add -> clean_inputs x -> ot <> OInvalid ->
    exists e tss, tk_encode ss si t ot x add = Ok (Some e) /\
      Forall2 (fun w ts => ts <> [] /\ md w = Ok (Some ts)) (flat_map (fun s => map encode (cut (runes (g s)))) L) tss /\
      shown_all m av skip (ids e) = shown_all m av skip (map t_id (concat tss)).
  Proof.
    intros L M1 Hd En Tn Lg Ep Doc Po Pr Em Mo Mr U2 Er Eh C Hot. pose proof (clean_texts x C) as Cw.
    assert (IL : forall s, In s (encode_texts x) -> incl (raw_parts ss si t s) L) by (intros s Hs w Hw; apply in_flat_map; now exists s).
    assert (NL : forall s, In s L -> s <> []) by (intros s Hs; apply in_flat_map in Hs as (y & Hy & Hs); exact (proj2 (raw_clean ss si HS HI t y s M1 (Cw y Hy) Hs))).
    set (t' := spared t L f (pre_tokenize u pre) md). destruct (sparing_ok L f g Tn) as [No Nr].
    assert (Ag : tk_encode ss si t ot x add = tk_encode ss si t' ot x add).
    { apply texts_encode; try reflexivity. intros ty wi s Hs. unfold encode_text.
      rewrite (spared_agrees ss si HS HI t f g L (pre_tokenize u pre) md s En Tn M1 (Cw s Hs) (IL s Hs)) by (intros w Hw; apply U2; exact (IL s Hs w Hw)). fold t'.
      rewrite Ep. unfold do_tokenize. rewrite Em. reflexivity. }
    destruct (encode_returns ss si HS HI t' ot x add) as (e & E); auto.
    { split; [exact M1|]. split; [exact bare_ok|]. split; [exact No|]. split; [left; exact Po|exact Mo]. }
    { split; [exact Nr|]. split; [left; exact Pr|]. exists md. split; [reflexivity|exact Mr]. }
    assert (Ah : added_hidden ss si t' (shown m av skip)).
    { intros set s id w [-> | ->] Hi; [exact (Hd s id w Hi)|]. exfalso. apply (found_ids ss si HS HI) in Hi; [|reflexivity]. destruct Hi. }
    destruct (encode_shown ss si HS HI t' u pre cut md m av skip M1 bare_ok No eq_refl Doc eq_refl Ah ot x add e Eh C E) as (ws & tss & W & F & S0).
    assert (Ew : ws = flat_map (fun s => map encode (cut (runes (g s)))) L).
    { assert (K : forall T l, Forall2 (text_words ss si t' cut) T l -> incl T (encode_texts x) -> concat l = flat_map (fun s => map encode (cut (runes (g s)))) (flat_map (raw_parts ss si t) T)).
      2:{ destruct W as (l & Fl & ->). exact (K _ l Fl (incl_refl _)). }
      intros T l Fl. clear W F S0. induction Fl as [|s ys T l (l' & F' & ->) Fl IH]; intros I; [reflexivity|].
      cbn [concat flat_map]. rewrite flat_map_app, IH by (intros y Hy; apply I; now right). f_equal. assert (Hs : In s (encode_texts x)) by (apply I; now left). change (match s with [] => [] | _ => not_added (cut_added ss si (tk_raw t') s) end) with (raw_parts ss si t s) in F'.
      pose proof (IL s Hs) as Is. revert F' Is. generalize (raw_parts ss si t s) as R. intros R F'. induction F' as [|w ys R l' (n & k & Wn & U & Et & Ek & ->) F' IH']; intros Is; [reflexivity|]. cbn [concat flat_map]. rewrite IH' by (intros y Hy; apply Is; now right). f_equal.
      assert (Hw : In w L) by (apply Is; now left). unfold apply_normalizer in Ek. cbn [tk_normalizer spared t'] in Ek. unfold sparing in Ek. rewrite Et, (proj2 (among_in L w) (conj (NL w Hw) Hw)) in Ek. destruct (Tn n Wn U) as (k' & Ef & Tk & _); [rewrite Et; exact (NL w Hw)|rewrite Et; exact Hw|]. rewrite Ef in Ek. injection Ek as ->.
      rewrite Tk, Et. change (tk_normalized t') with (re_matching []). destruct (g w) as [|d z] eqn:Eg; [elim (NL w Hw); exact (proj1 (Lg w Hw) Eg)|]. rewrite (unfound ss si (re_matching []) (d :: z) HS HI ltac:(discriminate)) by constructor. cbn [not_added flat_map fst snd app map]. now rewrite app_nil_r. }
    exists e, tss. split; [now rewrite Ag|]. split; [now rewrite <- Ew|exact S0].
  Qed.
End Parts.

Section File.
  Variable ss si : list io_pair -> list io_pair.
  Hypothesis HS : sorts start_key ss.
  Hypothesis HI : sorts id_key si.
  Variable order : vocab -> vocab.
  Hypothesis HO : forall v, Permutation (order v) v.
  Variable to32 : Q -> Q.
  Variable lower : str -> str.
  Variable base64 : str -> res str.
  Variable compile : str -> option (str -> list (Z * Z)).
  Variable quoted : str -> str -> list (Z * Z).
  Variable u : unicode.
  Variables is_word cc mn sp : N -> bool.
  Variable lib : norm_lib.
  Variable graphemes : str -> list str.
  Context {S : Type}.
  Variable of_q : Q -> S.
  Variable lt : S -> S -> bool.
  Variables bot zero : S.
  Variable plus : S -> S -> S.
  Variable bonus : nat -> S.
  Variable penal : S -> S.
  Variable dropping : bpe -> Q -> str -> res (list token).
  Hypothesis Mo : forall wp, PipelineSpec.model_ok (always (wp_tokenize wp)).
  Hypothesis Mr : forall wp, vget (wp_unk wp) (wp_vocab wp) <> None -> model_returns (always (wp_tokenize wp)).
  Hypothesis Po : PipelineSpec.pre_ok (pre_tokenize u PTBert).
  Hypothesis Pr : pre_returns (pre_tokenize u PTBert).
  Local Notation put := (assemble u is_word cc mn sp lower lib graphemes of_q lt bot zero plus bonus penal dropping).

  Lemma bert_between v unk max handles lowercase strip cleanup po pa c l0 op cl : op <> cl -> bert_file lower base64 compile quoted v unk max handles lowercase strip cleanup po pa c ->
    Forall plain_special (c_added c) -> NoDup (map tc_content (c_added c)) -> Forall (fun t => enclosed op cl (tc_content t)) (c_added c) -> with_ids (fun s => vget s v) (zlen v) (c_added c) l0 ->
    exists l a, from_reader order to32 lower base64 compile quoted (Some c) = Ok l /\ put l = Ok a /\ tk_processor (as_tok a) = po /\ tk_padding (as_tok a) = pa /\
      (forall ot x qs add, clean_inputs x -> ot <> OInvalid -> encode_texts x = map (fun q => written (fst q) (snd q)) qs ->
        Forall (cut_at ss si l0) qs ->
        Forall (fun s => clean s /\ bert_reads cc mn lower handles lowercase strip s) (flat_map between qs) ->
        ends_with (special_ids (fun s => vget s v) (zlen v) (c_added c)) (dual x) add po pa ->
        exists e xss, tk_encode ss si (as_tok a) ot x add = Ok (Some e) /\
          Forall2 (comes_back v max unk (specials (c_added c))) (flat_map (fun s => bert_words u (BertNormSpec.bert_text handles lowercase strip mn lower (runes s))) (flat_map between qs)) xss /\
          as_decode a (ids e) true = Ok (put_together cleanup (concat xss))).
  Proof.
    intros Noc (mo & no & pt & de & cleaned & C1 & C2 & C3 & C4 & C5 & T & V & H1 & H2 & H3 & In' & Ip & Id & Ipo & Ipa & Nu & Vu & Ap & Hu) Pl Nd Enc W0.
    pose proof (wordpiece_loaded order to32 mo (Some de) v unk max T V H1 H2 H3) as Em. set (wp := WP v (build_vocab_r (order v)) unk (key "##") max) in *. set (ad := c_added c) in *.
    assert (Fa : Forall (fun t => tc_content t <> [] /\ valid_utf8 (tc_content t)) ad).
    { eapply Forall_impl; [|exact Ap]. cbn. tauto. }
    assert (Fn : Forall (fun t => tc_content t <> []) ad) by (eapply Forall_impl; [|exact Fa]; cbn; tauto).
    assert (Si : Forall (fun t => tc_single t = false) ad) by (eapply Forall_impl; [|exact Ap]; cbn; tauto).
    set (m := vocab_model v (build_vocab_r (order v))). pose proof (numbered_base v _ Nu (HO v)) as B. fold m in B.
    destruct (added_reached m B ad Fa) as (av & Ea & R). set (nf := norm_fun cc mn sp lower lib graphemes (Some (NBert cleaned lowercase handles strip))).
    destruct (looked_plain is_word nf m ad av false R Si) as (l1 & E1 & F1). destruct (looked_plain is_word nf m ad av true R Si) as (l2 & E2 & F2).
    destruct (specials_looked is_word _ _ ad av _ l0 _ _ Pl Nd Fn Ea (reached_ids m ad av R) W0 E1 E2) as (Q1 & Q2 & Ef).
    eexists. eexists. split; [|split].
    - unfold from_reader. rewrite C1, C2, C3, C4, C5, Em. cbn [bind].
      unfold create_normalizer, create_pretokenizer, create_processor, create_decoder, create_truncation, create_padding.
      cbn [ConfigModel.section]. rewrite (norm_ok base64 compile quoted _ _ In'). cbn [bind]. rewrite (ConfigProofs.pre_ok lower compile quoted _ _ Ip). cbn [bind].
      rewrite (section_ok _ _ _ _ po processor_ok Ipo). cbn [bind]. rewrite (decoder_ok lower compile quoted _ _ Id). cbn [bind].
      rewrite (section_ok _ _ _ _ pa pad_ok Ipa). reflexivity.
    - unfold assemble. cbn [l_model l_norm l_calls l_pre l_post l_trunc l_pad l_dec lookups wp wp_vocab wp_vocab_r]. fold m. fold ad. fold nf. rewrite Ea. cbn [bind]. rewrite E1. cbn [bind]. rewrite E2. reflexivity.
    - split; [reflexivity|]. split; [reflexivity|]. cbn [as_tok]. set (tk := Tkz _ _ _ _ _ _ _ _). intros ot x qs add C Hot Ex O Pa En.
      assert (K1 : ending_returns tk (dual x) add).
      { split; [|split]; [|exact I|]; cbn; [destruct po; [apply En|constructor]|]. unfold returning_padding. destruct pa; [apply En|exact I]. }
      assert (K2 : ending_hides (shown m av true) tk (dual x) add).
      { split; [|split; [reflexivity|]]; cbn.
        + destruct po as [p|]; [|exact I]. apply (hides_mono (except (special_ids (fun s => vget s v) (zlen v) ad))); [|apply En]. intros i. apply (except_hidden m B ad av R).
        + destruct pa as [d|]; [|exact I]. apply (hidden_ids m B ad av R). apply En. }
      assert (Lp : flat_map (raw_parts ss si tk) (encode_texts x) = filter (fun s => match s with [] => false | _ => true end) (flat_map between qs)).
      { rewrite Ex. exact (parts_cut ss si tk l0 qs Q1 O). }
      assert (W : forall s, In s (flat_map (raw_parts ss si tk) (encode_texts x)) -> clean s /\ bert_reads cc mn lower handles lowercase strip s).
      { intros s Hs. rewrite Lp in Hs. apply filter_In in Hs as [Hs _]. rewrite Forall_forall in Pa. exact (Pa s Hs). }
      destruct (cut_parts ss si HS HI tk u PTBert (bert_pieces u) (used (run_norm cc mn sp lower lib graphemes (NBert cleaned lowercase handles strip))) (fun s => BertNormSpec.bert_text handles lowercase strip mn lower (runes s)) (always (wp_tokenize wp)) m av true ot x add) as (e & tss & Ee & F & Sh).
      + exact (looked_ok _ _ Fa av l1 F1).
      + intros s id w Hi. assert (Q : In id (mt_ids (re_matching l1))) by (apply (found_ids ss si HS HI (tk_raw tk) s id w); [intros z; cbn [tk_raw tk re_matching mt_find mt_ids]; now rewrite !map_length|exact Hi]).
        cbn [mt_ids re_matching] in Q. apply in_map_iff in Q as (y & <- & Hy). rewrite Forall_forall in F1. destruct (F1 y Hy) as (k & Hk & _ & Ek). rewrite (reached_ids _ _ av R) in Ek.
        apply (hidden_ids _ B ad av R). unfold special_ids. apply in_flat_map. exists k. split; [exact Hk|]. rewrite Forall_forall in Pl. rewrite (proj1 (Pl k Hk)), Ek. now left.
      + reflexivity.
      + intros n Wn U Ne Hn. destruct (W _ Hn) as (_ & Rd). destruct (bert_turned cc mn lower cleaned handles strip lowercase n Wn U Ne Rd) as (k & Ek & K). exists k. split; [|exact K].
        unfold used. cbn [run_norm]. rewrite Ek. reflexivity.
      + intros s Hs. exact (bert_text_empty cc mn lower handles lowercase strip s (proj1 (W s Hs)) (proj2 (W s Hs))).
      + reflexivity.
      + reflexivity.
      + exact Po.
      + exact Pr.
      + reflexivity.
      + apply Mo.
      + apply Mr. exact Vu.
      + intros s Hs. cbn [tk_normalized tk]. rewrite Q2. constructor.
      + exact K1.
      + exact K2.
      + exact C.
      + exact Hot.
      + rewrite Lp in F.
        assert (Ec : flat_map (fun s => map encode (bert_pieces u (runes (BertNormSpec.bert_text handles lowercase strip mn lower (runes s))))) (filter (fun s => match s with [] => false | _ => true end) (flat_map between qs)) =
          flat_map (fun s => bert_words u (BertNormSpec.bert_text handles lowercase strip mn lower (runes s))) (flat_map between qs)).
        { clear -Pa. revert Pa. generalize (flat_map between qs). induction l as [|[|b s] l IH]; intros Pa; [reflexivity|..]; apply Forall_cons_iff in Pa as [P1 Pa]; cbn [filter flat_map]; rewrite (IH Pa); [|reflexivity].
          rewrite (proj2 (bert_text_empty cc mn lower handles lowercase strip [] (proj1 P1) (proj2 P1)) eq_refl). reflexivity. }
        rewrite Ec in F. exists e. set (ws := flat_map _ (flat_map between qs)) in F |- *.
        destruct (bert_back order HO u cleanup v unk max ad av ws tss Nu) as (xss & X & D); [eapply Forall_impl; [|exact Ap]; cbn; tauto|exact Hu|exact R| |exact F|].
        { apply Forall_forall. intros w Hw. apply in_flat_map in Hw as (z & _ & Hw). eexists. exact Hw. }
        exists xss. split; [exact Ee|]. split; [exact X|]. unfold as_decode. cbn [as_lookups as_added as_decoder option_map]. unfold decode_ids. rewrite tokens_of_shown. fold m. rewrite Sh. cbn [decode decode_chain bind].
        exact (f_equal Ok D).
  Qed.
End File.
