(** Byte-level and metaspace files: texts with special tokens in them (C76). *)
From Coq Require Import String QArith.
From Verif Require Import Base BaseProofs Utf8Model Utf8Proofs SliceModel SliceProofs PatternModel PatternSpec PatternProofs NormalizedModel NormalizedSpec NormalizedProofs NormalizedInvProofs NormalizedExactProofs NormalizedOpProofs ExpandedProofs EncodingModel EncodingProofs BpeModel BpeTokProofs
  AddedVocabModel AddedVocabSpec AddedVocabProofs DecoderModel DecoderProofs PreTokenizerModel PreTokenizerSpec ChunkProofs PreTokenizerProofs ProcessorModel PreTokenizedModel PreTokenizedSpec MetaspaceProofs PipelineModel PipelineSpec PipelineProofs PlacedProofs PlacedNormProofs
  AddedPatternModel SpmModel UnicodeNormModel PretrainedModel ConfigModel ConfigSpec ConfigProofs ConfigLoadProofs
  TokensSpec TokensProofs ReturnSpec ReturnNormProofs ReturnModelProofs ReturnProofs RoundTripSpec RoundTripProofs RoundTripBpeProofs MetaTripSpec MetaModelProofs WordsSpec WordsProofs TurnedProofs LoadedModel LoadedSpec LoadedAddedProofs LoadedProofs LoadedWordsProofs WordLevelSpec BareProofs AddedPatternProofs ItemsSpec MaskedProofs MetaspaceSpec MetaTripProofs MetaTextProofs LoadedUnigramSpec LoadedUnigramProofs CutBytesProofs WordPieceProofs WrittenProofs OrderSpec OrderProofs.
Open Scope Z_scope.
Open Scope list_scope.

Section Written.
  Variable ss si : list io_pair -> list io_pair.
  Hypothesis HS : sorts start_key ss.
  Hypothesis HI : sorts id_key si.
  Variable order : vocab -> vocab.
  Hypothesis HO : forall v, Permutation (order v) v.
  Variable to32 : Q -> Q.
  Variable lower : str -> str.
  Variable base64 : str -> res str.
  Variable compile : str -> option (str -> list (Z * Z)).
  Variable quoted : str -> str -> list (Z * Z).
  Variable u : unicode.
  Variables is_word cc mn sp : N -> bool.
  Variable lib : norm_lib.
  Variable graphemes : str -> list str.
  Context {S : Type}.
  Variable of_q : Q -> S.
  Variable lt : S -> S -> bool.
  Variables bot zero : S.
  Variable plus : S -> S -> S.
  Variable bonus : nat -> S.
  Variable penal : S -> S.
  Variable dropping : bpe -> Q -> str -> res (list token).
  Hypothesis Mo : forall b, PipelineSpec.model_ok (always (bpe_tokenize b)).
  Local Notation put := (assemble u is_word cc mn sp lower lib graphemes of_q lt bot zero plus bonus penal dropping).

  Lemma bytes_parts v ms pre seen po pa c : byte_level_file lower compile quoted v ms pre po pa c ->
    pre_fresh_ok (pre_tokenize u pre) -> pre_fresh_returns (pre_tokenize u pre) ->
    (forall p p', laid p -> fresh p -> pre_tokenize u pre p = Ok p' ->
      exists gs, Forall (fun g => g <> [] /\ valid_utf8 g) gs /\ concat gs = concat (map seen (open_texts (pt_splits p))) /\
        map sp_text (pt_splits p') = map bl_render gs /\ Forall (fun sp => sp_toks sp = None) (pt_splits p')) ->
    exists l a av, from_reader order to32 lower base64 compile quoted (Some c) = Ok l /\ put l = Ok a /\ tk_processor (as_tok a) = po /\ tk_padding (as_tok a) = pa /\
      added_by (vocab_model v (build_vocab_r (order v))) (add_calls (c_added c)) = Ok av /\ (forall s, av_token_to_id (vocab_model v (build_vocab_r (order v))) av s = file_id (fun s => vget s v) (zlen v) (c_added c) s) /\
      looked_for is_word None (vocab_model v (build_vocab_r (order v))) av false = Ok (tk_raw (as_tok a)) /\ looked_for is_word None (vocab_model v (build_vocab_r (order v))) av true = Ok (tk_normalized (as_tok a)) /\
      matching_ok (tk_raw (as_tok a)) /\
      forall ot x add, clean_inputs x -> ot <> OInvalid ->
        ends_with (special_ids (fun s => vget s v) (zlen v) (c_added c)) (dual x) add po pa ->
        exists e, tk_encode ss si (as_tok a) ot x add = Ok (Some e) /\ as_decode a (ids e) true = Ok (concat (map (seen_text ss si (as_tok a) seen) (encode_texts x))).
  Proof.
    intros (mo & pt & de & unk & suffix & C1 & C2 & C3 & C4 & C5 & Bs & Ip & Id & Ipo & Ipa & Nu & Vb & Ap) Pk Pr Pw.
    destruct (bpe_loaded order to32 mo (Some de) v ms unk suffix Bs) as (t & Em & Et). pose proof Bs as (_ & _ & _ & _ & Sp & _). set (ad := c_added c) in *. set (m := vocab_model v (build_vocab_r (order v))).
    assert (Fa : Forall (fun t => tc_content t <> [] /\ valid_utf8 (tc_content t)) ad) by (eapply Forall_impl; [|exact Ap]; cbn; tauto). pose proof (numbered_base v _ Nu (HO v)) as B. fold m in B. destruct (added_reached m B ad Fa) as (av & Ea & R).
    destruct (looked_made m ad Fa av R is_word false) as (l1 & E1 & F1). destruct (looked_made m ad Fa av R is_word true) as (l2 & E2 & F2).
    eexists. eexists. exists av. split; [|split].
    - unfold from_reader. rewrite C1, C2, C3, C4, C5, Em. cbn [bind].
      unfold create_normalizer, create_pretokenizer, create_processor, create_decoder, create_truncation, create_padding.
      cbn [ConfigModel.section]. cbn [bind]. rewrite (ConfigProofs.pre_ok lower compile quoted _ _ Ip). cbn [bind].
      rewrite (section_ok _ _ _ _ po processor_ok Ipo). cbn [bind]. rewrite (decoder_ok lower compile quoted _ _ Id). cbn [bind].
      rewrite (section_ok _ _ _ _ pa pad_ok Ipa). reflexivity.
    - unfold assemble. cbn [l_model l_norm l_calls l_pre l_post l_trunc l_pad l_dec lookups b_vocab b_vocab_r norm_fun option_map]. fold m. fold ad. rewrite Ea. cbn [bind]. rewrite E1. cbn [bind]. rewrite E2. reflexivity.
    - split; [reflexivity|]. split; [reflexivity|]. split; [exact Ea|]. split; [intros s; exact (reached_ids _ _ av R s)|]. split; [exact E1|]. split; [exact E2|]. assert (M1 := looked_ok _ _ Fa av l1 F1). split; [exact M1|].
      intros ot x add C Hot En. cbn [as_tok]. set (tk := Tkz _ _ _ _ _ _ _ _).
      destruct (ending_ok order HO v ad Nu av (option_map (pre_tokenize u) (Some pre)) (re_matching l1) (re_matching l2) (Some (run_model of_q lt bot zero plus bonus penal dropping (MBpe (Bpe v (build_vocab_r (order v)) t unk None suffix) None))) po pa (dual x) add R En) as [K1 K2].
      destruct (any_round_trip ss si HS HI tk (always (bpe_tokenize (Bpe v (build_vocab_r (order v)) t unk None suffix))) (pre_tokenize u pre) seen m av true) with (mk := ByNew) (ot := ot) (x := x) (add := add) as (e & E & D).
      + exact M1.
      + exact (looked_ok _ _ Fa av l2 F2).
      + reflexivity.
      + reflexivity.
      + exact Pk.
      + exact Pr.
      + exact Pw.
      + reflexivity.
      + apply Mo.
      + intros bs Ne Hb. apply bytes_spelled; [exact (bpe_literal order HO v ms t unk suffix Nu Et)|exact Vb|exact (bpe_names order HO v ms t unk suffix ad Nu Et Sp Ap av R)|exact Ne|exact Hb].
      + exact K1.
      + exact K2.
      + exact C.
      + exact Hot.
      + exists e. split; [exact E|]. exact D.
  Qed.

  Lemma bytes_between op cl v ms prefix po pa c l0 : op <> cl -> byte_level_file lower compile quoted v ms (PTByteLevel prefix) po pa c -> (prefix = true -> un_letter u 32 = false /\ un_number u 32 = false) ->
    Forall plain_special (c_added c) -> NoDup (map tc_content (c_added c)) -> Forall (fun t => enclosed op cl (tc_content t)) (c_added c) -> with_ids (fun s => vget s v) (zlen v) (c_added c) l0 ->
    exists l a, from_reader order to32 lower base64 compile quoted (Some c) = Ok l /\ put l = Ok a /\ tk_processor (as_tok a) = po /\ tk_padding (as_tok a) = pa /\
      (forall ot x qs add, clean_inputs x -> ot <> OInvalid -> encode_texts x = map (fun q => written (fst q) (snd q)) qs ->
        Forall (cut_at ss si l0) qs ->
        ends_with (special_ids (fun s => vget s v) (zlen v) (c_added c)) (dual x) add po pa ->
        exists e, tk_encode ss si (as_tok a) ot x add = Ok (Some e) /\
          as_decode a (ids e) true = Ok (concat (map (PreTokenizerSpec.spaced prefix) (flat_map between qs)))).
  Proof.
    intros Noc F U Pl Nd Enc W. set (ad := c_added c) in *.
    destruct (bytes_parts v ms (PTByteLevel prefix) (PreTokenizerSpec.spaced prefix) po pa c F (byte_level_ok u prefix U) (byte_level_returns u prefix U) (fun p p' => byte_words u prefix p p' U)) as (l & a & av & E1 & E2 & E3 & E4 & Ea & Ei & L1 & L2 & M1 & D).
    exists l, a. split; [exact E1|]. split; [exact E2|]. split; [exact E3|]. split; [exact E4|]. clear E1 E2 E3 E4. intros ot x qs add C Hot Ex O En. fold ad in Ea.
    assert (Fn : Forall (fun t => tc_content t <> []) ad) by (eapply Forall_impl; [|exact Enc]; intros t (b & -> & _); discriminate).
    destruct (specials_looked is_word _ _ ad av _ l0 _ _ Pl Nd Fn Ea Ei W L1 L2) as (Q1 & Q2 & Em).
    pose proof (parts_cut ss si (as_tok a) l0 qs Q1 O) as R. rewrite <- Ex in R.
    destruct (D ot x add C Hot En) as (e & Ee & Ed). exists e. split; [exact Ee|]. rewrite Ed. f_equal.
    transitivity (concat (map (PreTokenizerSpec.spaced prefix) (flat_map (raw_parts ss si (as_tok a)) (encode_texts x)))).
    - assert (N1 : Forall (fun w => w <> []) (flat_map (raw_parts ss si (as_tok a)) (encode_texts x))) by (rewrite R; apply Forall_forall; intros w Hw; apply filter_In in Hw as [_ Hw]; now destruct w).
      clear -HS HI Q2 N1. induction (encode_texts x) as [|s X IH]; [reflexivity|]. cbn [map flat_map concat] in *. apply Forall_app in N1 as [Ns N1]. rewrite (IH N1), map_app, concat_app. f_equal. unfold seen_text. now rewrite (plain_raw ss si (as_tok a) s HS HI Q2 Ns).
    - rewrite R. clear. induction (flat_map between qs) as [|[|b s] P IH]; [reflexivity|exact IH|]. cbn [filter map concat]. now rewrite IH.
  Qed.
End Written.

(** ** Metaspace *)
Lemma led_later scheme r rs : led scheme r false rs = led (match scheme with First => Never | x => x end) r true rs.
Proof. now destruct scheme. Qed.
Lemma led_nonempty scheme r first s : s <> [] -> led scheme r first (runes s) <> [].
Proof.
  intros Ne. unfold led. destruct (map (blank r) (runes s)) as [|c l] eqn:E; [|now destruct (leads scheme first && negb (c =? 32)%N)].
  apply map_eq_nil in E. pose proof (WordPieceProofs.runes_nonempty s Ne) as H. rewrite E in H. cbn in H. lia.
Qed.
Definition kept (l : list N) : bool := match l with [] => false | _ => true end.
Lemma all_cut ss si t l0 p ps : sorts start_key ss -> sorts id_key si ->
  tk_raw t = re_matching (map (fun x => (TRe false false (fst x) false false, snd x)) l0) -> tk_normalized t = re_matching [] ->
  cut_at ss si l0 (p, ps) -> all_parts ss si t (written p ps) = written_items p ps.
Proof.
  intros HS HI L1 L2 [H1 H2]. cbn [fst snd] in *. unfold all_parts. destruct (written p ps) as [|b z] eqn:Ew.
  - rewrite (H1 eq_refl) in *. destruct p; [reflexivity|discriminate Ew].
  - rewrite L1, L2, H2 by discriminate.
    assert (K : forall q, flat_map (fun x : option Z * str => match fst x with Some _ => [x] | None => cut_added ss si (re_matching []) (snd x) end) (plain_item q) = plain_item q).
    { intros [|c q]; [reflexivity|]. cbn [plain_item flat_map fst snd]. rewrite (unfound ss si (re_matching []) (c :: q) HS HI); [reflexivity|discriminate|constructor]. }
    unfold written_items. rewrite flat_map_app, K. refine (f_equal2 (@app _) eq_refl _). clear -K. induction ps as [|y ps IH]; [reflexivity|]. cbn [flat_map app]. rewrite flat_map_app, K. exact (f_equal2 (@app item) (eq_refl [(Some (snd (fst y)), fst (fst y))]) (f_equal2 (@app item) (eq_refl (plain_item (snd y))) IH)).
Qed.
Lemma led_written ss si t scheme r p ps : all_parts ss si t (written p ps) = written_items p ps -> led_parts ss si t scheme r (written p ps) = filter kept (led_between scheme r (p, ps)).
Proof.
  intros E. unfold led_parts. rewrite E. unfold led_between. cbn [fst snd].
  assert (Kp : forall first q, flat_map (led_part scheme r first) (plain_item q) = filter kept [led scheme r first (runes q)]).
  { intros first [|c q]; [reflexivity|]. cbn [plain_item flat_map led_part fst snd app filter]. destruct (led scheme r first (runes (c :: q))) as [|a z] eqn:El; [|reflexivity]. exfalso. revert El. apply led_nonempty. discriminate. }
  assert (K : forall ps, flat_map (led_part scheme r false) (flat_map (fun q : str * Z * str => (Some (snd (fst q)), fst (fst q)) :: plain_item (snd q)) ps) = filter kept (map (fun y => led scheme r false (runes (snd y))) ps)).
  { clear -Kp. induction ps as [|y ps IH]; [reflexivity|]. cbn [flat_map map app]. change (led_part scheme r false (Some (snd (fst y)), fst (fst y))) with (@nil (list N)). cbn [app]. rewrite flat_map_app, Kp, IH. change (led scheme r false (runes (snd y)) :: map (fun y => led scheme r false (runes (snd y))) ps) with ([led scheme r false (runes (snd y))] ++ map (fun y => led scheme r false (runes (snd y))) ps). now rewrite filter_app. }
  unfold written_items. destruct p as [|c p].
  - cbn [plain_item app]. change (led scheme r true (runes [])) with (@nil N). cbn [filter kept]. rewrite <- K. destruct ps as [|y ps]; reflexivity.
  - cbn [plain_item app]. rewrite K. change (led scheme r true (runes (c :: p)) :: map (fun y => led scheme r false (runes (snd y))) ps) with ([led scheme r true (runes (c :: p))] ++ map (fun y => led scheme r false (runes (snd y))) ps). rewrite filter_app, <- Kp. cbn [plain_item flat_map]. now rewrite app_nil_r.
Qed.

Section Meta.
  Variable ss si : list io_pair -> list io_pair.
  Hypothesis HS : sorts start_key ss.
  Hypothesis HI : sorts id_key si.
  Variable order : vocab -> vocab.
  Hypothesis HO : forall v, Permutation (order v) v.
  Variable to32 : Q -> Q.
  Variable lower : str -> str.
  Variable base64 : str -> res str.
  Variable compile : str -> option (str -> list (Z * Z)).
  Variable quoted : str -> str -> list (Z * Z).
  Variable u : unicode.
  Variables is_word cc mn sp : N -> bool.
  Variable lib : norm_lib.
  Variable graphemes : str -> list str.
  Context {S : Type}.
  Variable of_q : Q -> S.
  Variable lt : S -> S -> bool.
  Variables bot zero : S.
  Variable plus : S -> S -> S.
  Variable bonus : nat -> S.
  Variable penal : S -> S.
  Variable dropping : bpe -> Q -> str -> res (list token).
  Hypothesis Mo : forall b, PipelineSpec.model_ok (always (bpe_tokenize b)).
  Local Notation put := (assemble u is_word cc mn sp lower lib graphemes of_q lt bot zero plus bonus penal dropping).

  Lemma meta_between says op cl v ms mark scheme drop po pa c l0 : op <> cl -> metaspace_file lower compile quoted says v ms mark scheme po pa c ->
    (forall de, says de -> decoder_of quoted (JObj de) = Ok (DMetaspace (encode_rune mark) drop)) ->
    Forall plain_special (c_added c) -> NoDup (map tc_content (c_added c)) -> Forall (fun t => enclosed op cl (tc_content t)) (c_added c) -> with_ids (fun s => vget s v) (zlen v) (c_added c) l0 ->
    exists l a, from_reader order to32 lower base64 compile quoted (Some c) = Ok l /\ put l = Ok a /\ tk_processor (as_tok a) = po /\ tk_padding (as_tok a) = pa /\
      (forall ot x qs add, clean_inputs x -> ot <> OInvalid -> encode_texts x = map (fun q => written (fst q) (snd q)) qs ->
        Forall (cut_at ss si l0) qs ->
        Forall (fun s => valid_utf8 s /\ Forall (fun c => white c = false -> vget (encode_rune c) v <> None) (runes s)) (flat_map between qs) ->
        ends_with (special_ids (fun s => vget s v) (zlen v) (c_added c)) (dual x) add po pa ->
        exists e, tk_encode ss si (as_tok a) ot x add = Ok (Some e) /\
          as_decode a (ids e) true = Ok (encode (match flat_map (fun q => concat (led_between scheme mark q)) qs with c :: l => if drop && (c =? 32)%N then l else c :: l | [] => [] end))).
  Proof.
    intros Noc (mo & pt & de & unk & suffix & C1 & C2 & C3 & C4 & C5 & Bs & Ip & Sy & Ipo & Ipa & Nu & Sm & M0 & Vm & Ap) Hd Pl Nd Enc W. specialize (Hd de Sy).
    destruct (bpe_loaded order to32 mo (Some de) v ms unk suffix Bs) as (t & Em & Et). pose proof Bs as (_ & _ & _ & _ & Sp & _). set (ad := c_added c) in *. set (m := vocab_model v (build_vocab_r (order v))).
    assert (Fa : Forall (fun t => tc_content t <> [] /\ valid_utf8 (tc_content t)) ad) by (eapply Forall_impl; [|exact Ap]; cbn; tauto). pose proof (numbered_base v _ Nu (HO v)) as B. fold m in B. destruct (added_reached m B ad Fa) as (av & Ea & R).
    destruct (looked_made m ad Fa av R is_word false) as (l1 & E1 & F1). destruct (looked_made m ad Fa av R is_word true) as (l2 & E2 & F2).
    assert (Fn : Forall (fun t => tc_content t <> []) ad) by (eapply Forall_impl; [|exact Fa]; cbn; tauto).
    destruct (specials_looked is_word _ _ ad av _ l0 _ _ Pl Nd Fn Ea (reached_ids m ad av R) W E1 E2) as (Q1 & Q2 & Ef).
    eexists. eexists. split; [|split].
    - unfold from_reader. rewrite C1, C2, C3, C4, C5, Em. cbn [bind].
      unfold create_normalizer, create_pretokenizer, create_processor, create_decoder, create_truncation, create_padding.
      cbn [ConfigModel.section]. cbn [bind]. rewrite (ConfigProofs.pre_ok lower compile quoted _ _ Ip). cbn [bind].
      rewrite (section_ok _ _ _ _ po processor_ok Ipo). cbn [bind]. rewrite Hd. cbn [bind].
      rewrite (section_ok _ _ _ _ pa pad_ok Ipa). reflexivity.
    - unfold assemble. cbn [l_model l_norm l_calls l_pre l_post l_trunc l_pad l_dec lookups b_vocab b_vocab_r norm_fun option_map]. fold m. fold ad. rewrite Ea. cbn [bind]. rewrite E1. cbn [bind]. rewrite E2. reflexivity.
    - split; [reflexivity|]. split; [reflexivity|]. intros ot x qs add C Hot Ex O Pa En. cbn [as_tok]. set (tk := Tkz _ _ _ _ _ _ _ _). set (b := Bpe v (build_vocab_r (order v)) t unk None suffix) in *.
      destruct (ending_ok order HO v ad Nu av (tk_pre tk) (re_matching l1) (re_matching l2) (tk_model tk) po pa (dual x) add R En) as [K1 K2].
      assert (Nd' : NoDup (map fst l0)) by now rewrite Ef.
      assert (El : Forall (fun y => enclosed op cl (fst y)) l0) by (apply Forall_forall; intros y Hy; apply (in_map fst) in Hy; rewrite Ef in Hy; apply in_map_iff in Hy as (k & <- & Ht); rewrite Forall_forall in Enc; now apply Enc).
      assert (Ip' : input_parts ss si tk scheme mark x = filter kept (flat_map (led_between scheme mark) qs)).
      { unfold input_parts. rewrite Ex. clear Ex C En K1 K2 Pa. induction O as [|[p ps] qs Oq O IH]; [reflexivity|]. cbn [map flat_map fst snd]. rewrite filter_app, IH. f_equal.
        apply led_written. exact (all_cut ss si tk l0 p ps HS HI Q1 Q2 Oq). }
      destruct (meta_decodes ss si HS HI tk (always (bpe_tokenize b)) u mark scheme m av true) with (drop := drop) (mk := ByNew) (ot := ot) (x := x) (add := add) as (e & E & D).
      + exact Sm.
      + exact M0.
      + exact (looked_ok _ _ Fa av l1 F1).
      + exact (looked_ok _ _ Fa av l2 F2).
      + reflexivity.
      + reflexivity.
      + reflexivity.
      + apply Mo.
      + apply (special_hidden ss si HS HI order HO v ad av l1 l2 _ _ po pa Nu R); [|exact F1|exact F2]. eapply Forall_impl; [|exact Pl]. intros k H. apply H.
      + exact K1.
      + exact K2.
      + exact C.
      + exact Hot.
      + apply Forall_forall. intros w Hw. unfold meta_words in Hw. apply in_flat_map in Hw as (part & Hp & Hw). rewrite Ip' in Hp. apply filter_In in Hp as [Hp _]. apply in_flat_map in Hp as ([p ps] & Hq & Hp).
        assert (X : exists sch s, part = led sch mark true (runes s) /\ In s (flat_map between qs)).
        { destruct Hp as [<-|Hp]; [exists scheme, p; split; [reflexivity|]; apply in_flat_map; exists (p, ps); split; [exact Hq|now left]|]. cbn [snd] in Hp. apply in_map_iff in Hp as (y & <- & Hy).
          exists (match scheme with First => Never | x => x end), (snd y). split; [apply led_later|]. apply in_flat_map. exists (p, ps). split; [exact Hq|]. right. cbn [snd]. now apply in_map. }
        destruct X as (sch & s & -> & Hs). rewrite Forall_forall in Pa. destruct (Pa s Hs) as (Vs & Kc).
        destruct (word_shape sch mark [s] w Sm) as (s' & ws & a0 & z0 & Hs' & -> & Ne & Sw & _ & K).
        { now constructor. }
        { unfold led_words. cbn [flat_map]. rewrite app_nil_r. exact Hw. }
        destruct Hs' as [<-|[]].
        apply (bpe_spells_whole b); [exact (bpe_literal order HO v ms t unk suffix Nu Et)|now exists ws| | |exact (bpe_names order HO v ms t unk suffix ad Nu Et Sp Ap _ R)].
        * intros E. destruct ws as [|c0 ws]; [congruence|]. rewrite encode_cons in E. apply app_eq_nil in E as [E _]. now apply (encode_rune_nonempty c0).
        * rewrite runes_encode by assumption. eapply Forall_impl; [|exact K]. intros c0 [->|[Hc E]]; [exact Vm|]. rewrite Forall_forall in Kc. exact (Kc c0 Hc E).
      + exists e. split; [exact E|]. unfold as_decode. cbn [as_lookups as_added as_decoder option_map]. rewrite D. f_equal. f_equal. rewrite Ip'.
        assert (Y : concat (filter kept (flat_map (led_between scheme mark) qs)) = flat_map (fun q => concat (led_between scheme mark q)) qs).
        { transitivity (concat (flat_map (led_between scheme mark) qs)).
          - generalize (flat_map (led_between scheme mark) qs). clear. induction l as [|[|a z] l IH]; [reflexivity|exact IH|]. cbn [filter kept concat]. now rewrite IH.
          - clear. induction qs as [|q qs IH]; [reflexivity|]. cbn [flat_map]. now rewrite concat_app, IH. }
        now rewrite Y.
  Qed.
End Meta.
