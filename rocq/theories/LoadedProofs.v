(** Tokenizers loaded from files decode what they encode (C76). *)
From Coq Require Import String QArith.
From Verif Require Import Base BaseProofs Utf8Model Utf8Proofs NormalizedModel EncodingModel EncodingProofs BpeModel BpeSaveModel BpeSaveSpec BpeSaveProofs BpeTokProofs AddedVocabModel AddedVocabSpec AddedVocabProofs
  DecoderModel PreTokenizerModel PreTokenizerSpec ProcessorModel PreTokenizedModel PipelineModel PipelineSpec AddedPatternModel SpmModel UnicodeNormModel PretrainedModel ConfigModel ConfigSpec ConfigProofs ConfigLoadProofs
  ReturnSpec RoundTripSpec RoundTripBpeProofs RoundTripProofs WordsSpec TurnedProofs BertWordsProofs MetaspaceSpec MetaTripSpec MetaTripProofs MetaTextProofs ExpandedProofs PlacedProofs ReturnProofs PreTokenizedSpec CutBytesProofs LoadedModel LoadedSpec LoadedAddedProofs BareProofs.
Open Scope Z_scope.
Open Scope list_scope.

(** ** The model *)
Lemma bpe_loaded order to32 fs dec v ms unk suffix : bpe_section fs dec v ms unk suffix ->
  exists t, create_model order to32 (Some fs) dec = Ok (MBpe (Bpe v (build_vocab_r (order v)) t unk None suffix) None) /\ create_merges v (map line_of ms) = Ok t.
Proof.
  intros (T & [V N] & (js & M & F) & I & Sp & H1 & H2 & H3 & H4).
  assert (X : exists t', create_merges v (map line_of ms) = Ok t').
  { destruct (create_merges_total v (map line_of ms)) as [[_ E]|[Hn _]]; [exact E|]. exfalso. apply Hn, Forall_map, Forall_forall. intros [x y] Hm.
    rewrite Forall_forall in I, Sp. specialize (I _ Hm). specialize (Sp _ Hm). cbn [fst snd] in Sp. destruct I as (I1 & I2 & I3). cbn [fst snd] in *. split.
    - intros Hn'. apply Hn'. exists x, y. split; [reflexivity|]. exact Sp.
    - intros (a & b & i & j & (E & Sa & Sb) & Ka & Kb & Kab). unfold line_of in E. cbn [fst snd] in E.
      assert (K : a = x /\ b = y).
      { clear -E Sa Sb Sp. destruct Sp as [Sx Sy]. revert a E Sa. induction x as [|c x IH]; intros [|d a] E Sa; cbn in E.
        - injection E as ->. auto.
        - injection E as E1 _. exfalso. apply Sa. left. symmetry. exact E1.
        - injection E as E1 _. exfalso. apply Sx. left. exact E1.
        - injection E as -> E. destruct (IH) with (a := a) as [-> ->]; [intros H; apply Sx; now right|exact E|intros H; apply Sa; now right|]. auto. }
      destruct K as [-> ->]. contradiction. }
  destruct X as (t' & E). exists t'. split; [|exact E].
  unfold create_model. rewrite (model_type_ok _ _ _ T). cbn [bind]. names. unfold create_bpe.
  rewrite (maybe_num fs "dropout" None H4), (maybe_str fs "unk_token" unk H1), (maybe_str fs "continuing_subword_prefix" None H2), (maybe_str fs "end_of_word_suffix" suffix H3).
  step. rewrite (cast_vocab_ok v N). step. rewrite (cast_merge_ok _ _ F). cbn [bind]. rewrite E. reflexivity.
Qed.

Lemma split_line (x y a b : str) : x ++ [SP] ++ y = a ++ [SP] ++ b -> ~ In SP x -> ~ In SP a -> x = a /\ y = b.
Proof.
  revert a. induction x as [|c x IH]; intros [|d a] E Sx Sa; cbn in E.
  - injection E as ->. auto.
  - injection E as E1 _. exfalso. apply Sa. left. symmetry. exact E1.
  - injection E as E1 _. exfalso. apply Sx. left. exact E1.
  - injection E as -> E. destruct (IH a E) as [-> ->]; [intros H; apply Sx; now right|intros H; apply Sa; now right|]. auto.
Qed.
Lemma accepts_line v lines acc : accepts v lines acc -> forall e, In e acc -> exists line x y, In line lines /\ two_tokens line x y /\ vget (x ++ y) v = Some (snd e).
Proof.
  induction 1 as [|line lines acc x y T K A IH|line lines acc x y a b n T Ka Kb Kn A IH]; intros e I; [destruct I| |].
  - destruct (IH e I) as (l & p & q & H1 & H2). exists l, p, q. split; [now right|exact H2].
  - destruct I as [<-|I]; [exists line, x, y; split; [now left|split; assumption]|]. destruct (IH e I) as (l & p & q & H1 & H2). exists l, p, q. split; [now right|exact H2].
Qed.
Lemma numbered_inj v s s' id : numbered v -> vget s v = Some id -> vget s' v = Some id -> s' = s.
Proof.
  intros (N & D & _) H H'. apply (ag_in str_eqb str_eqb_eq) in H, H'. clear N. revert H H'. induction v as [|[k i] v IH]; [intros []|]. cbn [map fst snd] in D. apply NoDup_cons_iff in D as [D1 D2].
  intros [E|H] [E'|H'].
  - congruence.
  - injection E as -> ->. exfalso. apply D1. apply (in_map snd) in H'. exact H'.
  - injection E' as -> ->. exfalso. apply D1. apply (in_map snd) in H. exact H.
  - auto.
Qed.
Lemma makes_can v order ms t unk suffix s id : numbered v -> create_merges v (map line_of ms) = Ok t -> Forall (fun m => ~ In 32%N (fst m) /\ ~ In 32%N (snd m)) ms ->
  vget s v = Some id -> makes (Bpe v order t unk None suffix) s -> can_make ms s.
Proof.
  intros Nu E Sp Hs [(c & ->)|(c1 & c2 & rank & new & H & Hn)]; [left; now exists c|right]. cbn [b_merges b_vocab] in *.
  destruct (create_merges_ok v _ t E) as (acc & A & K). destruct (proj1 (K _ _ _ _) H) as (i & [H2 _] & _). apply nth_error_In in H2.
  destruct (accepts_line _ _ _ A _ H2) as (line & x & y & Il & (El & Sx & Sy) & Ev). apply in_map_iff in Il as ([a b] & Eab & Im). subst line. unfold line_of in El. cbn [fst snd] in *.
  rewrite Forall_forall in Sp. destruct (Sp _ Im) as [Sa Sb]. destruct (split_line _ _ _ _ El Sa Sx) as [-> ->]. exists x, y. split; [exact Im|]. exact (numbered_inj v _ _ _ Nu Ev Hn).
Qed.
Lemma numbered_base v order : numbered v -> Permutation order v -> base_ok (vocab_model v (build_vocab_r order)).
Proof.
  intros Nu P. pose proof Nu as (N & D & F). split.
  - cbn. intros t i H. apply (ag_in str_eqb str_eqb_eq) in H. rewrite Forall_forall in F. exact (F _ H).
  - cbn. intros t i. split.
    + intros H. destruct (vocab_r_total v order i t P H) as (k & E). rewrite E. f_equal. pose proof (vocab_r_inverse v order i k N P E) as H'. exact (numbered_inj v t k i Nu H H').
    + apply vocab_r_inverse; assumption.
Qed.

(** ** Endings *)
Lemma hides_mono (f g : Z -> option str) pair add : (forall i, f i = None -> g i = None) -> forall p, hides f pair add p -> hides g pair add p.
Proof.
  intros K. fix IH 1. intros [cls sep|cls sep tr pr|single both toks|pr tr|l]; cbn [hides].
  - intros H Ha. destruct (H Ha). auto.
  - intros H Ha. destruct (H Ha). auto.
  - intros [H1 H2]. split; [exact H1|]. intros Ha id l E. specialize (H2 Ha id l E). eapply Forall_impl; [|exact H2]. auto.
  - auto.
  - intros [H1 H2]. split; [exact H1|]. induction l as [|q l IHl]; [exact I|]. cbn [fold_right] in *. destruct H2 as [Hq Hl]. split; [now apply IH|now apply IHl].
Qed.

Section File.
  Variable ss si : list io_pair -> list io_pair.
  Hypothesis HS : sorts start_key ss.
  Hypothesis HI : sorts id_key si.
  Variable order : vocab -> vocab.
  Hypothesis HO : forall v, Permutation (order v) v.
  Variable to32 : Q -> Q.
  Variable lower : str -> str.
  Variable base64 : str -> res str.
  Variable compile : str -> option (str -> list (Z * Z)).
  Variable quoted : str -> str -> list (Z * Z).
  Variable u : unicode.
  Variables is_word cc mn sp : N -> bool.
  Variable lib : norm_lib.
  Variable graphemes : str -> list str.
  Context {S : Type}.
  Variable of_q : Q -> S.
  Variable lt : S -> S -> bool.
  Variables bot zero : S.
  Variable plus : S -> S -> S.
  Variable bonus : nat -> S.
  Variable penal : S -> S.
  Variable dropping : bpe -> Q -> str -> res (list token).
  Hypothesis Mo : forall b, PipelineSpec.model_ok (always (bpe_tokenize b)).
  Local Notation put := (assemble u is_word cc mn sp lower lib graphemes of_q lt bot zero plus bonus penal dropping).
  Local Notation run := (run_model of_q lt bot zero plus bonus penal dropping).

  (** A BPE model with tokens added from the list. *)
  Section Bpe.
    Variables (v : vocab) (ms : list (str * str)) (t : merge_table) (unk suffix : option str) (ad : list token_config).
    Hypothesis Nu : numbered v.
    Hypothesis Et : create_merges v (map line_of ms) = Ok t.
    Hypothesis Sp : Forall (fun m => ~ In 32%N (fst m) /\ ~ In 32%N (snd m)) ms.
    Hypothesis Ap : added_apart ms ad.
    Local Notation b := (Bpe v (build_vocab_r (order v)) t unk None suffix).
    Local Notation m := (vocab_model v (build_vocab_r (order v))).

    Lemma apart_valid : Forall (fun t => tc_content t <> [] /\ valid_utf8 (tc_content t)) ad.
    Proof. eapply Forall_impl; [|exact Ap]. cbn. tauto. Qed.
    Lemma bpe_literal : literal b.
    Proof. apply (loaded_literal v (order v) (map line_of ms) t unk suffix); [apply Nu|intros s s' id; now apply numbered_inj|apply HO|exact Et]. Qed.
    Lemma bpe_names av : reached m ad (listed ad) (special_content ad) av -> forall s id, vget s v = Some id -> makes b s -> shown m av true id = Some s.
    Proof.
      intros R s id Hs Hm. apply (shown_other m (numbered_base v _ Nu (HO v)) ad av R s id Hs). intros (c & Hc & Hsp & <-).
      unfold added_apart in Ap. rewrite Forall_forall in Ap. destruct (Ap c Hc) as (_ & _ & K). apply (K Hsp). exact (makes_can v _ ms t unk suffix _ id Nu Et Sp Hs Hm).
    Qed.
    Lemma bpe_assembled pre po d pa : exists av l1 l2,
      put (Loaded (MBpe b None) None pre po d (add_calls ad) None pa) =
        Ok (Assembled (Tkz (re_matching l1) (re_matching l2) None (option_map (pre_tokenize u) pre) (Some (run (MBpe b None))) po None pa) m av d) /\
      reached m ad (listed ad) (special_content ad) av /\
      Forall (of_token m ad av) l1 /\ Forall (of_token m ad av) l2.
    Proof.
      pose proof (numbered_base v _ Nu (HO v)) as B. destruct (added_reached m B ad apart_valid) as (av & Ea & R).
      destruct (looked_made m ad apart_valid av R is_word false) as (l1 & E1 & F1). destruct (looked_made m ad apart_valid av R is_word true) as (l2 & E2 & F2).
      exists av, l1, l2. split; [|split; [exact R|split; assumption]]. unfold assemble. cbn [l_model l_norm l_calls l_pre l_post l_trunc l_pad l_dec lookups b_vocab b_vocab_r norm_fun option_map].
      rewrite Ea. cbn [bind]. rewrite E1. cbn [bind]. rewrite E2. reflexivity.
    Qed.
    Lemma ending_ok av pre l1 l2 f po pa pair add : reached m ad (listed ad) (special_content ad) av -> ends_with (special_ids (fun s => vget s v) (zlen v) ad) pair add po pa ->
      let tk := Tkz l1 l2 None pre f po None pa in ending_returns tk pair add /\ ending_hides (shown m av true) tk pair add.
    Proof.
      intros R [E1 E2] tk. pose proof (numbered_base v _ Nu (HO v)) as B. split.
      - split; [|split]; [|exact I|].
        + cbn. destruct po; [apply E1|constructor].
        + cbn. unfold returning_padding. destruct pa; [apply E2|exact I].
      - split; [|split; [reflexivity|]]; cbn.
        + destruct po as [p|]; [|exact I]. apply (hides_mono (except (special_ids (fun s => vget s v) (zlen v) ad))); [|apply E1]. intros i. apply (except_hidden m B ad av R).
        + destruct pa as [d|]; [|exact I]. apply (hidden_ids m B ad av R). apply E2.
    Qed.
  End Bpe.

  Lemma bytes_loaded v ms pre seen po pa c : byte_level_file lower compile quoted v ms pre po pa c ->
    pre_fresh_ok (pre_tokenize u pre) -> pre_fresh_returns (pre_tokenize u pre) ->
    (forall p p', laid p -> fresh p -> pre_tokenize u pre p = Ok p' ->
      exists gs, Forall (fun g => g <> [] /\ valid_utf8 g) gs /\ concat gs = concat (map seen (open_texts (pt_splits p))) /\
        map sp_text (pt_splits p') = map bl_render gs /\ Forall (fun sp => sp_toks sp = None) (pt_splits p')) -> seen [] = [] ->
    exists l a, from_reader order to32 lower base64 compile quoted (Some c) = Ok l /\ put l = Ok a /\ tk_processor (as_tok a) = po /\ tk_padding (as_tok a) = pa /\
      (forall s, av_token_to_id (as_lookups a) (as_added a) s = file_id (fun s => vget s v) (zlen v) (c_added c) s) /\
      forall ot x add, clean_inputs x -> ot <> OInvalid -> Forall (unwritten (c_added c)) (encode_texts x) ->
        ends_with (special_ids (fun s => vget s v) (zlen v) (c_added c)) (dual x) add po pa ->
        exists e, tk_encode ss si (as_tok a) ot x add = Ok (Some e) /\ as_decode a (ids e) true = Ok (concat (map seen (encode_texts x))).
  Proof.
    intros (mo & pt & de & unk & suffix & C1 & C2 & C3 & C4 & C5 & Bs & Ip & Id & Ipo & Ipa & Nu & Vb & Ap) Pk Pr Pw S0.
    destruct (bpe_loaded order to32 mo (Some de) v ms unk suffix Bs) as (t & Em & Et). pose proof Bs as (_ & _ & _ & _ & Sp & _).
    destruct (bpe_assembled v ms t unk suffix (c_added c) Nu Ap (Some pre) po (Some DByteLevel) pa) as (av & l1 & l2 & Ea & R & F1 & F2).
    eexists. eexists. split; [|split; [exact Ea|]].
    - unfold from_reader. rewrite C1, C2, C3, C4, C5, Em. cbn [bind].
      unfold create_normalizer, create_pretokenizer, create_processor, create_decoder, create_truncation, create_padding.
      cbn [ConfigModel.section]. cbn [bind]. rewrite (ConfigProofs.pre_ok lower compile quoted _ _ Ip). cbn [bind].
      rewrite (section_ok _ _ _ _ po processor_ok Ipo). cbn [bind]. rewrite (decoder_ok lower compile quoted _ _ Id). cbn [bind].
      rewrite (section_ok _ _ _ _ pa pad_ok Ipa). reflexivity.
    - split; [reflexivity|]. split; [reflexivity|]. pose proof (apart_valid ms (c_added c) Ap) as Fa. pose proof (numbered_base v _ Nu (HO v)) as B. split; [intros s; exact (reached_ids _ _ av R s)|].
      intros ot x add C Hot W En. cbn [as_tok]. set (tk := Tkz _ _ _ _ _ _ _ _).
      destruct (ending_ok v (c_added c) Nu av (option_map (pre_tokenize u) (Some pre)) (re_matching l1) (re_matching l2) (Some (run (MBpe (Bpe v (build_vocab_r (order v)) t unk None suffix) None))) po pa (dual x) add R En) as [K1 K2].
      destruct (any_round_trip ss si HS HI tk (always (bpe_tokenize (Bpe v (build_vocab_r (order v)) t unk None suffix))) (pre_tokenize u pre) seen (vocab_model v (build_vocab_r (order v))) av true) with (mk := ByNew) (ot := ot) (x := x) (add := add) as (e & E & D).
      + exact (looked_ok _ _ Fa av l1 F1).
      + exact (looked_ok _ _ Fa av l2 F2).
      + reflexivity.
      + reflexivity.
      + exact Pk.
      + exact Pr.
      + exact Pw.
      + reflexivity.
      + apply Mo.
      + intros bs Ne Hb. apply bytes_spelled; [exact (bpe_literal v ms t unk suffix Nu Et)|exact Vb|exact (bpe_names v ms t unk suffix (c_added c) Nu Et Sp Ap av R)|exact Ne|exact Hb].
      + exact K1.
      + exact K2.
      + exact C.
      + exact Hot.
      + exists e. split; [exact E|]. unfold as_decode. cbn [as_lookups as_added as_decoder option_map]. rewrite D. f_equal. f_equal. apply map_ext_in. intros s Hs. unfold seen_text.
        rewrite Forall_forall in W. destruct s as [|c0 s]; [symmetry; exact S0|]. rewrite (unfound_whole ss si tk (c0 :: s) HS HI); [cbn [map concat]; apply app_nil_r|discriminate|exact (looked_absent _ _ Fa av l1 _ F1 (W _ Hs))|exact (looked_absent _ _ Fa av l2 _ F2 (W _ Hs))].
  Qed.
  Lemma byte_level_loaded v ms prefix po pa c : byte_level_file lower compile quoted v ms (PTByteLevel prefix) po pa c -> (prefix = true -> un_letter u 32 = false /\ un_number u 32 = false) ->
    exists l a, from_reader order to32 lower base64 compile quoted (Some c) = Ok l /\ put l = Ok a /\ tk_processor (as_tok a) = po /\ tk_padding (as_tok a) = pa /\
      (forall s, av_token_to_id (as_lookups a) (as_added a) s = file_id (fun s => vget s v) (zlen v) (c_added c) s) /\
      forall ot x add, clean_inputs x -> ot <> OInvalid -> Forall (unwritten (c_added c)) (encode_texts x) ->
        ends_with (special_ids (fun s => vget s v) (zlen v) (c_added c)) (dual x) add po pa ->
        exists e, tk_encode ss si (as_tok a) ot x add = Ok (Some e) /\ as_decode a (ids e) true = Ok (concat (map (spaced prefix) (encode_texts x))).
  Proof.
    intros F U. exact (bytes_loaded v ms (PTByteLevel prefix) (spaced prefix) po pa c F (byte_level_ok u prefix U) (byte_level_returns u prefix U) (fun p p' => byte_words u prefix p p' U) eq_refl).
  Qed.
  Lemma cut_bytes_loaded v ms front po pa c : byte_level_file lower compile quoted v ms (PTSequence (front ++ [PTByteLevel false])) po pa c -> removes_nothing (PTSequence front) ->
    exists l a, from_reader order to32 lower base64 compile quoted (Some c) = Ok l /\ put l = Ok a /\ tk_processor (as_tok a) = po /\ tk_padding (as_tok a) = pa /\
      forall ot x add, clean_inputs x -> ot <> OInvalid -> Forall (unwritten (c_added c)) (encode_texts x) ->
        ends_with (special_ids (fun s => vget s v) (zlen v) (c_added c)) (dual x) add po pa ->
        exists e, tk_encode ss si (as_tok a) ot x add = Ok (Some e) /\ as_decode a (ids e) true = Ok (concat (encode_texts x)).
  Proof.
    intros F K. pose proof (removes_nothing_cutting _ K) as Ct. assert (U : false = true -> blank_ok u) by discriminate.
    destruct (bytes_loaded v ms _ (fun w => w) po pa c F (cut_then_bytes_ok u false front U Ct) (cut_then_returns u front _ Ct (byte_level_returns u false U))) as (l & a & E1 & E2 & E3 & E4 & _ & D).
    - exact (fun p p' => whole_words u front p p' K).
    - reflexivity.
    - exists l, a. split; [exact E1|]. split; [exact E2|]. split; [exact E3|]. split; [exact E4|]. intros ot x add H1 H2 H3 H4. destruct (D ot x add H1 H2 H3 H4) as (e & E & Dd). exists e. split; [exact E|]. now rewrite Dd, map_id.
  Qed.

  (** *** Metaspace *)
  Lemma special_hidden v ad av l1 l2 pre f po pa : numbered v -> reached (vocab_model v (build_vocab_r (order v))) ad (listed ad) (special_content ad) av -> Forall (fun t => tc_special t = true) ad ->
    Forall (of_token (vocab_model v (build_vocab_r (order v))) ad av) l1 -> Forall (of_token (vocab_model v (build_vocab_r (order v))) ad av) l2 ->
    added_hidden ss si (Tkz (re_matching l1) (re_matching l2) None pre f po None pa) (shown (vocab_model v (build_vocab_r (order v))) av true).
  Proof.
    intros Nu R Al F1 F2 set s id w Hs Hi. pose proof (numbered_base v _ Nu (HO v)) as B.
    assert (K : forall l, Forall (of_token (vocab_model v (build_vocab_r (order v))) ad av) l -> In id (mt_ids (re_matching l)) -> shown (vocab_model v (build_vocab_r (order v))) av true id = None).
    { intros l F H. cbn [mt_ids re_matching] in H. apply in_map_iff in H as (x & <- & Hx). rewrite Forall_forall in F. destruct (F x Hx) as (c & Hc & _ & E). rewrite (reached_ids _ _ av R) in E.
      apply (hidden_ids _ B ad av R). unfold special_ids. apply in_flat_map. exists c. split; [exact Hc|]. rewrite Forall_forall in Al. rewrite (Al c Hc), E. now left. }
    assert (Q : In id (mt_ids set)).
    { apply (found_ids ss si HS HI set s id w); [|exact Hi]. destruct Hs as [-> | ->]; intros z; cbn [tk_raw tk_normalized re_matching mt_find mt_ids]; now rewrite !map_length. }
    destruct Hs as [-> | ->]; [exact (K l1 F1 Q)|exact (K l2 F2 Q)].
  Qed.

  Lemma metaspace_loaded says v ms mark scheme drop po pa c : metaspace_file lower compile quoted says v ms mark scheme po pa c ->
    (forall de, says de -> decoder_of quoted (JObj de) = Ok (DMetaspace (encode_rune mark) drop)) ->
    exists l a, from_reader order to32 lower base64 compile quoted (Some c) = Ok l /\ put l = Ok a /\ tk_processor (as_tok a) = po /\ tk_padding (as_tok a) = pa /\
      forall ot rs add, clean (encode rs) -> Forall scalar rs -> ot <> OInvalid -> unwritten (c_added c) (encode rs) ->
        Forall (fun c => white c = false -> vget (encode_rune c) v <> None) rs ->
        ends_with (special_ids (fun s => vget s v) (zlen v) (c_added c)) false add po pa ->
        exists e, tk_encode ss si (as_tok a) ot (ISingle (Raw (encode rs))) add = Ok (Some e) /\
          as_decode a (ids e) true = Ok (encode (match led scheme mark true rs with c :: l => if drop && (c =? 32)%N then l else c :: l | [] => [] end)).
  Proof.
    intros (mo & pt & de & unk & suffix & C1 & C2 & C3 & C4 & C5 & Bs & Ip & Sy & Ipo & Ipa & Nu & Sm & M0 & Vm & Ap) Hd. specialize (Hd de Sy).
    destruct (bpe_loaded order to32 mo (Some de) v ms unk suffix Bs) as (t & Em & Et). pose proof Bs as (_ & _ & _ & _ & Sp & _).
    destruct (bpe_assembled v ms t unk suffix (c_added c) Nu Ap (Some (PTMetaspace (encode_rune mark) (find_chars (N.eqb mark)) scheme)) po (Some (DMetaspace (encode_rune mark) drop)) pa) as (av & l1 & l2 & Ea & R & F1 & F2).
    eexists. eexists. split; [|split; [exact Ea|]].
    - unfold from_reader. rewrite C1, C2, C3, C4, C5, Em. cbn [bind].
      unfold create_normalizer, create_pretokenizer, create_processor, create_decoder, create_truncation, create_padding.
      cbn [ConfigModel.section]. cbn [bind]. rewrite (ConfigProofs.pre_ok lower compile quoted _ _ Ip). cbn [bind].
      rewrite (section_ok _ _ _ _ po processor_ok Ipo). cbn [bind]. rewrite Hd. cbn [bind].
      rewrite (section_ok _ _ _ _ pa pad_ok Ipa). reflexivity.
    - split; [reflexivity|]. split; [reflexivity|]. pose proof (apart_valid ms (c_added c) Ap) as Fa. pose proof (numbered_base v _ Nu (HO v)) as B.
      intros ot rs add C Sc Hot W Vc En. cbn [as_tok]. set (tk0 := Tkz _ _ _ _ _ _ _ _). set (tk := unadded tk0 None). set (bp := Bpe v (build_vocab_r (order v)) t unk None suffix) in *.
      destruct (ending_ok v (c_added c) Nu av (option_map (pre_tokenize u) (Some (PTMetaspace (encode_rune mark) (find_chars (N.eqb mark)) scheme))) (re_matching l1) (re_matching l2) (Some (run (MBpe bp None))) po pa false add R En) as [K1 K2].
      pose proof (looked_absent _ _ Fa av l1 _ F1 W) as A1. pose proof (looked_absent _ _ Fa av l2 _ F2 W) as A2.
      assert (Ag : tk_encode ss si tk0 ot (ISingle (Raw (encode rs))) add = tk_encode ss si tk ot (ISingle (Raw (encode rs))) add).
      { apply (bare_encodes ss si HS HI); [reflexivity|exact C|intros s [<-|[]]; exact A1|intros s [<-|[]]; exact A2]. }
      clear A1 A2. assert (A1 : Forall (fun l => l = []) (mt_find (tk_raw tk) (encode rs))) by constructor. assert (A2 : Forall (fun l => l = []) (mt_find (tk_normalized tk) (encode rs))) by constructor.
      assert (Wd : Forall (spells_whole (always (bpe_tokenize bp)) (shown (vocab_model v (build_vocab_r (order v))) av true)) (meta_words ss si tk scheme mark (ISingle (Raw (encode rs))))).
      { apply (bpe_words ss si HS HI); [exact (bpe_literal v ms t unk suffix Nu Et)|exact Sm|exact Sc|exact A1|exact A2|exact Vm|exact Vc|exact (bpe_names v ms t unk suffix (c_added c) Nu Et Sp Ap av R)]. }
      destruct (meta_decodes ss si HS HI tk (always (bpe_tokenize bp)) u mark scheme (vocab_model v (build_vocab_r (order v))) av true) with (drop := drop) (mk := ByNew) (ot := ot) (x := ISingle (Raw (encode rs))) (add := add) as (e & E & D).
      + exact Sm.
      + exact M0.
      + exact bare_ok.
      + exact bare_ok.
      + reflexivity.
      + reflexivity.
      + reflexivity.
      + apply Mo.
      + apply (bare_hidden ss si HS HI).
      + exact K1.
      + exact K2.
      + exact C.
      + exact Hot.
      + exact Wd.
      + exists e. split; [now rewrite Ag|]. unfold as_decode. cbn [as_lookups as_added as_decoder option_map]. rewrite D. f_equal. f_equal.
        rewrite (text_parts ss si HS HI tk scheme mark rs Sc A1 A2). destruct rs as [|c0 rs]; [reflexivity|]. cbn [concat]. now rewrite app_nil_r.
  Qed.
End File.

(** ** Texts *)
Lemma led_back scheme r rs : match led scheme r true rs with c :: l => if prepends scheme && (c =? 32)%N then l else c :: l | [] => [] end = meta_back scheme r rs.
Proof.
  unfold meta_back, led. destruct (map (blank r) rs) as [|c l]; [reflexivity|]. assert (L : leads scheme true = prepends scheme) by (destruct scheme; reflexivity). rewrite L. destruct (prepends scheme); cbn [andb]; [|reflexivity].
  destruct (c =? 32)%N eqn:E; cbn [negb]; rewrite ?E, ?N.eqb_refl; reflexivity.
Qed.
Lemma led_faithful scheme r rs : scheme <> Never -> rs <> [] -> faithful scheme r rs -> led scheme r true rs = 32%N :: rs.
Proof.
  intros Ns Ne [F H]. assert (L : leads scheme true = true /\ prepends scheme = true) by (destruct scheme; [congruence|split; reflexivity|split; reflexivity]). destruct L as [L P].
  assert (E : map (blank r) rs = rs).
  { clear -F. induction F as [|c l K F IH]; [reflexivity|]. cbn [map]. rewrite IH. f_equal. now apply blank_idem. }
  unfold led. rewrite E, L. destruct rs as [|c l]; [congruence|]. cbn [andb]. specialize (H P). cbn [hd_error] in H. destruct (N.eqb_spec c 32) as [->|_]; [congruence|reflexivity].
Qed.
