(** Word-level tokenizers loaded from files with a normalizer (C85). *)
From Coq Require Import String QArith.
From Verif Require Import Base BaseProofs Utf8Model Utf8Proofs NormalizedModel NormalizedSpec NormalizedProofs NormalizedOpProofs EncodingModel EncodingProofs BpeModel BpeTokProofs WordPieceModel
  AddedVocabModel AddedVocabSpec AddedVocabProofs DecoderModel PreTokenizerModel PreTokenizerSpec ChunkProofs PreTokenizerProofs ProcessorModel PreTokenizedModel PreTokenizedSpec BertNormModel PipelineModel PipelineSpec PipelineProofs NormalizedInvProofs PlacedProofs PlacedNormProofs
  AddedPatternModel SpmModel UnicodeNormModel PretrainedModel ConfigModel ConfigSpec ConfigProofs ConfigLoadProofs
  TokensSpec ReturnSpec ReturnProofs RoundTripSpec RoundTripProofs WordsSpec WordsProofs TurnedProofs BertWordsProofs LoadedModel LoadedSpec LoadedAddedProofs LoadedProofs LoadedWordsSpec LoadedWordsProofs WordLevelSpec WordLevelProofs BareProofs WordLevelNormSpec.
Open Scope Z_scope.
Open Scope list_scope.

Lemma words_shown v unk order ad av ws tss (m := vocab_model v (build_vocab_r (order v))) (wl := WL v (build_vocab_r (order v)) unk) :
  AddedVocabSpec.base_ok m -> reached m ad (listed ad) (special_content ad) av -> vget unk v <> None -> Forall2 (fun w ts => ts <> [] /\ always (wl_tokenize wl) w = Ok (Some ts)) ws tss ->
  exists xss, Forall2 (word_seen v unk (specials ad)) ws xss /\ shown_all m av true (map t_id (concat tss)) = concat xss.
Proof.
  intros B R Gu F.
  assert (Sh : forall y id, vget y v = Some id -> exists xs, shown_all m av true [id] = xs /\ (In y (specials ad) /\ xs = [] \/ ~ In y (specials ad) /\ xs = [y])).
  { intros y id Hy. eexists. split; [reflexivity|]. destruct (in_dec (list_eq_dec N.eq_dec) y (specials ad)) as [Hs|Hs]; [left|right]; (split; [exact Hs|]).
    - assert (Hn : shown m av true id = None).
      { apply specials_in in Hs as (t & Ht & Hs & Et). apply (hidden_ids m B ad av R). unfold special_ids. apply in_flat_map. exists t. split; [exact Ht|]. rewrite Hs, Et. unfold file_id.
        change (bm_t2i m y) with (vget y v). rewrite Hy. now left. }
      unfold shown_all. cbn [flat_map]. rewrite Hn. reflexivity.
    - assert (Hn : shown m av true id = Some y) by (apply (shown_other m B ad av R y id Hy); rewrite <- specials_in; exact Hs).
      unfold shown_all. cbn [flat_map]. rewrite Hn. reflexivity. }
  clear -F Sh Gu. induction F as [|w ts ws tss [_ E] F IH]; [exists []; split; [constructor|reflexivity]|]. destruct IH as (xss & X & D). apply always_some in E. unfold wl_tokenize in E. cbn [wl wl_vocab wl_unk] in E.
  assert (Q : exists y id, (In w (map fst v) /\ y = w \/ ~ In w (map fst v) /\ y = unk) /\ vget y v = Some id /\ map t_id ts = [id]).
  { destruct (vget w v) as [id|] eqn:Ev.
    - injection E as <-. exists w, id. split; [left; split; [|reflexivity]|split; [exact Ev|reflexivity]]. apply aget_str_in in Ev. apply in_map_iff. now exists (w, id).
    - destruct (vget unk v) as [id|] eqn:Evu; [|congruence]. injection E as <-. exists unk, id. split; [right; split; [|reflexivity]|split; [exact Evu|reflexivity]]. now apply (proj1 (ag_none str_eqb str_eqb_eq v w)). }
  destruct Q as (y & id & Q1 & Q2 & Q3). destruct (Sh y id Q2) as (xs & Q4 & Q5). exists (xs :: xss). split; [constructor; [now exists y|exact X]|]. cbn [concat]. now rewrite map_app, shown_app, Q3, Q4, D.
Qed.

Section File.
  Variable ss si : list io_pair -> list io_pair.
  Hypothesis HS : sorts start_key ss.
  Hypothesis HI : sorts id_key si.
  Variable order : vocab -> vocab.
  Hypothesis HO : forall v, Permutation (order v) v.
  Variable to32 : Q -> Q.
  Variable lower : str -> str.
  Variable base64 : str -> res str.
  Variable compile : str -> option (str -> list (Z * Z)).
  Variable quoted : str -> str -> list (Z * Z).
  Variable u : unicode.
  Variables is_word cc mn sp : N -> bool.
  Variable lib : norm_lib.
  Variable graphemes : str -> list str.
  Context {S : Type}.
  Variable of_q : Q -> S.
  Variable lt : S -> S -> bool.
  Variables bot zero : S.
  Variable plus : S -> S -> S.
  Variable bonus : nat -> S.
  Variable penal : S -> S.
  Variable dropping : bpe -> Q -> str -> res (list token).
  Hypothesis Mo : forall w, PipelineSpec.model_ok (always (wl_tokenize w)).
  Hypothesis Mr : forall w, vget (wl_unk w) (wl_vocab w) <> None -> model_returns (always (wl_tokenize w)).
  Local Notation put := (assemble u is_word cc mn sp lower lib graphemes of_q lt bot zero plus bonus penal dropping).

  (** The text that a normalizer makes. *)
  Definition made_of (no : option norm) (s : str) : str :=
    match no with
    | Some NLowercase => lower s
    | Some (NBert _ lowercase handles strip) => BertNormSpec.bert_text handles lowercase strip mn lower (runes s)
    | _ => s
    end.
  Lemma becomes_made no s t : becomes cc mn lower no s t -> t = made_of no s.
  Proof. destruct no as [x|]; [|exact (fun H => H)]. destruct x; cbn; intros H; try contradiction H; apply H. Qed.
  Definition running (no : option norm) : ns -> res ns := match no with Some x => used (run_norm cc mn sp lower lib graphemes x) | None => fun n => Ok n end.
  Lemma becomes_turns no L : (forall s, In s L -> clean s /\ becomes cc mn lower no s (made_of no s)) -> turns L (running no) (made_of no).
  Proof.
    intros H n Wn U Ne Hn. destruct (H _ Hn) as [C B]. pose proof (untouched_fresh n Wn U) as (rs & Sc & F).
    assert (Or : ordered (ns_al n)) by (destruct F as (_ & _ & -> & _); apply aligns_from_ordered).
    destruct no as [x|]; [|exists n; cbn; auto 8]. destruct x; try contradiction.
    - destruct B as [B _]. destruct (bert_turned cc mn lower clean chinese strip lowercase n Wn U Ne B) as (k & Ek & K). exists k. split; [|exact K]. cbn [running]. unfold used. cbn [run_norm]. rewrite Ek. reflexivity.
    - destruct B as (_ & Ln & Cl). cbn [made_of] in *. exists (case_map lower n). split; [reflexivity|]. cbn [case_map ns_norm ns_orig ns_shift ns_al]. split; [reflexivity|]. split; [reflexivity|]. split; [reflexivity|]. split; [|split; [exact Or|exact Cl]].
      apply case_map_wf; assumption.
  Qed.
  Lemma made_empty no s : clean s -> becomes cc mn lower no s (made_of no s) -> made_of no s = [] <-> s = [].
  Proof.
    intros C B. destruct no as [x|]; [|reflexivity]. destruct x; try contradiction.
    - destruct B as [B _]. exact (bert_text_empty cc mn lower chinese lowercase strip s C B).
    - destruct B as (_ & Ln & _). cbn [made_of] in *. split; intros X; apply length_zero_iff_nil; rewrite X in *; cbn in *; congruence.
  Qed.

  Lemma norm_words_loaded v unk no pre cut po pa c : wordlevel_norm_file lower base64 compile quoted v unk no pre po pa c ->
    PipelineSpec.pre_ok (pre_tokenize u pre) -> pre_returns (pre_tokenize u pre) -> documented u pre = Some cut ->
    exists l a, from_reader order to32 lower base64 compile quoted (Some c) = Ok l /\ put l = Ok a /\ tk_processor (as_tok a) = po /\ tk_padding (as_tok a) = pa /\
      (forall ot x ts add, clean_inputs x -> ot <> OInvalid -> Forall2 (fun s t => becomes cc mn lower no s t /\ unwritten (c_added c) s /\ unwritten (c_added c) t) (encode_texts x) ts ->
        ends_with (special_ids (fun s => vget s v) (zlen v) (c_added c)) (dual x) add po pa ->
        exists e xss, tk_encode ss si (as_tok a) ot x add = Ok (Some e) /\
          Forall2 (word_seen v unk (specials (c_added c))) (flat_map (cut_words cut) ts) xss /\
          as_decode a (ids e) true = Ok (spaced_out (concat xss))).
  Proof.
    intros (mo & pt & C1 & C2 & C4 & C5 & T & V & H1 & H2 & Ino & Ip & Ipo & Ipa & Nu & Vu & Ap) Po Pr Doc.
    pose proof (wordlevel_loaded order to32 mo None v unk T V H1 H2) as Em. set (wl := WL v (build_vocab_r (order v)) unk) in *. set (ad := c_added c) in *.
    assert (Fa : Forall (fun t => tc_content t <> [] /\ valid_utf8 (tc_content t)) ad) by (eapply Forall_impl; [|exact Ap]; cbn; tauto).
    assert (Gu : vget unk v <> None) by (intros X; apply (proj1 (ag_none str_eqb str_eqb_eq v unk)) in X; contradiction).
    set (m := vocab_model v (build_vocab_r (order v))). pose proof (numbered_base v _ Nu (HO v)) as B. fold m in B.
    destruct (added_reached m B ad Fa) as (av & Ea & R). set (nf := norm_fun cc mn sp lower lib graphemes no).
    assert (Lk : forall norm, exists l, looked_for is_word nf m av norm = Ok (re_matching l) /\ Forall (of_token m ad av) l).
    { intros norm. destruct no as [x|]; [|exact (looked_made m ad Fa av R is_word norm)]. apply (looked_plain is_word nf m ad av norm R). eapply Forall_impl; [|exact Ap]. cbn. intros t (_ & _ & K). now apply K. }
    destruct (Lk false) as (l1 & E1 & F1). destruct (Lk true) as (l2 & E2 & F2).
    eexists. eexists. split; [|split].
    - unfold from_reader. rewrite C1, C2, C4, C5, Em. cbn [bind].
      unfold create_normalizer, create_pretokenizer, create_processor, create_decoder, create_truncation, create_padding.
      rewrite (section_ok _ _ _ _ no (norm_ok base64 compile quoted) Ino). cbn [bind]. cbn [ConfigModel.section]. rewrite (ConfigProofs.pre_ok lower compile quoted _ _ Ip). cbn [bind].
      rewrite (section_ok _ _ _ _ po processor_ok Ipo). cbn [bind].
      rewrite (section_ok _ _ _ _ pa pad_ok Ipa). reflexivity.
    - unfold assemble. cbn [l_model l_norm l_calls l_pre l_post l_trunc l_pad l_dec lookups wl wl_vocab wl_vocab_r option_map]. fold m. fold ad. fold nf. rewrite Ea. cbn [bind]. rewrite E1. cbn [bind]. rewrite E2. reflexivity.
    - split; [reflexivity|]. split; [reflexivity|]. intros ot x ts add C Hot W En. cbn [as_tok]. set (tk := Tkz _ _ _ _ _ _ _ _).
      assert (K1 : ending_returns tk (dual x) add).
      { split; [|split]; [|exact I|]; cbn; [destruct po; [apply En|constructor]|]. unfold returning_padding. destruct pa; [apply En|exact I]. }
      assert (K2 : ending_hides (shown m av true) tk (dual x) add).
      { split; [|split; [reflexivity|]]; cbn.
        + destruct po as [p|]; [|exact I]. apply (hides_mono (except (special_ids (fun s => vget s v) (zlen v) ad))); [|apply En]. intros i. apply (except_hidden m B ad av R).
        + destruct pa as [d|]; [|exact I]. apply (hidden_ids m B ad av R). apply En. }
      assert (Ets : ts = map (made_of no) (encode_texts x)).
      { clear -W. induction W as [|s t l ts' (H & _) W IH]; [reflexivity|]. cbn [map]. now rewrite <- IH, (becomes_made no s t H). }
      assert (W' : forall s, In s (encode_texts x) -> becomes cc mn lower no s (made_of no s) /\ unwritten ad s /\ unwritten ad (made_of no s)).
      { rewrite Ets in W. clear -W. induction (encode_texts x) as [|s l IH]; [easy|]. cbn [map] in W. inversion W; subst. intros s' [<-|Hs]; [assumption|now apply IH]. }
      pose proof (clean_texts x C) as Cw. set (tk' := with_normalizer tk (running no)).
      assert (Ag : tk_encode ss si tk ot x add = tk_encode ss si tk' ot x add).
      { apply encode_agrees. intros s _. destruct no as [y|]; reflexivity. }
      destruct (turned_cut ss si HS HI tk' u pre cut (running no) (made_of no) (always (wl_tokenize wl)) m av true ot x add) as (e & tss & Ee & F & Sh).
      + exact (looked_ok _ _ Fa av l1 F1).
      + reflexivity.
      + apply becomes_turns. intros s Hs. split; [now apply Cw|apply W'; exact Hs].
      + intros s Hs. apply made_empty; [now apply Cw|apply W'; exact Hs].
      + reflexivity.
      + exact Doc.
      + exact Po.
      + exact Pr.
      + reflexivity.
      + apply Mo.
      + apply Mr. exact Gu.
      + intros s Hs. exact (looked_absent _ _ Fa av l1 s F1 (proj1 (proj2 (W' s Hs)))).
      + intros s Hs. exact (looked_absent _ _ Fa av l2 _ F2 (proj2 (proj2 (W' s Hs)))).
      + exact K1.
      + exact K2.
      + exact C.
      + exact Hot.
      + assert (Ew : flat_map (cut_words cut) ts = flat_map (fun s => cut_words cut (made_of no s)) (encode_texts x)).
        { rewrite Ets. clear. induction (encode_texts x) as [|s l IH]; [reflexivity|]. cbn [map flat_map]. now rewrite IH. }
        exists e. rewrite Ew. set (ws := flat_map _ (encode_texts x)) in *. clearbody ws.
        assert (K : exists xss, Forall2 (word_seen v unk (specials ad)) ws xss /\ shown_all m av true (map t_id (concat tss)) = concat xss).
        { exact (words_shown v unk order ad av ws tss B R Gu F). }
        destruct K as (xss & X & D). exists xss. split; [now rewrite Ag|]. split; [exact X|]. unfold as_decode. cbn [as_lookups as_added as_decoder option_map]. unfold decode_ids. rewrite tokens_of_shown. fold m. rewrite Sh, D. now rewrite join_spaced.
  Qed.
End File.
