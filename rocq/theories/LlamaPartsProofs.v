(** Texts with special tokens in them, encoded by tokenizers that mark spaces by a normalizer (C88). *)
From Coq Require Import String QArith.
From Verif Require Import Base BaseProofs Utf8Model Utf8Proofs SliceModel SliceProofs PatternModel PatternSpec PatternProofs NormalizedModel NormalizedSpec NormalizedProofs NormalizedInvProofs NormalizedExactProofs NormalizedOpProofs ExpandedProofs EncodingModel EncodingProofs BpeModel BpeTokProofs
  AddedVocabModel AddedVocabSpec AddedVocabProofs DecoderModel DecoderProofs PreTokenizerModel PreTokenizerSpec ChunkProofs PreTokenizerProofs ProcessorModel PreTokenizedModel PreTokenizedSpec MetaspaceProofs PipelineModel PipelineSpec PipelineProofs PlacedProofs PlacedNormProofs
  AddedPatternModel SpmModel UnicodeNormModel PretrainedModel ConfigModel ConfigSpec ConfigProofs ConfigLoadProofs
  TokensSpec TokensProofs ReturnSpec ReturnNormProofs ReturnModelProofs ReturnProofs RoundTripSpec RoundTripProofs RoundTripBpeProofs MetaTripSpec MetaModelProofs WordsSpec WordsProofs TurnedProofs LoadedModel LoadedSpec LoadedAddedProofs LoadedProofs LoadedWordsProofs WordLevelSpec BareProofs AddedPatternProofs ItemsSpec MaskedProofs WrittenProofs LlamaSpec LlamaProofs OrderSpec OrderProofs.
Open Scope Z_scope.
Open Scope list_scope.


Section Parts.
  Variable ss si : list io_pair -> list io_pair.
  Hypothesis HS : sorts start_key ss.
  Hypothesis HI : sorts id_key si.

  Lemma raw_open t s p : matching_ok (tk_raw t) -> clean s -> pt_split (fun _ n => split_with_indices ss si (tk_raw t) n) (pt_new s) = Ok p ->
    Forall (fun sp => sp_toks sp = None -> wf (sp_ns sp) /\ untouched (sp_ns sp) /\ ns_norm (sp_ns sp) <> [] /\ clean (ns_norm (sp_ns sp)) /\ In (ns_norm (sp_ns sp)) (raw_parts ss si t s)) (pt_splits p).
  Proof.
    intros M C Ep. destruct (raw_apart ss si HS HI (tk_raw t) s M C) as (p' & Ep' & _ & [G _] & U). assert (p' = p) by congruence. subst p'. clear Ep'.
    destruct s as [|c s'].
    - pose proof (new_in_place [] C) as Pl. unfold pt_split, pt_new, pt_from_ns in Ep. cbn [pt_splits pt_orig split_pieces sp_toks sp_ns] in Ep. destruct (indices_empty ss si _ (tk_raw t) (new_ns []) Pl eq_refl) as (sps & Ei & Fe).
      rewrite Ei in Ep. cbn [bind] in Ep. fold nonempty in Ep, Fe. rewrite Fe in Ep. injection Ep as <-. constructor.
    - set (s := c :: s') in *. assert (Ne : s <> []) by discriminate. pose proof (new_in_place s C) as Pl. destruct (indices_labels ss si HS HI s (tk_raw t) (new_ns s) M Pl Ne) as (sps & Ei & N1 & Fl).
      change (ns_norm (new_ns s)) with s in Fl.
      unfold pt_split, pt_new, pt_from_ns in Ep. cbn [pt_splits pt_orig split_pieces sp_toks sp_ns] in Ep. rewrite Ei in Ep. cbn [bind] in Ep. fold nonempty in Ep. rewrite (PipelineProofs.filter_true _ _ N1), app_nil_r in Ep. injection Ep as <-. cbn [pt_splits] in *.
      change (raw_parts ss si t s) with (not_added (cut_added ss si (tk_raw t) s)). clear Ei. induction Fl as [|x sp l sps [T K] Fl IH]; [constructor|].
      apply Forall_cons_iff in G as [G1 G], U as [U1 U], N1 as [N1 N2]. constructor.
      + intros E. rewrite E in K. destruct x as [[id|] w]; cbn [fst snd] in *; [discriminate|]. split; [apply G1|]. split; [exact U1|].
        unfold nonempty in N1. split; [intros X; unfold sp_text in *; rewrite X in N1; discriminate N1|]. split; [|unfold sp_text in T; rewrite T; now left].
        apply G1.
      + eapply Forall_impl; [|exact (IH G U N2)]. cbn. intros sp' H E. destruct (H E) as (? & ? & ? & ? & Hi). split; [assumption|]. split; [assumption|]. split; [assumption|]. split; [assumption|].
        unfold not_added. cbn [flat_map]. apply in_or_app. now right.
  Qed.
  Lemma raw_clean t s w : matching_ok (tk_raw t) -> clean s -> In w (raw_parts ss si t s) -> clean w /\ w <> [].
  Proof.
    intros M C Hw. destruct s as [|c s']; [destruct Hw|]. destruct (raw_apart ss si HS HI (tk_raw t) (c :: s') M C) as (p & Ep & _ & [G _] & U).
    set (s := c :: s') in *. assert (Ne : s <> []) by discriminate. pose proof (new_in_place s C) as Pl. destruct (indices_labels ss si HS HI s (tk_raw t) (new_ns s) M Pl Ne) as (sps & Ei & N1 & Fl).
    change (ns_norm (new_ns s)) with s in Fl.
    unfold pt_split, pt_new, pt_from_ns in Ep. cbn [pt_splits pt_orig split_pieces sp_toks sp_ns] in Ep. rewrite Ei in Ep. cbn [bind] in Ep. fold nonempty in Ep. rewrite (PipelineProofs.filter_true _ _ N1), app_nil_r in Ep. injection Ep as <-. cbn [pt_splits] in *.
    change (raw_parts ss si t s) with (not_added (cut_added ss si (tk_raw t) s)) in Hw. clear Ei U. induction Fl as [|x sp l sps [T K] Fl IH]; [destruct Hw|].
    apply Forall_cons_iff in G as [G1 G], N1 as [N1 N2]. unfold not_added in Hw. cbn [flat_map] in Hw. apply in_app_or in Hw as [Hw|Hw]; [|exact (IH Hw G N2)].
    destruct x as [[id|] y]; cbn [fst snd] in *; [destruct Hw|]. destruct Hw as [<-|[]]. rewrite <- T. split; [apply G1|]. unfold nonempty in N1. intros X. unfold sp_text in X. rewrite X in N1. discriminate N1.
  Qed.

  (** The same tokens before normalizing, none after it; only the parts in [L] are normalized. *)
  Definition spared (t : tokenizer) (L : list str) (f : ns -> res ns) (pre : pretok -> res pretok) (md : str -> res (option (list token))) : tokenizer :=
    Tkz (tk_raw t) (re_matching []) (Some (sparing L f)) (Some pre) (Some md) (tk_processor t) (tk_trunc t) (tk_padding t).
  Lemma spared_agrees t f g L pre md s : tk_normalizer t = Some f -> turns L f g -> matching_ok (tk_raw t) -> clean s -> incl (raw_parts ss si t s) L ->
    (forall w, In w (raw_parts ss si t s) -> Forall (fun l => l = []) (mt_find (tk_normalized t) (g w))) ->
    extract_and_normalize ss si t s = extract_and_normalize ss si (spared t L f pre md) s.
  Proof.
    intros Ef Tn M C I F. unfold extract_and_normalize. cbn [spared tk_raw tk_normalized tk_normalizer]. rewrite Ef.
    destruct (raw_apart ss si HS HI (tk_raw t) s M C) as (p & Ep & _). rewrite Ep. cbn [bind]. unfold pt_split. pose proof (raw_open t s p M C Ep) as H.
    assert (K : forall l i, Forall (fun sp => sp_toks sp = None -> wf (sp_ns sp) /\ untouched (sp_ns sp) /\ ns_norm (sp_ns sp) <> [] /\ clean (ns_norm (sp_ns sp)) /\ In (ns_norm (sp_ns sp)) (raw_parts ss si t s)) l ->
      split_pieces (fun _ n => do m <- apply_normalizer (Some f) n; split_with_indices ss si (tk_normalized t) m) i l = split_pieces (fun _ n => do m <- apply_normalizer (Some (sparing L f)) n; split_with_indices ss si (re_matching []) m) i l).
    { induction l as [|sp l IH]; intros i Hl; [reflexivity|]. apply Forall_cons_iff in Hl as [H1 Hl]. cbn [split_pieces]. rewrite IH by assumption. destruct (sp_toks sp) eqn:Es; [reflexivity|]. destruct (H1 eq_refl) as (W & U & Nn & _ & Hi).
      unfold apply_normalizer, sparing. rewrite (proj2 (among_in L (ns_norm (sp_ns sp)))) by (split; [exact Nn|now apply I]). destruct (Tn (sp_ns sp) W U Nn (I _ Hi)) as (m & Em & Tm & _). rewrite Em. cbn [bind]. rewrite (split_bare ss si HS HI (tk_normalized t)) by (rewrite Tm; now apply F). reflexivity. }
    now rewrite K.
  Qed.

  Lemma uncut_parts t f g md m av skip ot x add : let L := flat_map (raw_parts ss si t) (encode_texts x) in
    matching_ok (tk_raw t) -> (forall s id w, In (Some id, w) (cut_added ss si (tk_raw t) s) -> shown m av skip id = None) ->
    tk_normalizer t = Some f -> turns L f g -> (forall s, In s L -> g s = [] <-> s = []) -> (forall s, In s L -> valid_utf8 (g s)) ->
    tk_pre t = None -> tk_model t = Some md -> PipelineSpec.model_ok md ->
    (forall s, In s L -> exists ts, ts <> [] /\ md (g s) = Ok (Some ts)) ->
    (forall s, In s L -> Forall (fun l => l = []) (mt_find (tk_normalized t) (g s))) ->
    ending_returns t (dual x) add -> ending_hides (shown m av skip) t (dual x) add -> clean_inputs x -> ot <> OInvalid ->
    exists e tss, tk_encode ss si t ot x add = Ok (Some e) /\
      Forall2 (fun w ts => ts <> [] /\ md w = Ok (Some ts)) (map g L) tss /\
      shown_all m av skip (ids e) = shown_all m av skip (map t_id (concat tss)).
  Proof.
    intros L M1 Hd En Tn Lg Vg Ep Em Mo Mr U2 Er Eh C Hot. pose proof (clean_texts x C) as Cw.
    assert (IL : forall s, In s (encode_texts x) -> incl (raw_parts ss si t s) L) by (intros s Hs w Hw; apply in_flat_map; now exists s).
    assert (NL : forall s, In s L -> s <> []) by (intros s Hs; apply in_flat_map in Hs as (y & Hy & Hs); exact (proj2 (raw_clean t y s M1 (Cw y Hy) Hs))).
    set (u := Uni (fun _ => false) (fun _ => false) (fun _ => false) (fun _ => [])).
    set (t' := spared t L f (pre_tokenize u (PTSequence [])) (backed md)).
    destruct (sparing_ok L f g Tn) as [No Nr].
    (* the open pieces *)
    assert (Words : forall s l, In s (encode_texts x) -> Forall2 (fun w ys => exists n k, wf n /\ untouched n /\ ns_norm n = w /\ apply_normalizer (tk_normalizer t') n = Ok k /\
        ys = match ns_norm k with [] => [] | z => not_added (cut_added ss si (tk_normalized t') z) end) (raw_parts ss si t s) l -> concat l = map g (raw_parts ss si t s)).
    { intros s l Hs F. pose proof (IL s Hs) as I. revert F I. generalize (raw_parts ss si t s) as R. intros R F. induction F as [|w ys R l (n & k & Wn & U & Et & Ek & ->) F IH]; intros I; [reflexivity|].
      cbn [concat map]. rewrite IH by (intros y Hy; apply I; now right). assert (Hw : In w L) by (apply I; now left). pose proof (NL w Hw) as Ne.
      unfold apply_normalizer in Ek. cbn [tk_normalizer spared t'] in Ek. unfold sparing in Ek. rewrite Et, (proj2 (among_in L w) (conj Ne Hw)) in Ek. destruct (Tn n Wn U) as (k' & Ef & Tk & _); [rewrite Et; exact Ne|rewrite Et; exact Hw|]. rewrite Ef in Ek. injection Ek as ->. rewrite Tk, Et. change (tk_normalized t') with (re_matching []).
      destruct (g w) as [|d z] eqn:Eg; [elim Ne; exact (proj1 (Lg w Hw) Eg)|]. rewrite (unfound ss si (re_matching []) (d :: z) HS HI ltac:(discriminate)) by constructor. reflexivity. }
    assert (Ag : tk_encode ss si t ot x add = tk_encode ss si t' ot x add).
    { apply texts_encode; try reflexivity. intros ty wi s Hs. unfold encode_text.
      rewrite (spared_agrees t f g L (pre_tokenize u (PTSequence [])) (backed md) s En Tn M1 (Cw s Hs) (IL s Hs)) by (intros w Hw; apply U2; exact (IL s Hs w Hw)). fold t'.
      destruct (extract_and_normalize ss si t' s) as [p| | | |] eqn:E1; [|reflexivity..]. cbn [bind]. rewrite Ep. cbn [tk_pre t' spared pre_tokenize bind].
      unfold do_tokenize. rewrite Em. cbn [tk_model t' spared]. unfold pt_tokenize. rewrite (pieces_alike (fun n => md (ns_norm n)) (fun n => backed md (ns_norm n))); [reflexivity|].
      destruct (extract_parts ss si HS HI t' s p M1 bare_ok No (Cw s Hs) E1) as [(l & FL & OL) _]. change (match s with [] => [] | _ => not_added (cut_added ss si (tk_raw t') s) end) with (raw_parts ss si t s) in FL. rewrite (Words s l Hs FL) in OL.
      intros sp Hsp Hn. assert (Ho : In (sp_text sp) (open_texts (pt_splits p))) by (unfold open_texts; apply in_map, filter_In; split; [exact Hsp|unfold open, has_toks; now rewrite Hn]).
      rewrite OL in Ho. apply in_map_iff in Ho as (w & Ew & Hw). change (ns_norm (sp_ns sp)) with (sp_text sp). rewrite <- Ew. destruct (Mr w (IL s Hs w Hw)) as (ts & Nt & Ets). symmetry. exact (backed_same md _ ts Nt Ets). }
    assert (Po : PipelineSpec.pre_ok (pre_tokenize u (PTSequence []))) by (intros p p' Lp [= <-]; now split).
    assert (Pr : pre_returns (pre_tokenize u (PTSequence []))) by (intros p Lp Tp; exists p; now split).
    destruct (encode_returns ss si HS HI t' ot x add) as (e & E); auto.
    { split; [exact M1|]. split; [exact bare_ok|]. split; [exact No|]. split; [left; exact Po|]. now apply backed_ok. }
    { split; [exact Nr|]. split; [left; exact Pr|]. exists (backed md). split; [reflexivity|apply backed_returns]. }
    assert (Ah : added_hidden ss si t' (shown m av skip)).
    { intros set s id w [-> | ->] Hi; [exact (Hd s id w Hi)|]. exfalso. apply (found_ids ss si HS HI) in Hi; [|reflexivity]. destruct Hi. }
    destruct (encode_shown ss si HS HI t' u (PTSequence []) (fun rs => [rs]) (backed md) m av skip M1 bare_ok No eq_refl eq_refl eq_refl Ah ot x add e Eh C E) as (ws & tss & W & F & S0).
    assert (Ew : ws = map g L).
    { assert (K : forall T l, Forall2 (text_words ss si t' (fun rs => [rs])) T l -> incl T (encode_texts x) -> concat l = map g (flat_map (raw_parts ss si t) T)).
      2:{ destruct W as (l & Fl & ->). exact (K _ l Fl (incl_refl _)). }
      intros T l Fl. clear W F S0. induction Fl as [|s ys T l (l' & F' & ->) Fl IH]; intros I; [reflexivity|].
      cbn [concat flat_map]. rewrite map_app, IH by (intros y Hy; apply I; now right). f_equal. assert (Hs : In s (encode_texts x)) by (apply I; now left). change (match s with [] => [] | _ => not_added (cut_added ss si (tk_raw t') s) end) with (raw_parts ss si t s) in F'.
      rewrite <- (Words s l' Hs); [reflexivity|]. pose proof (IL s Hs) as Is. revert F' Is. generalize (raw_parts ss si t s) as R. intros R F'. induction F' as [|w ys R l' (n & k & Wn & U & Et & Ek & ->) F' IH']; intros Is; constructor; [|apply IH'; intros y Hy; apply Is; now right].
      exists n, k. split; [exact Wn|]. split; [exact U|]. split; [exact Et|]. split; [exact Ek|].
      assert (Hw : In w L) by (apply Is; now left). unfold apply_normalizer in Ek. cbn [tk_normalizer spared t'] in Ek. unfold sparing in Ek. rewrite Et, (proj2 (among_in L w) (conj (NL w Hw) Hw)) in Ek. destruct (Tn n Wn U) as (k' & Ef & Tk & _); [rewrite Et; exact (NL w Hw)|rewrite Et; exact Hw|]. rewrite Ef in Ek. injection Ek as ->.
      rewrite Tk, Et. pose proof (Vg w Hw) as V. change (tk_normalized t') with (re_matching []). destruct (g w) as [|d z] eqn:Eg; [reflexivity|]. rewrite (unfound ss si (re_matching []) (d :: z) HS HI ltac:(discriminate)) by constructor. cbn [not_added flat_map fst snd app map]. now rewrite runes_valid_id by exact V. }
    exists e, tss. split; [now rewrite Ag|]. split; [|exact S0]. rewrite Ew in F. clear -F Mr. revert tss F. induction L as [|w L IH]; intros tss F; inversion F as [|? ts ? tss' [Nt Et] F']; subst; cbn [map]; constructor.
    - split; [exact Nt|]. destruct (Mr w (or_introl eq_refl)) as (ts' & Nt' & E'). rewrite (backed_same md _ ts' Nt' E') in Et. exact Et.
    - apply IH; [intros s Hs; apply Mr; now right|exact F'].
  Qed.
End Parts.

Section File.
  Variable ss si : list io_pair -> list io_pair.
  Hypothesis HS : sorts start_key ss.
  Hypothesis HI : sorts id_key si.
  Variable order : vocab -> vocab.
  Hypothesis HO : forall v, Permutation (order v) v.
  Variable to32 : Q -> Q.
  Variable lower : str -> str.
  Variable base64 : str -> res str.
  Variable compile : str -> option (str -> list (Z * Z)).
  Variable quoted : str -> str -> list (Z * Z).
  Variable u : unicode.
  Variables is_word cc mn sp : N -> bool.
  Variable lib : norm_lib.
  Variable graphemes : str -> list str.
  Context {S : Type}.
  Variable of_q : Q -> S.
  Variable lt : S -> S -> bool.
  Variables bot zero : S.
  Variable plus : S -> S -> S.
  Variable bonus : nat -> S.
  Variable penal : S -> S.
  Variable dropping : bpe -> Q -> str -> res (list token).
  Hypothesis Mo : forall b, PipelineSpec.model_ok (always (bpe_tokenize b)).
  Local Notation put := (assemble u is_word cc mn sp lower lib graphemes of_q lt bot zero plus bonus penal dropping).

  Lemma llama_parts v ms mark fallback po pa c : llama_file lower base64 compile quoted v ms mark fallback po pa c ->
    Forall (fun t => tc_special t = true) (c_added c) ->
    exists l a av, from_reader order to32 lower base64 compile quoted (Some c) = Ok l /\ put l = Ok a /\ tk_processor (as_tok a) = po /\ tk_padding (as_tok a) = pa /\
      added_by (vocab_model v (build_vocab_r (order v))) (add_calls (c_added c)) = Ok av /\ (forall s, av_token_to_id (vocab_model v (build_vocab_r (order v))) av s = file_id (fun s => vget s v) (zlen v) (c_added c) s) /\
      looked_for is_word (norm_fun cc mn sp lower lib graphemes (Some (llama_normalizer quoted mark))) (vocab_model v (build_vocab_r (order v))) av false = Ok (tk_raw (as_tok a)) /\
      looked_for is_word (norm_fun cc mn sp lower lib graphemes (Some (llama_normalizer quoted mark))) (vocab_model v (build_vocab_r (order v))) av true = Ok (tk_normalized (as_tok a)) /\
      (forall ot x add, clean_inputs x -> ot <> OInvalid ->
        Forall (fun s => Forall (fun l => l = []) (mt_find (tk_normalized (as_tok a)) (marking mark s)) /\ Forall (fun r => r = 32%N \/ vget (encode_rune r) v <> None) (runes s)) (flat_map (raw_parts ss si (as_tok a)) (encode_texts x)) ->
        ends_with (special_ids (fun s => vget s v) (zlen v) (c_added c)) (dual x) add po pa ->
        exists e, tk_encode ss si (as_tok a) ot x add = Ok (Some e) /\
          as_decode a (ids e) true = match concat (map (led_by_space mark) (flat_map (raw_parts ss si (as_tok a)) (encode_texts x))) with [] => Panic | _ :: t => Ok t end).
  Proof.
    intros (mo & no & de & unk & suffix & C1 & C2 & C3 & C4 & C5 & Bs & Ino & Id & Ipo & Ipa & Nu & Sm & M0 & M32 & M3 & Vm & Fm & F32 & Nb & Ap & Si) Sps.
    destruct (bpe_loaded order to32 mo (Some de) v ms unk suffix Bs) as (t & Em & Et). pose proof Bs as (_ & _ & _ & _ & Sp & _). set (ad := c_added c) in *. set (b := Bpe v (build_vocab_r (order v)) t unk None suffix) in *.
    assert (Fa : Forall (fun t => tc_content t <> [] /\ valid_utf8 (tc_content t)) ad) by (eapply Forall_impl; [|exact Ap]; cbn; tauto). set (m := vocab_model v (build_vocab_r (order v))). pose proof (numbered_base v _ Nu (HO v)) as B. fold m in B.
    destruct (added_reached m B ad Fa) as (av & Ea & R). set (nf := norm_fun cc mn sp lower lib graphemes (Some (llama_normalizer quoted mark))).
    destruct (looked_plain is_word nf m ad av false R Si) as (l1 & E1 & F1). destruct (looked_plain is_word nf m ad av true R Si) as (l2 & E2 & F2).
    eexists. eexists. exists av. split; [|split].
    - unfold from_reader. rewrite C1, C2, C3, C4, C5, Em. cbn [bind].
      unfold create_normalizer, create_pretokenizer, create_processor, create_decoder, create_truncation, create_padding.
      cbn [ConfigModel.section]. rewrite (norm_ok base64 compile quoted _ _ Ino). cbn [bind].
      rewrite (section_ok _ _ _ _ po processor_ok Ipo). cbn [bind]. rewrite (decoder_ok lower compile quoted _ _ Id). cbn [bind].
      rewrite (section_ok _ _ _ _ pa pad_ok Ipa). reflexivity.
    - unfold assemble. cbn [l_model l_norm l_calls l_pre l_post l_trunc l_pad l_dec lookups b b_vocab b_vocab_r option_map]. fold m. fold ad. fold nf. rewrite Ea. cbn [bind]. rewrite E1. cbn [bind]. rewrite E2. reflexivity.
    - split; [reflexivity|]. split; [reflexivity|]. split; [exact Ea|]. split; [intros s; exact (reached_ids m ad av R s)|]. split; [exact E1|]. split; [exact E2|]. intros ot x add C Hot W En. cbn [as_tok]. set (tk := Tkz _ _ _ _ _ _ _ _) in *. set (P := flat_map (raw_parts ss si tk) (encode_texts x)) in *.
      assert (K1 : ending_returns tk (dual x) add).
      { split; [|split]; [|exact I|]; cbn; [destruct po; [apply En|constructor]|]. unfold returning_padding. destruct pa; [apply En|exact I]. }
      assert (K2 : ending_hides (shown m av true) tk (dual x) add).
      { split; [|split; [reflexivity|]]; cbn.
        + destruct po as [p|]; [|exact I]. apply (hides_mono (except (special_ids (fun s => vget s v) (zlen v) ad))); [|apply En]. intros i. apply (except_hidden m B ad av R).
        + destruct pa as [d|]; [|exact I]. apply (hidden_ids m B ad av R). apply En. }
      rewrite Forall_forall in W. pose proof (clean_texts x C) as Cx. assert (M1 : matching_ok (tk_raw tk)) by exact (looked_ok _ _ Fa av l1 F1).
      assert (Cw : forall s, In s P -> clean s /\ s <> []) by (intros s Hs; apply in_flat_map in Hs as (y & Hy & Hs); exact (raw_clean ss si HS HI tk y s M1 (Cx y Hy) Hs)). assert (Vx : forall s, In s P -> valid_utf8 s) by (intros s Hs; apply clean_valid, Cw, Hs).
      set (name := fun id => match shown m av true id with Some s => if negb fallback || no_byte mark s || negb (utf8_valid s) then Some s else None | None => None end).
      assert (Gv : forall s, In s P -> valid_utf8 (marking mark s)).
      { intros s Hs. destruct (Vx s Hs) as (rs & Sc & ->). unfold marking. destruct (encode rs) as [|d z] eqn:Ed; [exists []; now split|]. rewrite <- Ed, runes_encode by exact Sc. eexists. split; [|reflexivity]. constructor; [exact Sm|exact (exchange_scalar 32 mark rs Sm Sc)]. }
      assert (Sw : forall s, In s P -> s <> [] -> spells_whole (always (bpe_tokenize b)) name (marking mark s)).
      { intros s Hs Ne. apply (bpe_spells_whole b).
        - exact (bpe_literal order HO v ms t unk suffix Nu Et).
        - exact (Gv s Hs).
        - intros X. apply Ne. now apply (marking_empty mark s).
        - destruct (W s Hs) as (_ & Wr). destruct (Vx s Hs) as (rs & Sc & Es). unfold marking. destruct s as [|d z] eqn:Ed; [congruence|]. rewrite Es, (runes_encode rs Sc) in Wr |- *. rewrite runes_encode by (constructor; [exact Sm|exact (exchange_scalar 32 mark rs Sm Sc)]).
          constructor; [exact Vm|]. apply Forall_map. eapply Forall_impl; [|exact Wr]. cbn. intros r [->|Hr]; [exact Vm|]. now destruct (r =? 32)%N.
        - intros s' id H1 H2. unfold name, m. rewrite (bpe_names order HO v ms t unk suffix ad Nu Et Sp Ap av R s' id H1 H2). destruct fallback; [|reflexivity]. cbn [negb orb].
          destruct (utf8_valid s') eqn:Ev; [|now rewrite orb_true_r]. rewrite (no_byte_made mark ms s'); [reflexivity|now apply Nb| |exact (makes_can v _ ms t unk suffix s' id Nu Et Sp H1 H2)].
          unfold utf8_valid in Ev. apply str_eqb_eq in Ev. rewrite <- Ev. exists (runes s'). split; [apply runes_scalar|reflexivity]. }
      destruct (uncut_parts ss si HS HI tk (used (run_norm cc mn sp lower lib graphemes (llama_normalizer quoted mark))) (marking mark) (always (bpe_tokenize b)) m av true ot x add) as (e & tss & Ee & F & Sh).
      + exact M1.
      + intros s id w Hi. apply (found_ids ss si HS HI) in Hi; [|intros; cbn [tk_raw tk re_matching mt_find mt_ids]; now rewrite !map_length]. cbn [tk_raw tk re_matching mt_ids] in Hi. apply in_map_iff in Hi as ([r i] & Ei & Hi). cbn [snd] in Ei. subst i.
        rewrite Forall_forall in F1. destruct (F1 _ Hi) as (k & Hk & _ & Ek). cbn [snd] in Ek. apply (hidden_ids m B ad av R). unfold special_ids. apply in_flat_map. exists k. split; [exact Hk|]. rewrite Forall_forall in Sps. rewrite (Sps k Hk).
        rewrite <- (reached_ids m ad av R), Ek. now left.
      + reflexivity.
      + apply marking_turns; auto. intros s Hs. apply Cw, Hs.
      + intros s _. apply marking_empty.
      + exact Gv.
      + reflexivity.
      + reflexivity.
      + apply Mo.
      + intros s Hs. destruct (Sw s Hs (proj2 (Cw s Hs))) as (ts & Es & Nt & _). now exists ts.
      + intros s Hs. exact (proj1 (W s Hs)).
      + exact K1.
      + exact K2.
      + exact C.
      + exact Hot.
      + exists e. split; [exact Ee|]. unfold as_decode. cbn [as_lookups as_added as_decoder option_map]. unfold decode_ids. rewrite tokens_of_shown. fold m. rewrite Sh.
        assert (Ts : Forall (fun k => name (t_id k) = Some (t_value k) /\ t_value k <> [] /\ valid_utf8 (t_value k)) (concat tss) /\ back mark (concat (map t_value (concat tss))) = concat (map (led_by_space mark) P)).
        { fold P in F. clear -F Vx Cw Gv Sw Sm M32. revert tss F. induction P as [|s L IH]; intros tss F; cbn [map] in F.
          - inversion F; subst. split; [constructor|reflexivity].
          - inversion F as [|w ts ws tss' [_ Ew] F']; subst. assert (Hs : In s (s :: L)) by now left. pose proof (proj2 (Cw s Hs)) as Ne.
            destruct (IH (fun y Hy => Cw y (or_intror Hy)) (fun y Hy => Vx y (or_intror Hy)) (fun y Hy => Gv y (or_intror Hy)) (fun y Hy => Sw y (or_intror Hy)) tss' F') as [Q1 Q2].
            destruct (Sw s Hs Ne) as (ts' & Es & _ & Ec & Ft). pose proof (eq_trans (eq_sym Ew) Es) as X. assert (ts' = ts) by congruence. subst ts'. clear X.
            split; [cbn [concat]; apply Forall_app; now split|]. cbn [concat map]. rewrite map_app, concat_app. assert (Vs : forall l, Forall (fun k => name (t_id k) = Some (t_value k) /\ t_value k <> [] /\ valid_utf8 (t_value k)) l -> Forall valid_utf8 (map t_value l)).
            { intros l Fl. apply Forall_map. eapply Forall_impl; [|exact Fl]. cbn. tauto. }
            rewrite <- Q2, <- (back_marking mark Sm s (Vx _ Hs) Ne), <- Ec. rewrite <- (back_concat mark (map t_value ts)) by now apply Vs. rewrite <- (back_concat mark (map t_value (concat tss'))) by now apply Vs.
            transitivity (back mark (concat (map t_value ts ++ map t_value (concat tss')))); [f_equal; now rewrite concat_app|].
            rewrite <- (back_concat mark (map t_value ts ++ map t_value (concat tss'))) by (apply Forall_app; split; now apply Vs). rewrite map_app, concat_app. reflexivity. }
        destruct Ts as [Ts Tb].
        assert (Ns : shown_all m av true (map t_id (concat tss)) = map t_value (concat tss)).
        { apply shown_named. eapply Forall_impl; [|exact Ts]. cbn. intros k (H & _). unfold name in H. destruct (shown m av true (t_id k)) as [s|]; [|discriminate]. destruct (negb fallback || no_byte mark s || negb (utf8_valid s)); [exact H|discriminate]. }
        rewrite Ns. rewrite (llama_decodes quoted mark Fm fallback (map t_value (concat tss))).
        * rewrite Tb. destruct (concat (map (led_by_space mark) P)) as [|d z] eqn:Ed; [reflexivity|].
          assert (d = 32%N). { clear -Ed. induction P as [|s L IH]; [discriminate|]. cbn [map concat] in Ed. destruct s; [now apply IH|]. cbn [led_by_space app] in Ed. congruence. }
          subst d. exact (stripped mark M32 z).
        * apply Forall_map. eapply Forall_impl; [|exact Ts]. cbn. intros k (H & Nk & Vk). split; [exact Nk|]. split; [exact Vk|]. intros ->. unfold name in H. destruct (shown m av true (t_id k)) as [s|]; [|discriminate]. cbn [negb orb] in H.
          destruct (no_byte mark s) eqn:Es; cbn [orb] in H; [injection H as <-; exact Es|]. destruct (utf8_valid s) eqn:Ev; cbn [negb] in H; [discriminate|]. assert (X : s = t_value k) by congruence. rewrite X in Ev. destruct Vk as (rs & Sc & Ek). unfold utf8_valid in Ev. rewrite Ek, runes_encode, str_eqb_refl in Ev by exact Sc. discriminate.
  Qed.
End File.

(** ** Which tokens are looked for *)
Section Written.
  Variable ss si : list io_pair -> list io_pair.
  Hypothesis HS : sorts start_key ss.
  Hypothesis HI : sorts id_key si.
  Variable order : vocab -> vocab.
  Hypothesis HO : forall v, Permutation (order v) v.
  Variable to32 : Q -> Q.
  Variable lower : str -> str.
  Variable base64 : str -> res str.
  Variable compile : str -> option (str -> list (Z * Z)).
  Variable quoted : str -> str -> list (Z * Z).
  Variable u : unicode.
  Variables is_word cc mn sp : N -> bool.
  Variable lib : norm_lib.
  Variable graphemes : str -> list str.
  Context {S : Type}.
  Variable of_q : Q -> S.
  Variable lt : S -> S -> bool.
  Variables bot zero : S.
  Variable plus : S -> S -> S.
  Variable bonus : nat -> S.
  Variable penal : S -> S.
  Variable dropping : bpe -> Q -> str -> res (list token).
  Hypothesis Mo : forall b, PipelineSpec.model_ok (always (bpe_tokenize b)).
  Local Notation put := (assemble u is_word cc mn sp lower lib graphemes of_q lt bot zero plus bonus penal dropping).


  Lemma llama_between op cl v ms mark fallback po pa c l0 : op <> cl -> llama_file lower base64 compile quoted v ms mark fallback po pa c ->
    Forall plain_special (c_added c) -> NoDup (map tc_content (c_added c)) -> Forall (fun t => enclosed op cl (tc_content t)) (c_added c) -> with_ids (fun s => vget s v) (zlen v) (c_added c) l0 ->
    exists l a, from_reader order to32 lower base64 compile quoted (Some c) = Ok l /\ put l = Ok a /\ tk_processor (as_tok a) = po /\ tk_padding (as_tok a) = pa /\
      (forall ot x qs add, clean_inputs x -> ot <> OInvalid -> encode_texts x = map (fun q => written (fst q) (snd q)) qs ->
        Forall (cut_at ss si l0) qs ->
        Forall (fun s => Forall (fun r => r = 32%N \/ vget (encode_rune r) v <> None) (runes s)) (flat_map between qs) ->
        ends_with (special_ids (fun s => vget s v) (zlen v) (c_added c)) (dual x) add po pa ->
        exists e, tk_encode ss si (as_tok a) ot x add = Ok (Some e) /\
          as_decode a (ids e) true = match concat (map (led_by_space mark) (flat_map between qs)) with [] => Panic | _ :: t => Ok t end).
  Proof.
    intros Noc F Pl Nd Enc W. set (ad := c_added c) in *. assert (Sps : Forall (fun t => tc_special t = true) ad) by (eapply Forall_impl; [|exact Pl]; intros t H; apply H).
    destruct (llama_parts ss si HS HI order HO to32 lower base64 compile quoted u is_word cc mn sp lib graphemes of_q lt bot zero plus bonus penal dropping Mo v ms mark fallback po pa c F Sps) as (l & a & av & E1 & E2 & E3 & E4 & Ea & Ei & L1 & L2 & D).
    exists l, a. split; [exact E1|]. split; [exact E2|]. split; [exact E3|]. split; [exact E4|]. clear E1 E2 E3 E4. intros ot x qs add C Hot Ex O Pa En. fold ad in Ea.
    assert (Fn : Forall (fun t => tc_content t <> []) ad) by (eapply Forall_impl; [|exact Enc]; intros t (b & -> & _); discriminate).
    destruct (specials_looked is_word _ _ ad av _ l0 _ _ Pl Nd Fn Ea Ei W L1 L2) as (Q1 & Q2 & Em).
    assert (R : flat_map (raw_parts ss si (as_tok a)) (encode_texts x) = filter (fun s => match s with [] => false | _ => true end) (flat_map between qs)).
    { rewrite Ex. exact (parts_cut ss si (as_tok a) l0 qs Q1 O). }
    assert (Rc : forall P, concat (map (led_by_space mark) (filter (fun s : str => match s with [] => false | _ => true end) P)) = concat (map (led_by_space mark) P)) by (clear; induction P as [|[|b s] P IH]; [reflexivity|exact IH|]; cbn [filter map concat]; now rewrite IH).
    destruct (D ot x add C Hot) as (e & Ee & Ed).
    - rewrite R. apply Forall_forall. intros s Hs. apply filter_In in Hs as [Hs _]. rewrite Forall_forall in Pa. split; [rewrite Q2; constructor|exact (Pa s Hs)].
    - exact En.
    - exists e. split; [exact Ee|]. rewrite Ed, R, Rc. reflexivity.
  Qed.
End Written.
