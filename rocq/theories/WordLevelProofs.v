(** Word-level tokenizers loaded from files decode to the words of the text (C85). *)
From Coq Require Import String QArith.
From Verif Require Import Base BaseProofs Utf8Model Utf8Proofs NormalizedModel NormalizedSpec NormalizedProofs EncodingModel EncodingProofs BpeModel BpeTokProofs WordPieceModel
  AddedVocabModel AddedVocabSpec AddedVocabProofs DecoderModel PreTokenizerModel PreTokenizerSpec ChunkProofs PreTokenizerProofs ProcessorModel PreTokenizedModel PreTokenizedSpec PipelineModel PipelineSpec PipelineProofs
  AddedPatternModel SpmModel UnicodeNormModel PretrainedModel ConfigModel ConfigSpec ConfigProofs ConfigLoadProofs
  TokensSpec ReturnSpec ReturnProofs RoundTripSpec RoundTripProofs WordsSpec WordsProofs TurnedProofs BertWordsProofs LoadedModel LoadedSpec LoadedAddedProofs LoadedProofs LoadedWordsSpec LoadedWordsProofs WordLevelSpec.
Open Scope Z_scope.
Open Scope list_scope.

Lemma wordlevel_loaded order to32 fs dec v unk : model_is fs dec "WordLevel" -> vocab_given fs v -> given JStr fs "unk_token" (key "<unk>") unk -> unk <> [] ->
  create_model order to32 (Some fs) dec = Ok (MWordLevel (WL v (build_vocab_r (order v)) unk)).
Proof.
  intros T [V N] H1 H2. unfold create_model. rewrite (model_type_ok _ _ _ T). cbn [bind]. names. unfold create_wordlevel.
  assert (E : exists u, dflt as_str [] "unk_token" fs = Ok u /\ match u with [] => key "<unk>" | _ => u end = unk).
  { destruct H1 as [H1|[H1 ->]].
    - exists unk. split; [now apply given_str; left|]. now destruct unk.
    - exists []. split; [now apply given_str; right|]. reflexivity. }
  destruct E as (w & -> & E). step. rewrite (cast_vocab_ok v N). cbn [bind]. cbn zeta. rewrite E. reflexivity.
Qed.
Lemma join_spaced l : join_sp l = spaced_out l.
Proof. induction l as [|w [|w' l] IH]; [reflexivity|reflexivity|]. change (join_sp (w :: w' :: l)) with (w ++ 32%N :: join_sp (w' :: l)). rewrite IH. reflexivity. Qed.

(** ** Words with single spaces *)
Lemma words_skip sep c rs : sep c = true -> words_of sep (c :: rs) = words_of sep rs.
Proof.
  intros H. unfold words_of. cbn [segments]. destruct rs as [|d rs]; [cbn; now rewrite H|].
  destruct (segments_head (fun c d => Bool.eqb (sep c) (sep d)) d rs) as (g & gs & ->). destruct (Bool.eqb (sep c) (sep d)) eqn:E; cbn [filter all_seg forallb]; rewrite H; cbn [negb andb]; [|reflexivity].
  apply Bool.eqb_prop in E. rewrite <- E, H. reflexivity.
Qed.
Lemma segments_word (sep : N -> bool) g rest : g <> [] -> Forall (fun c => sep c = false) g -> match rest with d :: _ => sep d = true | [] => True end ->
  segments (fun c d => Bool.eqb (sep c) (sep d)) (g ++ rest) = g :: segments (fun c d => Bool.eqb (sep c) (sep d)) rest.
Proof.
  intros Ne F R. induction g as [|c g IH]; [easy|]. apply Forall_cons_iff in F as [F1 F2]. destruct g as [|c' g].
  - cbn [app segments]. destruct rest as [|d rest]; [reflexivity|]. destruct (segments_head (fun c d => Bool.eqb (sep c) (sep d)) d rest) as (h & gs & ->). now rewrite F1, R.
  - specialize (IH ltac:(discriminate) F2). change ((c :: c' :: g) ++ rest) with (c :: ((c' :: g) ++ rest)). cbn [segments]. cbn [segments] in IH. rewrite IH. apply Forall_cons_iff in F2 as [F3 _]. now rewrite F1, F3.
Qed.
Lemma words_first sep g rest : g <> [] -> Forall (fun c => sep c = false) g -> match rest with d :: _ => sep d = true | [] => True end -> words_of sep (g ++ rest) = g :: words_of sep rest.
Proof.
  intros Ne F R. unfold words_of. rewrite (segments_word sep g rest Ne F R). cbn [filter].
  assert (A : all_seg (fun c => negb (sep c)) g = true).
  { unfold all_seg. apply forallb_forall. intros c Hc. rewrite Forall_forall in F. now rewrite (F c Hc). }
  now rewrite A.
Qed.
Lemma spaced_encode gs : spaced_out (map encode gs) = encode (match gs with [] => [] | g :: gs' => g ++ flat_map (fun g => 32%N :: g) gs' end).
Proof.
  destruct gs as [|g gs]; [reflexivity|]. revert g. induction gs as [|h gs IH]; intros g; [cbn; now rewrite app_nil_r|].
  change (spaced_out (map encode (g :: h :: gs))) with (encode g ++ 32%N :: spaced_out (map encode (h :: gs))). rewrite IH. cbn [flat_map]. rewrite (encode_app g). refine (f_equal2 (@app _) eq_refl _). rewrite <- app_comm_cons, encode_cons. reflexivity.
Qed.
Lemma words_spaced sep gs : sep 32%N = true -> Forall (fun g => g <> [] /\ Forall (fun c => sep c = false) g) gs ->
  words_of sep (match gs with [] => [] | g :: gs' => g ++ flat_map (fun g => 32%N :: g) gs' end) = gs.
Proof.
  intros H F. destruct gs as [|g gs]; [reflexivity|]. revert g F. induction gs as [|h gs IH]; intros g F; apply Forall_cons_iff in F as [[F1 F2] F3].
  - cbn [flat_map]. now rewrite words_first.
  - cbn [flat_map]. rewrite words_first; [|exact F1|exact F2|exact H]. f_equal. rewrite <- app_comm_cons, words_skip by exact H. exact (IH h F3).
Qed.
(** The words of words with single spaces between them. *)
Lemma spaced_words ws : Forall (fun w => w <> [] /\ valid_utf8 w /\ Forall (fun c => is_white c = false) (runes w)) ws -> cut_words (words_of is_white) (spaced_out ws) = ws.
Proof.
  intros F. assert (E : ws = map encode (map runes ws)).
  { rewrite map_map. clear -F. induction F as [|w ws (_ & V & _) F IH]; [reflexivity|]. cbn [map]. rewrite <- IH. f_equal. symmetry. now apply valid_utf8_runes. }
  assert (G : Forall (fun g => g <> [] /\ Forall (fun c => is_white c = false) g) (map runes ws)).
  { clear E. induction F as [|w ws (N & V & H) F IH]; [constructor|]. cbn [map]. constructor; [|exact IH]. split; [|exact H]. intros X. apply N. rewrite <- (valid_utf8_runes w V), X. reflexivity. }
  assert (Sc : Forall (Forall scalar) (map runes ws)) by (apply Forall_forall; intros g Hg; apply in_map_iff in Hg as (w & <- & _); apply runes_scalar).
  rewrite E at 1. rewrite spaced_encode. set (gs := map runes ws) in *. set (rs := match gs with [] => [] | g :: gs' => g ++ flat_map (fun g => 32%N :: g) gs' end).
  assert (Rs : Forall scalar rs).
  { unfold rs. destruct gs as [|g gs']; [constructor|]. apply Forall_cons_iff in Sc as [S1 S2]. apply Forall_app. split; [exact S1|]. clear -S2. induction S2 as [|h l H _ IH]; [constructor|]. cbn [flat_map]. constructor; [left; reflexivity|]. apply Forall_app. auto. }
  unfold cut_words. rewrite (runes_encode rs Rs). destruct (encode rs) eqn:Er.
  - assert (rs = []) by (destruct rs as [|r rs']; [reflexivity|]; rewrite encode_cons in Er; apply app_eq_nil in Er as [Er _]; now apply encode_rune_nonempty in Er). destruct gs as [|g gs']; [now destruct ws|]. exfalso. apply Forall_cons_iff in G as [[G1 _] _]. unfold rs in H. apply app_eq_nil in H as [H _]. contradiction.
  - unfold rs. rewrite (words_spaced is_white gs eq_refl G). now symmetry.
Qed.
Lemma in_spaced b ws : In b (spaced_out ws) -> b = 32%N \/ exists w, In w ws /\ In b w.
Proof.
  induction ws as [|w [|w' ws] IH]; [easy|intros H; right; exists w; split; [now left|exact H]|]. change (spaced_out (w :: w' :: ws)) with (w ++ 32%N :: spaced_out (w' :: ws)). intros H. apply in_app_or in H as [H|[<-|H]].
  - right. exists w. split; [now left|exact H].
  - now left.
  - destruct (IH H) as [X|(x & H1 & H2)]; [now left|]. right. exists x. split; [now right|exact H2].
Qed.
(** Words have no tabs and line breaks. *)
Lemma no_breaks b s w : b = 9%N \/ b = 10%N \/ b = 13%N -> In w (cut_words (words_of is_white) s) -> ~ In b w.
Proof.
  intros Hb Hw H. unfold cut_words in Hw. destruct s as [|c s]; [easy|]. apply in_map_iff in Hw as (g & <- & Hg). unfold words_of in Hg. apply filter_In in Hg as [_ Hg].
  apply low_byte in H; [|destruct Hb as [->|[->| ->]]; reflexivity]. unfold all_seg in Hg. rewrite forallb_forall in Hg. specialize (Hg b H). destruct Hb as [->|[->| ->]]; discriminate Hg.
Qed.

Section File.
  Variable ss si : list io_pair -> list io_pair.
  Hypothesis HS : sorts start_key ss.
  Hypothesis HI : sorts id_key si.
  Variable order : vocab -> vocab.
  Hypothesis HO : forall v, Permutation (order v) v.
  Variable to32 : Q -> Q.
  Variable lower : str -> str.
  Variable base64 : str -> res str.
  Variable compile : str -> option (str -> list (Z * Z)).
  Variable quoted : str -> str -> list (Z * Z).
  Variable u : unicode.
  Variables is_word cc mn sp : N -> bool.
  Variable lib : norm_lib.
  Variable graphemes : str -> list str.
  Context {S : Type}.
  Variable of_q : Q -> S.
  Variable lt : S -> S -> bool.
  Variables bot zero : S.
  Variable plus : S -> S -> S.
  Variable bonus : nat -> S.
  Variable penal : S -> S.
  Variable dropping : bpe -> Q -> str -> res (list token).
  Hypothesis Mo : forall w, PipelineSpec.model_ok (always (wl_tokenize w)).
  Hypothesis Mr : forall w, vget (wl_unk w) (wl_vocab w) <> None -> model_returns (always (wl_tokenize w)).
  Local Notation put := (assemble u is_word cc mn sp lower lib graphemes of_q lt bot zero plus bonus penal dropping).

  Lemma words_loaded v unk pre cut po pa c : wordlevel_file lower compile quoted v unk pre po pa c ->
    PipelineSpec.pre_ok (pre_tokenize u pre) -> pre_returns (pre_tokenize u pre) -> documented u pre = Some cut ->
    exists l a, from_reader order to32 lower base64 compile quoted (Some c) = Ok l /\ put l = Ok a /\ tk_processor (as_tok a) = po /\ tk_padding (as_tok a) = pa /\
      (forall ot x add, clean_inputs x -> ot <> OInvalid ->
        ends_with (special_ids (fun s => vget s v) (zlen v) (c_added c)) (dual x) add po pa ->
        exists e ws xss, tk_encode ss si (as_tok a) ot x add = Ok (Some e) /\ input_words ss si (as_tok a) cut x ws /\
          (Forall (unwritten (c_added c)) (encode_texts x) -> ws = flat_map (cut_words cut) (encode_texts x)) /\
          Forall2 (word_seen v unk (specials (c_added c))) ws xss /\
          as_decode a (ids e) true = Ok (spaced_out (concat xss))).
  Proof.
    intros (mo & pt & C1 & C2 & C3 & C4 & C5 & T & V & H1 & H2 & Ip & Ipo & Ipa & Nu & Vu & Ap) Po Pr Doc.
    pose proof (wordlevel_loaded order to32 mo None v unk T V H1 H2) as Em. set (wl := WL v (build_vocab_r (order v)) unk) in *. set (ad := c_added c) in *.
    assert (Fa : Forall (fun t => tc_content t <> [] /\ valid_utf8 (tc_content t)) ad) by (eapply Forall_impl; [|exact Ap]; cbn; tauto).
    assert (Al : Forall (fun t => tc_special t = true) ad) by (eapply Forall_impl; [|exact Ap]; cbn; tauto).
    assert (Gu : vget unk v <> None) by (intros X; apply (proj1 (ag_none str_eqb str_eqb_eq v unk)) in X; contradiction).
    set (m := vocab_model v (build_vocab_r (order v))). pose proof (numbered_base v _ Nu (HO v)) as B. fold m in B.
    destruct (added_reached m B ad Fa) as (av & Ea & R).
    destruct (looked_made m ad Fa av R is_word false) as (l1 & E1 & F1). destruct (looked_made m ad Fa av R is_word true) as (l2 & E2 & F2).
    eexists. eexists. split; [|split].
    - unfold from_reader. rewrite C1, C2, C3, C4, C5, Em. cbn [bind].
      unfold create_normalizer, create_pretokenizer, create_processor, create_decoder, create_truncation, create_padding.
      cbn [ConfigModel.section]. cbn [bind]. rewrite (ConfigProofs.pre_ok lower compile quoted _ _ Ip). cbn [bind].
      rewrite (section_ok _ _ _ _ po processor_ok Ipo). cbn [bind].
      rewrite (section_ok _ _ _ _ pa pad_ok Ipa). reflexivity.
    - unfold assemble. cbn [l_model l_norm l_calls l_pre l_post l_trunc l_pad l_dec lookups wl wl_vocab wl_vocab_r norm_fun option_map]. fold m. fold ad. rewrite Ea. cbn [bind]. rewrite E1. cbn [bind]. rewrite E2. reflexivity.
    - split; [reflexivity|]. split; [reflexivity|]. intros ot x add C Hot En. cbn [as_tok]. set (tk := Tkz _ _ _ _ _ _ _ _).
      assert (K1 : ending_returns tk (dual x) add).
      { split; [|split]; [|exact I|]; cbn; [destruct po; [apply En|constructor]|]. unfold returning_padding. destruct pa; [apply En|exact I]. }
      assert (K2 : ending_hides (shown m av true) tk (dual x) add).
      { split; [|split; [reflexivity|]]; cbn.
        + destruct po as [p|]; [|exact I]. apply (hides_mono (except (special_ids (fun s => vget s v) (zlen v) ad))); [|apply En]. intros i. apply (except_hidden m B ad av R).
        + destruct pa as [d|]; [|exact I]. apply (hidden_ids m B ad av R). apply En. }
      pose proof (special_hidden ss si HS HI order HO v ad av l1 l2 (tk_pre tk) (tk_model tk) po pa Nu R Al F1 F2) as Ah.
      assert (M1 : matching_ok (tk_raw tk)) by exact (looked_ok _ _ Fa av l1 F1). assert (M2 : matching_ok (tk_normalized tk)) by exact (looked_ok _ _ Fa av l2 F2).
      destruct (encode_returns ss si HS HI tk ot x add) as (e & E); auto.
      { split; [exact M1|]. split; [exact M2|]. split; [exact I|]. split; [left; exact Po|]. exact (Mo wl). }
      { split; [exact I|]. split; [left; exact Pr|]. exists (always (wl_tokenize wl)). split; [reflexivity|]. exact (Mr wl Gu). }
      destruct (encode_shown ss si HS HI tk u pre cut (always (wl_tokenize wl)) m av true M1 M2 I eq_refl Doc eq_refl Ah ot x add e K2 C E) as (ws & tss & Wd & F & S0).
      assert (Ew : Forall (unwritten ad) (encode_texts x) -> ws = flat_map (cut_words cut) (encode_texts x)).
      { intros W. destruct Wd as (l & Fl & ->). rewrite flat_map_concat_map. f_equal. clear -Fl W F1 F2 Fa HS HI.
        revert W. induction Fl as [|w y ts l H Fl IH]; intros W; [reflexivity|]. apply Forall_cons_iff in W as [W1 W2]. cbn [map]. f_equal; [|now apply IH]. clear IH Fl W2.
        destruct H as (l' & H & ->). destruct w as [|b w']; [inversion H; reflexivity|]. set (w := b :: w') in *. assert (Ne : w <> []) by discriminate.
        rewrite (unfound ss si (tk_raw tk) w HS HI Ne (looked_absent _ _ Fa av l1 _ F1 W1)) in H. cbn [not_added flat_map fst snd app] in H.
        inversion H as [|? ? ? ? (n & k & _ & _ & Ex & Ek & Hy) H']; subst. inversion H'; subst. cbn [concat]. rewrite app_nil_r. cbn [apply_normalizer tk tk_normalizer] in Ek. injection Ek as <-. rewrite Ex.
        unfold w. cbv iota beta.
        rewrite (unfound ss si (tk_normalized tk) (b :: w') HS HI Ne (looked_absent _ _ Fa av l2 _ F2 W1)). cbn [not_added flat_map fst snd app]. now rewrite app_nil_r. }
      exists e, ws.
      assert (K : exists xss, Forall2 (word_seen v unk (specials ad)) ws xss /\ shown_all m av true (map t_id (concat tss)) = concat xss).
      { assert (Sh : forall y id, vget y v = Some id -> exists xs, shown_all m av true [id] = xs /\ (In y (specials ad) /\ xs = [] \/ ~ In y (specials ad) /\ xs = [y])).
        { intros y id Hy. eexists. split; [reflexivity|]. destruct (in_dec (list_eq_dec N.eq_dec) y (specials ad)) as [Hs|Hs]; [left|right]; (split; [exact Hs|]).
          - assert (Hn : shown m av true id = None).
            { apply specials_in in Hs as (t & Ht & Hs & Et). apply (hidden_ids m B ad av R). unfold special_ids. apply in_flat_map. exists t. split; [exact Ht|]. rewrite Hs, Et. unfold file_id.
              change (bm_t2i m y) with (vget y v). rewrite Hy. now left. }
            unfold shown_all. cbn [flat_map]. rewrite Hn. reflexivity.
          - assert (Hn : shown m av true id = Some y) by (apply (shown_other m B ad av R y id Hy); rewrite <- specials_in; exact Hs).
            unfold shown_all. cbn [flat_map]. rewrite Hn. reflexivity. }
        clear -F Sh Gu. induction F as [|w ts ws tss [_ E] F IH]; [exists []; split; [constructor|reflexivity]|]. destruct IH as (xss & X & D). apply always_some in E. unfold wl_tokenize in E. cbn [wl wl_vocab wl_unk] in E.
        assert (Q : exists y id, (In w (map fst v) /\ y = w \/ ~ In w (map fst v) /\ y = unk) /\ vget y v = Some id /\ map t_id ts = [id]).
        { destruct (vget w v) as [id|] eqn:Ev.
          - injection E as <-. exists w, id. split; [left; split; [|reflexivity]|split; [exact Ev|reflexivity]]. apply aget_str_in in Ev. apply in_map_iff. now exists (w, id).
          - destruct (vget unk v) as [id|] eqn:Evu; [|congruence]. injection E as <-. exists unk, id. split; [right; split; [|reflexivity]|split; [exact Evu|reflexivity]]. now apply (proj1 (ag_none str_eqb str_eqb_eq v w)). }
        destruct Q as (y & id & Q1 & Q2 & Q3). destruct (Sh y id Q2) as (xs & Q4 & Q5). exists (xs :: xss). split; [constructor; [now exists y|exact X]|]. cbn [concat]. now rewrite map_app, shown_app, Q3, Q4, D. }
      destruct K as (xss & X & D). exists xss. split; [exact E|]. split; [exact Wd|]. split; [exact Ew|]. split; [exact X|]. unfold as_decode. cbn [as_lookups as_added as_decoder option_map]. unfold decode_ids. rewrite tokens_of_shown. fold m. rewrite S0, D. now rewrite join_spaced.
  Qed.
End File.
