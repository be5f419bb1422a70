(** Decoding BERT texts without skipping special tokens (C74). *)
From Verif Require Import Base BaseProofs Utf8Model Utf8Proofs NormalizedModel EncodingModel EncodingProofs BpeModel BpeTokProofs BpeSaveModel BpeSaveProofs WordPieceModel WordPieceSpec WordPieceProofs
  AddedVocabModel AddedVocabSpec AddedFindProofs AddedPatternModel AddedPatternSpec DecoderModel PreTokenizedModel PreTokenizerModel PreTokenizerSpec PreTokenizerProofs
  ProcessorModel BertNormModel BertNormSpec PipelineModel PipelineSpec PipelineProofs TokensSpec ReturnSpec RoundTripSpec RoundTripProofs PretrainedModel PretrainedProofs
  WordsSpec WordsProofs WordsGlueProofs BertWordsProofs ItemsSpec BertItemsSpec BertItemsProofs BertMaskedProofs BertKeptSpec.
Open Scope Z_scope.

Lemma greedy_whole v prefix w id : w <> [] -> valid_utf8 w -> vget w v = Some id -> WordPieceSpec.greedy v prefix true (runes w) [(id, runes w)].
Proof.
  intros Nw (rs & Fr & ->) E. rewrite runes_encode by assumption. assert (Nr : rs <> []) by (intros ->; now apply Nw).
  rewrite <- (app_nil_r rs) at 1. apply greedy_piece; [exact Nr|exact E| |constructor].
  intros q r X L. rewrite app_nil_r in X. apply (f_equal (@length N)) in X. rewrite app_length in X. lia.
Qed.

Section Bert.
  Variable ss si : list io_pair -> list io_pair.
  Hypothesis HS : sorts start_key ss.
  Hypothesis HI : sorts id_key si.
  Variables (v order : vocab) (u : unicode) (is_word cc mn : N -> bool) (lower : str -> str) (c s k : Z).
  Hypothesis Nk : NoDup (map fst v).
  Hypothesis Ni : NoDup (map snd v).
  Hypothesis P : Permutation order v.
  Hypothesis Ec : vget CLS v = Some c.
  Hypothesis Es : vget SEP v = Some s.
  Hypothesis Ek : vget MASK v = Some k.
  Let wp := wp_from_file v order.
  Hypothesis Mo : PipelineSpec.model_ok (wp_model wp).
  Hypothesis Mr : model_returns (wp_model wp).
  Hypothesis Po : pre_ok (pre_tokenize u PTBert).
  Hypothesis Pr : pre_returns (pre_tokenize u PTBert).

  (** A special token is a word that consists of itself. *)
  Lemma special_valid w : In w [MASK; SEP; CLS] -> valid_utf8 w.
  Proof. intros H. exists w. destruct H as [<-|[<-|[<-|[]]]]; (split; [repeat constructor; cbv; intuition congruence|reflexivity]). Qed.
  Lemma special_word w i : In (w, i) (bert_specials c s k) -> In w [MASK; SEP; CLS] /\ vget w v = Some i.
  Proof. cbn. intros [H|[H|[H|[]]]]; injection H as <- <-; auto. Qed.
  Lemma special_known w i : In (w, i) (bert_specials c s k) -> exists ts, tokenized v order w ts /\ map t_id ts = [i].
  Proof.
    intros H. destruct (special_word w i H) as [Hw E]. assert (Nw : w <> []) by (intros ->; cbn in Hw; intuition discriminate).
    exists (piece_tokens [35; 35]%N true 0 [(i, runes w)]). split; [|reflexivity]. split; [discriminate|]. apply (wp_greedy (wp_from_file v order)); [|exact (greedy_whole v _ w i Nw (special_valid w Hw) E)].
    change (wp_max (wp_from_file v order)) with 100. destruct Hw as [<-|[<-|[<-|[]]]]; vm_compute; discriminate.
  Qed.
  Lemma order_specials ps : in_order (bert_specials c s k) ps -> Forall (fun q => In (fst q) (bert_specials c s k)) ps.
  Proof.
    intros (ns & Ln & Eo). apply Forall_forall. intros q Hq. apply (in_map fst) in Hq. rewrite Eo in Hq. apply in_flat_map in Hq as ([y n] & Hy & Hq). apply repeat_spec in Hq. cbn [fst snd] in Hq. rewrite Hq.
    now apply in_combine_l in Hy.
  Qed.

  Let words := part_words u mn lower.
  Lemma specials_tokenized p ps l : special_ids u mn lower false v p ps l -> in_order (bert_specials c s k) ps ->
    exists tss, Forall2 (tokenized v order) (with_specials words p ps) tss /\ l = map t_id (concat tss).
  Proof.
    intros (l0 & ls & P0 & F & ->) O. apply order_specials in O. destruct (plain_tokenized v order u mn lower p l0 P0) as (t0 & F0 & ->).
    assert (R : exists tss, Forall2 (tokenized v order) (flat_map (fun q => fst (fst q) :: words (snd q)) ps) tss /\ concat ls = map t_id (concat tss)).
    { induction F as [|q l ps ls (kl & Pk & ->) F IH]; [exists []; split; constructor|]. apply Forall_cons_iff in O as [Oq O]. destruct (IH O) as (tss & Ft & El). destruct (plain_tokenized v order u mn lower _ _ Pk) as (tq & Fq & ->).
      destruct q as [[w i] z]. cbn [fst snd] in *. destruct (special_known w i Oq) as (tw & Tw & Ei). exists (tw :: tq ++ tss).
      split; [cbn [flat_map app fst snd]; constructor; [exact Tw|now apply Forall2_app]|]. cbn [concat app]. rewrite concat_app, !map_app, Ei, El. reflexivity. }
    destruct R as (tss & Ft & El). exists (t0 ++ tss). split; [now apply Forall2_app|]. now rewrite concat_app, map_app, El.
  Qed.

  Definition kept_word (w : str) : Prop := In w [MASK; SEP; CLS] \/ exists z, In w (bert_words u z).
  Lemma kept_seen w x : In w [MASK; SEP; CLS] -> seen_as wp w x -> x = w.
  Proof.
    intros Hw [[_ E]|[Nn _]]; [exact E|]. elim Nn. assert (K : exists i, vget w v = Some i) by (destruct Hw as [<-|[<-|[<-|[]]]]; eauto). destruct K as (i & Ei).
    split; [change (wp_max wp) with 100; destruct Hw as [<-|[<-|[<-|[]]]]; vm_compute; discriminate|]. exists [(i, runes w)].
    apply greedy_whole; [intros ->; cbn in Hw; intuition discriminate|now apply special_valid|exact Ei].
  Qed.

  Lemma bert_kept_words r av l ws tss : rd_model r = wp_base wp -> rd_added r = av -> rd_made r = ByNew -> rd_decoder r = DWordPiece HASHES true ->
    av_map_r av = [(k, MASK); (s, SEP); (c, CLS)] ->
    Forall kept_word ws -> Forall2 (tokenized v order) ws tss -> l = map t_id (concat tss) ->
    exists xs, Forall2 (fun w x => seen_as wp w x /\ (In w [MASK; SEP; CLS] -> x = w)) ws xs /\ rd_decode r l false = Ok (tidy xs).
  Proof.
    intros R1 R2 R3 R4 A1 Hp F' ->. destruct (put_words true wp (wp_base wp) av false ws tss) as (xs & X & Dx); [| | |exact F'| | |].
    - eapply Forall_impl; [|exact Hp]. intros w [Hw|(z & Hw)]; [now apply special_valid|]. apply in_map_iff in Hw as (g & <- & Hg). exists g. split; [|reflexivity].
      pose proof (documented_keeps u PTBert (bert_pieces u) eq_refl scalar (runes z) (runes_scalar z)) as Fs. rewrite Forall_forall in Fs. exact (Fs g Hg).
    - eapply Forall_impl; [|exact Hp]. intros w [Hw|(z & Hw)]; [destruct Hw as [<-|[<-|[<-|[]]]]; reflexivity|]. apply in_map_iff in Hw as (g & <- & Hg). exact (bert_hashes u _ g Hg).
    - reflexivity.
    - intros w y id Hw Hy Hv. change (wp_vocab wp) with v in Hv.
      unfold shown, av_id_to_token. rewrite A1. cbn [aget]. destruct (Z.eqb_spec id k); [subst; now rewrite (ids_inj v Ni _ _ _ Hv Ek)|]. destruct (Z.eqb_spec id s); [subst; now rewrite (ids_inj v Ni _ _ _ Hv Es)|].
      destruct (Z.eqb_spec id c); [subst; now rewrite (ids_inj v Ni _ _ _ Hv Ec)|]. change (bm_i2t (wp_base wp) id) with (vrget id (build_vocab_r order)). rewrite (proj1 (lookup_inverse v order Nk Ni P y id) Hv). reflexivity.
    - intros _. split; [|split; [cbn; intuition discriminate|right; intros b z Hb X; cbn in Hb; intuition (subst b; discriminate X)]].
      eapply Forall_impl; [|exact Hp]. intros w [Hw|(z & Hw)]; [|apply in_map_iff in Hw as (g & <- & Hg); exact (bert_neat u _ g Hg)].
      split; [destruct Hw as [<-|[<-|[<-|[]]]]; cbn; intuition discriminate|]. right. intros b z Hb X. destruct Hw as [<-|[<-|[<-|[]]]]; cbn in Hb; intuition (subst b; discriminate X).
    - exists xs. split; [|unfold rd_decode; rewrite R1, R2, R3, R4; unfold decode_ids; rewrite tokens_of_shown; cbn [decode decode_chain bind]; change HASHES with (wp_prefix wp); now rewrite Dx].
      clear Dx F' Hp. induction X as [|w x ws xs H X IH]; constructor; [|exact IH]. split; [exact H|]. intros Hw. exact (kept_seen w x Hw H).
  Qed.
  Lemma with_kept p ps : in_order (bert_specials c s k) ps -> Forall kept_word (with_specials words p ps).
  Proof.
    intros O. apply order_specials in O. apply Forall_app. split; [apply Forall_forall; intros w Hw; right; eexists; exact Hw|]. apply Forall_forall. intros w Hw. apply in_flat_map in Hw as ([[y i] z] & Hq & [<-|Hw]); [|right; eexists; exact Hw].
    rewrite Forall_forall in O. left. exact (proj1 (special_word y i (O _ Hq))).
  Qed.
  Lemma cls_in : In (CLS, c) (bert_specials c s k). Proof. cbn. auto. Qed.
  Lemma sep_in : In (SEP, s) (bert_specials c s k). Proof. cbn. auto. Qed.

  Lemma kept_decodes p ps ot add : ot <> OInvalid -> written p ps <> [] -> in_order (bert_specials c s k) ps -> Forall clean (p :: map snd ps) -> Forall (free_of [MASK; SEP; CLS]) (p :: map snd ps) ->
    Forall (bert_reads cc mn lower true false true) (p :: map snd ps) ->
    exists r e xs, bert u is_word cc mn lower wp false = Ok r /\ tk_encode ss si (rd_tok r) ot (ISingle (Raw (written p ps))) add = Ok (Some e) /\
      Forall2 (fun w x => seen_as wp w x /\ (In w [MASK; SEP; CLS] -> x = w)) (words_in_frame add (with_specials words p ps)) xs /\ rd_decode r (ids e) false = Ok (tidy xs).
  Proof.
    intros Hot Ne O Cp Fr B. destruct (bert_written ss si HS HI v order u is_word cc mn lower false c s k Ni Ec Es Ek Mo Mr Po Pr p ps ot add Ne Hot O Cp Fr B) as (r & e & l & Er & Ee & Sp & Ie).
    destruct (ids_apart v c s k Ni Ec Es Ek) as (D1 & D2 & D3). destruct (bert_made u is_word cc mn lower wp c s k Ec Es Ek D1 D2 D3) as (av & Er' & A1 & A2). set (r' := Ready _ _ _ _ _) in Er'. assert (r = r') by (unfold wp in Er'; congruence). subst r.
    destruct (specials_tokenized p ps l Sp O) as (tss & Ft & ->). pose proof (with_kept p ps O) as Kw.
    destruct (special_known CLS c cls_in) as (tc & Tc & Ic). destruct (special_known SEP s sep_in) as (ts & Ts & Is).
    destruct (bert_kept_words r' av (ids e) (words_in_frame add (with_specials words p ps)) (if add then tc :: tss ++ [ts] else tss) eq_refl eq_refl eq_refl eq_refl A1) as (xs & X & Dx).
    - destruct add; [|exact Kw]. constructor; [left; cbn; auto|]. apply Forall_app. split; [exact Kw|constructor; [left; cbn; auto|constructor]].
    - destruct add; [|exact Ft]. constructor; [exact Tc|]. apply Forall2_app; [exact Ft|repeat constructor; apply Ts].
    - rewrite Ie. destruct add; [|reflexivity]. cbn [in_frame concat]. rewrite map_app, concat_app, map_app, Ic. cbn [concat]. now rewrite app_nil_r, Is.
    - exists r', e, xs. auto.
  Qed.
  Lemma kept_pair_decodes p ps q qs ot add : ot <> OInvalid -> written p ps <> [] -> in_order (bert_specials c s k) ps -> written q qs <> [] -> in_order (bert_specials c s k) qs ->
    Forall clean (p :: map snd ps ++ q :: map snd qs) -> Forall (free_of [MASK; SEP; CLS]) (p :: map snd ps ++ q :: map snd qs) -> Forall (bert_reads cc mn lower true false true) (p :: map snd ps ++ q :: map snd qs) ->
    exists r e xs, bert u is_word cc mn lower wp false = Ok r /\ tk_encode ss si (rd_tok r) ot (IDual (Raw (written p ps)) (Raw (written q qs))) add = Ok (Some e) /\
      Forall2 (fun w x => seen_as wp w x /\ (In w [MASK; SEP; CLS] -> x = w)) (words_in_pair_frame add (with_specials words p ps) (with_specials words q qs)) xs /\ rd_decode r (ids e) false = Ok (tidy xs).
  Proof.
    intros Hot Ne O Ne' O' Cp Fr B. destruct (bert_written_pair ss si HS HI v order u is_word cc mn lower false c s k Ni Ec Es Ek Mo Mr Po Pr p ps q qs ot add Hot Ne O Ne' O' Cp Fr B) as (r & e & l & m & Er & Ee & Sp & Sq & Ie).
    destruct (ids_apart v c s k Ni Ec Es Ek) as (D1 & D2 & D3). destruct (bert_made u is_word cc mn lower wp c s k Ec Es Ek D1 D2 D3) as (av & Er' & A1 & A2). set (r' := Ready _ _ _ _ _) in Er'. assert (r = r') by (unfold wp in Er'; congruence). subst r.
    destruct (specials_tokenized p ps l Sp O) as (tss & Ft & ->). pose proof (with_kept p ps O) as Kw. destruct (specials_tokenized q qs m Sq O') as (tss' & Ft' & ->). pose proof (with_kept q qs O') as Kw'.
    destruct (special_known CLS c cls_in) as (tc & Tc & Ic). destruct (special_known SEP s sep_in) as (ts & Ts & Is).
    destruct (bert_kept_words r' av (ids e) (words_in_pair_frame add (with_specials words p ps) (with_specials words q qs)) (if add then tc :: tss ++ ts :: tss' ++ [ts] else tss ++ tss') eq_refl eq_refl eq_refl eq_refl A1) as (xs & X & Dx).
    - destruct add; [|now apply Forall_app]. constructor; [left; cbn; auto|]. apply Forall_app. split; [exact Kw|]. constructor; [left; cbn; auto|]. apply Forall_app. split; [exact Kw'|constructor; [left; cbn; auto|constructor]].
    - destruct add; [|now apply Forall2_app]. constructor; [exact Tc|]. apply Forall2_app; [exact Ft|]. constructor; [exact Ts|]. apply Forall2_app; [exact Ft'|repeat constructor; apply Ts].
    - rewrite Ie. destruct add; [|cbn [in_pair_frame]; now rewrite concat_app, map_app]. cbn [in_pair_frame concat]. rewrite map_app, concat_app, map_app, Ic. cbn [concat]. rewrite map_app, concat_app, map_app, Is. cbn [concat]. now rewrite app_nil_r, Is.
    - exists r', e, xs. auto.
  Qed.
End Bert.
