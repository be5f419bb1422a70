(** Decoding BERT texts with special tokens (C74). *)
From Verif Require Import Base BaseProofs Utf8Model Utf8Proofs NormalizedModel EncodingModel EncodingProofs BpeModel BpeTokProofs BpeSaveModel BpeSaveProofs WordPieceModel WordPieceSpec WordPieceProofs
  AddedVocabModel AddedVocabSpec AddedFindProofs AddedPatternModel AddedPatternSpec DecoderModel PreTokenizedModel PreTokenizerModel PreTokenizerSpec PreTokenizerProofs
  ProcessorModel BertNormModel BertNormSpec PipelineModel PipelineSpec PipelineProofs TokensSpec ReturnSpec RoundTripSpec RoundTripProofs PretrainedModel PretrainedProofs
  WordsSpec WordsProofs WordsGlueProofs BertWordsProofs ItemsSpec BertItemsSpec BertItemsProofs.
Open Scope Z_scope.

Section Bert.
  Variable ss si : list io_pair -> list io_pair.
  Hypothesis HS : sorts start_key ss.
  Hypothesis HI : sorts id_key si.
  Variables (v order : vocab) (u : unicode) (is_word cc mn : N -> bool) (lower : str -> str) (c s k : Z).
  Hypothesis Nk : NoDup (map fst v).
  Hypothesis Ni : NoDup (map snd v).
  Hypothesis P : Permutation order v.
  Hypothesis Ec : vget CLS v = Some c.
  Hypothesis Es : vget SEP v = Some s.
  Hypothesis Ek : vget MASK v = Some k.
  Let wp := wp_from_file v order.
  Hypothesis Mo : PipelineSpec.model_ok (wp_model wp).
  Hypothesis Mr : model_returns (wp_model wp).
  Hypothesis Po : pre_ok (pre_tokenize u PTBert).
  Hypothesis Pr : pre_returns (pre_tokenize u PTBert).

  Lemma word_tokenized w l : runes w <> [] -> word_ids v w l -> exists ts, ts <> [] /\ wp_tokenize wp w = Ok ts /\ map t_id ts = l.
  Proof.
    intros Nw [(qs & L & G & ->)|(Nb & unk & Eu & ->)].
    - exists (piece_tokens [35; 35]%N true 0 qs). split; [|split; [exact (wp_greedy wp w qs L G)|apply piece_ids]]. inversion G as [f E1 E2|]; subst; [|discriminate]. congruence.
    - exists [Tok unk [91; 85; 78; 75; 93]%N (0, zlen (runes w))]. split; [discriminate|]. split; [|reflexivity]. rewrite wp_unk_case.
      + change (wp_vocab wp) with v. change (wp_unk wp) with [91; 85; 78; 75; 93]%N. now rewrite Eu.
      + destruct (Z_lt_dec (wp_max wp) (zlen (runes w))) as [Lt|Ge]; [now left|right]. intros qs G. apply Nb. split; [change (wp_max wp) with 100 in Ge; lia|now exists qs].
  Qed.

  Definition part_words (x : str) : list str := bert_words u (bert_text true false true mn lower (runes x)).
  Definition tokenized (w : str) (ts : list token) : Prop := ts <> [] /\ wp_tokenize wp w = Ok ts.
  Lemma plain_tokenized x l : plain_ids u mn lower false v x l -> exists tss, Forall2 tokenized (part_words x) tss /\ l = map t_id (concat tss).
  Proof.
    intros (ls & F & ->). fold (part_words x) in F. assert (Nw : Forall (fun w => runes w <> []) (part_words x)).
    { apply Forall_forall. intros w Hw. apply in_map_iff in Hw as (g & <- & Hg). destruct (bert_shape u _ g Hg) as (Ng & _).
      pose proof (documented_keeps u PTBert (bert_pieces u) eq_refl scalar _ (runes_scalar (bert_text true false true mn lower (runes x)))) as Fs. rewrite Forall_forall in Fs. now rewrite runes_encode by (now apply Fs). }
    revert Nw. induction F as [|w l' ws ls H F IH]; intros Nw; [exists []; split; constructor|]. apply Forall_cons_iff in Nw as [Nw Nr]. destruct (IH Nr) as (tss & Ft & El). destruct (word_tokenized w l' Nw H) as (ts & Nt & Et & Ei).
    exists (ts :: tss). split; [constructor; [split; assumption|exact Ft]|]. cbn [concat]. now rewrite map_app, Ei, El.
  Qed.
  Lemma special_tokenized m av p ps l : special_ids u mn lower false v p ps l -> Forall (fun q => shown m av true (snd (fst q)) = None) ps ->
    exists tss, Forall2 tokenized (flat_map part_words (p :: map snd ps)) tss /\ shown_all m av true l = shown_all m av true (map t_id (concat tss)).
  Proof.
    intros (l0 & ls & P0 & F & ->) H. destruct (plain_tokenized p l0 P0) as (t0 & F0 & ->).
    assert (R : exists tss, Forall2 tokenized (flat_map part_words (map snd ps)) tss /\ shown_all m av true (concat ls) = shown_all m av true (map t_id (concat tss))).
    { induction F as [|q l ps ls (kl & Pk & ->) F IH]; [exists []; split; constructor|]. apply Forall_cons_iff in H as [Hq H]. destruct (IH H) as (tss & Ft & El). destruct (plain_tokenized _ _ Pk) as (tq & Fq & ->). exists (tq ++ tss).
      split; [cbn [map flat_map]; now apply Forall2_app|]. cbn [concat app]. rewrite concat_app, map_app. unfold shown_all at 1. cbn [flat_map]. rewrite Hq. cbn [app]. fold (shown_all m av true (map t_id (concat tq) ++ concat ls)). rewrite !shown_app, El. reflexivity. }
    destruct R as (tss & Ft & El). exists (t0 ++ tss). split; [cbn [flat_map]; now apply Forall2_app|]. rewrite concat_app, map_app, !shown_app, El. reflexivity.
  Qed.

  Lemma bert_decoded_words r av l ws tss : rd_model r = wp_base wp -> rd_added r = av -> rd_made r = ByNew -> rd_decoder r = DWordPiece HASHES true ->
    av_map_r av = [(k, MASK); (s, SEP); (c, CLS)] -> av_set av = [CLS; SEP; MASK] ->
    Forall (fun w => exists z, In w (bert_words u z)) ws -> Forall2 tokenized ws tss -> shown_all (wp_base wp) av true l = shown_all (wp_base wp) av true (map t_id (concat tss)) ->
    exists xs, Forall2 (seen_as wp) ws xs /\ rd_decode r l true = Ok (tidy xs).
  Proof.
    intros R1 R2 R3 R4 A1 A2 Hp F' Sh. destruct (put_words true wp (wp_base wp) av true ws tss) as (xs & X & Dx); [| | |exact F'| | |].
    - eapply Forall_impl; [|exact Hp]. intros w (z & Hw). apply in_map_iff in Hw as (g & <- & Hg). exists g. split; [|reflexivity].
      pose proof (documented_keeps u PTBert (bert_pieces u) eq_refl scalar (runes z) (runes_scalar z)) as Fs. rewrite Forall_forall in Fs. exact (Fs g Hg).
    - eapply Forall_impl; [|exact Hp]. intros w (z & Hw). apply in_map_iff in Hw as (g & <- & Hg). exact (bert_hashes u _ g Hg).
    - reflexivity.
    - intros w y id Hw Hy Hv. rewrite Forall_forall in Hp. destruct (Hp w Hw) as (z & Hz). destruct (bert_piece_plain v order u is_word cc mn lower w z Hz y Hy) as (Q1 & Q2 & Q3).
      unfold shown, av_id_to_token. rewrite A1. cbn [aget]. destruct (Z.eqb_spec id k); [subst; elim Q1; exact (ids_inj v Ni _ _ _ Hv Ek)|]. destruct (Z.eqb_spec id s); [subst; elim Q2; exact (ids_inj v Ni _ _ _ Hv Es)|].
      destruct (Z.eqb_spec id c); [subst; elim Q3; exact (ids_inj v Ni _ _ _ Hv Ec)|]. change (bm_i2t (wp_base wp) id) with (vrget id (build_vocab_r order)). rewrite (proj1 (lookup_inverse v order Nk Ni P y id) Hv).
      unfold is_special. rewrite A2. cbn [existsb]. rewrite !(proj2 (str_eqb_neq _ _)) by assumption. reflexivity.
    - intros _. split; [|split; [cbn; intuition discriminate|right; intros b z Hb X; cbn in Hb; intuition (subst b; discriminate X)]].
      eapply Forall_impl; [|exact Hp]. intros w (z & Hw). apply in_map_iff in Hw as (g & <- & Hg). exact (bert_neat u _ g Hg).
    - exists xs. split; [exact X|]. unfold rd_decode. rewrite R1, R2, R3, R4. unfold decode_ids. rewrite tokens_of_shown, Sh. cbn [decode decode_chain bind]. change HASHES with (wp_prefix wp). now rewrite Dx.
  Qed.
  Lemma part_words_words l : Forall (fun w => exists z, In w (bert_words u z)) (flat_map part_words l).
  Proof. apply Forall_forall. intros w Hw. apply in_flat_map in Hw as (z & _ & Hw). eexists. exact Hw. Qed.
  Lemma hidden_ids av i : av_map_r av = [(k, MASK); (s, SEP); (c, CLS)] -> av_set av = [CLS; SEP; MASK] -> In i [k; s; c] -> shown (wp_base wp) av true i = None.
  Proof.
    intros A1 A2 Hi. unfold shown, av_id_to_token, is_special. rewrite A1, A2. cbn [aget].
    destruct (Z.eqb_spec i k); [reflexivity|]. destruct (Z.eqb_spec i s); [reflexivity|]. destruct (Z.eqb_spec i c); [reflexivity|]. cbn in Hi. intuition congruence.
  Qed.
  Lemma order_ids ps : in_order (bert_specials c s k) ps -> Forall (fun q => In (snd (fst q)) [k; s; c]) ps.
  Proof.
    intros (ns & Ln & Eo). apply Forall_forall. intros q Hq. apply (in_map fst) in Hq. rewrite Eo in Hq. apply in_flat_map in Hq as ([y n] & Hy & Hq). apply repeat_spec in Hq. cbn [fst snd] in Hq. rewrite Hq.
    apply in_combine_l in Hy. apply (in_map snd) in Hy. exact Hy.
  Qed.

  Lemma masked_decodes p ps ot add : ot <> OInvalid -> written p ps <> [] -> in_order (bert_specials c s k) ps -> Forall clean (p :: map snd ps) -> Forall (free_of [MASK; SEP; CLS]) (p :: map snd ps) ->
    Forall (bert_reads cc mn lower true false true) (p :: map snd ps) ->
    exists r e xs, bert u is_word cc mn lower wp false = Ok r /\ tk_encode ss si (rd_tok r) ot (ISingle (Raw (written p ps))) add = Ok (Some e) /\
      Forall2 (seen_as wp) (flat_map part_words (p :: map snd ps)) xs /\ rd_decode r (ids e) true = Ok (tidy xs).
  Proof.
    intros Hot Ne O Cp Fr B. destruct (bert_written ss si HS HI v order u is_word cc mn lower false c s k Ni Ec Es Ek Mo Mr Po Pr p ps ot add Ne Hot O Cp Fr B) as (r & e & l & Er & Ee & Sp & Ie).
    destruct (ids_apart v c s k Ni Ec Es Ek) as (D1 & D2 & D3). destruct (bert_made u is_word cc mn lower wp c s k Ec Es Ek D1 D2 D3) as (av & Er' & A1 & A2). set (r' := Ready _ _ _ _ _) in Er'. assert (r = r') by (unfold wp in Er'; congruence). subst r.
    destruct (special_tokenized (wp_base wp) av p ps l Sp) as (tss & Ft & Sh); [eapply Forall_impl; [|exact (order_ids ps O)]; intros q Hq; now apply hidden_ids|].
    destruct (bert_decoded_words r' av (ids e) _ tss eq_refl eq_refl eq_refl eq_refl A1 A2 (part_words_words _) Ft) as (xs & X & Dx).
    { rewrite Ie. destruct add; [|exact Sh]. cbn [in_frame]. unfold shown_all at 1. cbn [flat_map]. rewrite (hidden_ids av c A1 A2) by (cbn; auto). cbn [app]. fold (shown_all (wp_base wp) av true (l ++ [s])). rewrite shown_app, Sh. unfold shown_all at 2. cbn [flat_map].
      rewrite (hidden_ids av s A1 A2) by (cbn; auto). cbn [app]. apply app_nil_r. }
    exists r', e, xs. auto.
  Qed.
  Lemma masked_pair_decodes p ps q qs ot add : ot <> OInvalid -> written p ps <> [] -> in_order (bert_specials c s k) ps -> written q qs <> [] -> in_order (bert_specials c s k) qs ->
    Forall clean (p :: map snd ps ++ q :: map snd qs) -> Forall (free_of [MASK; SEP; CLS]) (p :: map snd ps ++ q :: map snd qs) -> Forall (bert_reads cc mn lower true false true) (p :: map snd ps ++ q :: map snd qs) ->
    exists r e xs, bert u is_word cc mn lower wp false = Ok r /\ tk_encode ss si (rd_tok r) ot (IDual (Raw (written p ps)) (Raw (written q qs))) add = Ok (Some e) /\
      Forall2 (seen_as wp) (flat_map part_words (p :: map snd ps ++ q :: map snd qs)) xs /\ rd_decode r (ids e) true = Ok (tidy xs).
  Proof.
    intros Hot Ne O Ne' O' Cp Fr B. destruct (bert_written_pair ss si HS HI v order u is_word cc mn lower false c s k Ni Ec Es Ek Mo Mr Po Pr p ps q qs ot add Hot Ne O Ne' O' Cp Fr B) as (r & e & l & m & Er & Ee & Sp & Sq & Ie).
    destruct (ids_apart v c s k Ni Ec Es Ek) as (D1 & D2 & D3). destruct (bert_made u is_word cc mn lower wp c s k Ec Es Ek D1 D2 D3) as (av & Er' & A1 & A2). set (r' := Ready _ _ _ _ _) in Er'. assert (r = r') by (unfold wp in Er'; congruence). subst r.
    destruct (special_tokenized (wp_base wp) av p ps l Sp) as (tss & Ft & Sh); [eapply Forall_impl; [|exact (order_ids ps O)]; intros x Hx; now apply hidden_ids|].
    destruct (special_tokenized (wp_base wp) av q qs m Sq) as (tss' & Ft' & Sh'); [eapply Forall_impl; [|exact (order_ids qs O')]; intros x Hx; now apply hidden_ids|].
    assert (Fa : Forall2 tokenized (flat_map part_words (p :: map snd ps ++ q :: map snd qs)) (tss ++ tss')) by (rewrite app_comm_cons, flat_map_app; now apply Forall2_app).
    destruct (bert_decoded_words r' av (ids e) _ (tss ++ tss') eq_refl eq_refl eq_refl eq_refl A1 A2 (part_words_words _) Fa) as (xs & X & Dx).
    { rewrite Ie, concat_app, map_app, shown_app, <- Sh, <- Sh'. assert (Hc : forall i x, In i [k; s; c] -> shown_all (wp_base wp) av true (i :: x) = shown_all (wp_base wp) av true x) by (intros i x Hi; unfold shown_all; cbn [flat_map]; now rewrite (hidden_ids av i A1 A2 Hi)).
      destruct add; cbn [in_pair_frame]; [|apply shown_app]. rewrite Hc by (cbn; auto). rewrite shown_app, Hc by (cbn; auto). rewrite shown_app, Hc by (cbn; auto). cbn [shown_all flat_map]. now rewrite app_nil_r. }
    exists r', e, xs. auto.
  Qed.
End Bert.
