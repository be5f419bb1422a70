(** BERT on texts with special tokens (C84). *)
From Verif Require Import Base BaseProofs Utf8Model Utf8Proofs NormalizedModel NormalizedSpec NormalizedProofs EncodingModel EncodingSpec EncodingProofs BpeModel BpeTokProofs BpeSaveModel WordPieceModel WordPieceSpec WordPieceProofs
  AddedVocabModel AddedVocabSpec AddedFindProofs AddedPatternModel AddedPatternSpec AddedPatternProofs DecoderModel PreTokenizedModel PreTokenizedSpec PreTokenizedProofs PreTokenizerModel PreTokenizerSpec PreTokenizerProofs
  ProcessorModel ProcessorSpec ProcessorProofs BertNormModel BertNormSpec PipelineModel PipelineSpec PipelineProofs TokensSpec TokensProofs ReturnSpec ReturnProofs RoundTripSpec RoundTripProofs PretrainedModel PretrainedProofs
  WordsSpec WordsProofs WordsGlueProofs PlacedProofs NormalizedExactProofs TurnedProofs BertWordsProofs ItemsSpec ItemsProofs MaskedProofs MaskedTextProofs BertItemsSpec.
Open Scope Z_scope.

Lemma bert_made_any u is_word cc mn lower wp uncased c s k : vget CLS (wp_vocab wp) = Some c -> vget SEP (wp_vocab wp) = Some s -> vget MASK (wp_vocab wp) = Some k -> c <> s -> c <> k -> s <> k ->
  exists av, bert u is_word cc mn lower wp uncased = Ok (Ready (Tkz (re_matching [(plain_re MASK, k); (plain_re SEP, s); (plain_re CLS, c)]) (re_matching [])
        (Some (bert_normalize cc mn lower (BN true true true uncased))) (Some (pre_tokenize u PTBert)) (Some (wp_model wp)) (Some (PBert (PTok CLS c) (PTok SEP s))) None None) (wp_base wp) av (if uncased then ByDefault else ByNew) (DWordPiece HASHES true)).
Proof.
  intros Ec Es Ek N1 N2 N3.
  assert (M1 : (c =? s) = false) by lia. assert (M2 : (c =? k) = false) by lia. assert (M3 : (s =? k) = false) by lia.
  assert (M4 : (s =? c) = false) by lia. assert (M5 : (k =? c) = false) by lia. assert (M6 : (k =? s) = false) by lia.
  unfold bert, added_by, add_history, add_step, add_special_tokens, add_tokens, refresh, looked_for.
  cbn. do 9 (rewrite ?Ec, ?Es, ?Ek, ?M1, ?M2, ?M3, ?M4, ?M5, ?M6, ?Z.eqb_refl; cbn). eexists. reflexivity.
Qed.

(** The end of encoding one text. *)
Lemma bert_end cls sep e add : overflowing e = [] -> seq_ranges e = Some [] ->
  exists r, post_process (Some (PBert cls sep)) None None e None add = Ok (Some r) /\ ids r = in_frame add (pt_id cls) (pt_id sep) (ids e).
Proof.
  intros O S0. unfold post_process. cbn [post_truncate bind fst snd]. destruct add.
  - destruct (bert_framed cls sep e None) as (r & -> & _ & [X _]). cbn [bind]. exists r. split; [reflexivity|]. apply (f_equal ids) in X. exact X.
  - exists e. cbn. split; reflexivity.
Qed.

Lemma plain_ranges e : overflowing e = [] -> seq_ranges e = Some [] -> deep_ranges e.
Proof. intros O S0. constructor; [rewrite S0; discriminate|unfold ranges_ok; rewrite S0; intros k r []|rewrite O; constructor]. Qed.
Lemma bert_pair_end cls sep e q add : overflowing e = [] -> seq_ranges e = Some [] -> overflowing q = [] -> seq_ranges q = Some [] ->
  exists r, post_process (Some (PBert cls sep)) None None e (Some q) add = Ok (Some r) /\ ids r = in_pair_frame add (pt_id cls) (pt_id sep) (ids e) (ids q).
Proof.
  intros O S0 O' S'. unfold post_process. cbn [post_truncate bind fst snd]. destruct add.
  - destruct (bert_framed cls sep e (Some q)) as (r & -> & _ & [X _]). cbn [bind]. exists r. split; [reflexivity|]. apply (f_equal ids) in X. cbn in X. rewrite X. unfold in_pair_frame. cbn. rewrite <- !app_assoc. reflexivity.
  - destruct (default_same e (Some q)) as (r & E & [X _]); [intros _; apply plain_ranges; assumption|intros p [= <-]; apply plain_ranges; assumption|].
    cbn [process]. unfold bert_process. cbn [negb]. rewrite E. cbn [bind]. exists r. split; [reflexivity|]. apply (f_equal ids) in X. cbn in X. rewrite X. reflexivity.
Qed.

Lemma piece_ids prefix ps : forall first pos, map t_id (piece_tokens prefix first pos ps) = map fst ps.
Proof. induction ps as [|[id p] ps IH]; intros first pos; [reflexivity|]. cbn [piece_tokens map t_id fst]. now rewrite IH. Qed.

Section Bert.
  Variable ss si : list io_pair -> list io_pair.
  Hypothesis HS : sorts start_key ss.
  Hypothesis HI : sorts id_key si.
  Variables (v order : vocab) (u : unicode) (is_word cc mn : N -> bool) (lower : str -> str) (uncased : bool) (c s k : Z).
  Hypothesis Ni : NoDup (map snd v).
  Hypothesis Ec : vget CLS v = Some c.
  Hypothesis Es : vget SEP v = Some s.
  Hypothesis Ek : vget MASK v = Some k.
  Let wp := wp_from_file v order.
  Hypothesis Mo : PipelineSpec.model_ok (wp_model wp).
  Hypothesis Mr : model_returns (wp_model wp).
  Hypothesis Po : pre_ok (pre_tokenize u PTBert).
  Hypothesis Pr : pre_returns (pre_tokenize u PTBert).

  Definition bert_specials : list (str * Z) := [(MASK, k); (SEP, s); (CLS, c)].
  Lemma special_brackets : Forall (fun x => bracketed (fst x)) bert_specials.
  Proof.
    repeat constructor; cbn [fst]; [exists [77; 65; 83; 75]%N|exists [83; 69; 80]%N|exists [67; 76; 83]%N]; (split; [reflexivity|split; intros H; repeat (destruct H as [H|H]; [discriminate H|]); destruct H]).
  Qed.
  Lemma special_apart : NoDup (map fst bert_specials).
  Proof. repeat constructor; cbn; intros H; repeat (destruct H as [H|H]; [discriminate H|]); destruct H. Qed.

  Lemma word_tokens w rows : item_tokens (wp_model wp) (None, w) rows -> word_ids v w (map fst rows).
  Proof.
    intros (ts & Ne & E & ->). cbn [snd] in E. assert (E' : wp_tokenize wp w = Ok ts) by (unfold wp_model in E; destruct (wp_tokenize wp w); cbn in E; congruence). clear E. rewrite map_map. cbn [fst]. change (map (fun x => t_id x) ts) with (map t_id ts).
    assert (U : forall n, (~ bert_knows v w) -> match vget (wp_unk wp) (wp_vocab wp) with Some id => Ok [Tok id (wp_unk wp) (0, n)] | None => Err end = Ok ts -> word_ids v w (map t_id ts)).
    { intros n Hn H. right. split; [exact Hn|]. change (wp_vocab wp) with v in H. change (wp_unk wp) with [91; 85; 78; 75; 93]%N in H. match type of H with match ?X with _ => _ end = _ => destruct X as [unk|] eqn:Eu; [|discriminate] end. injection H as <-. exists unk. auto. }
    destruct (wp_cases wp w) as [H|[H|(ps & G & L)]].
    - rewrite wp_unk_case in E' by auto. apply (U _) in E'; [exact E'|]. intros [X _]. change (wp_max wp) with 100 in H. lia.
    - rewrite wp_unk_case in E' by auto. apply (U _) in E'; [exact E'|]. intros [_ (ps & X)]. exact (H ps X).
    - rewrite (wp_greedy _ _ _ L G) in E'. injection E' as <-. left. exists ps. split; [exact L|]. split; [exact G|]. apply piece_ids.
  Qed.

  Definition g (w : str) : str := bert_text true uncased true mn lower (runes w).
  Lemma rows_plain w rows : Forall2 (item_tokens (wp_model wp)) (cut_item (bert_pieces u) (None, g w)) rows -> plain_ids u mn lower uncased v w (map fst (concat rows)).
  Proof.
    intros F. exists (map (map fst) rows). split; [|now rewrite concat_map]. unfold cut_item in F. cbn [fst snd] in F. unfold bert_words. fold (g w). revert rows F. generalize (bert_pieces u (runes (g w))) as gs.
    induction gs as [|x gs IH]; intros rows F; inversion F; subst; [constructor|]. cbn [map]. constructor; [now apply word_tokens|now apply IH].
  Qed.

  (** The tokenizer and the encoding, for any cut of the text. *)
  Lemma bert_cut ty ot x : clean x -> x <> [] -> ot <> OInvalid ->
    forall t, tk_raw t = re_matching [(plain_re MASK, k); (plain_re SEP, s); (plain_re CLS, c)] -> tk_normalized t = re_matching [] -> tk_normalizer t = Some (bert_normalize cc mn lower (BN true true true uncased)) ->
    tk_pre t = Some (pre_tokenize u PTBert) -> tk_model t = Some (wp_model wp) ->
    (forall w, In (None, w) (cut_added ss si (tk_raw t) x) -> w <> [] /\ clean w) ->
    (forall y, In y (cut_added ss si (tk_raw t) x) -> bert_reads cc mn lower true uncased true (snd y) \/ fst y <> None) ->
    exists e rows, encode_sequence ss si t ty ot (Raw x) = Ok e /\ Forall2 (item_tokens (wp_model wp)) (flat_map (turned_items (bert_pieces u) g) (cut_added ss si (tk_raw t) x)) rows /\ ids e = map fst (concat rows).
  Proof.
    intros C Ne Hot t Et1 Et2 En Ep Em Hc Hb.
    assert (M1 : matching_ok (tk_raw t)) by (rewrite Et1; apply re_matching_ok; repeat constructor; cbn [fst]; (try discriminate); [exists MASK|exists SEP|exists CLS]; (split; [repeat constructor; unfold scalar; lia|reflexivity])).
    assert (M2 : matching_ok (tk_normalized t)) by (rewrite Et2; apply re_matching_ok; constructor).
    destruct (turned_text ss si HS HI t u (bert_pieces u) (bert_normalize cc mn lower (BN true true true uncased)) g (wp_model wp) ty ot x) as (e & rows & E & F & (I & _)); auto.
    { unfold cuts_as. rewrite Ep. exists PTBert. split; reflexivity. }
    { rewrite Ep. exact Po. }
    { rewrite Ep. exact Pr. }
    { intros w Hw. now apply Hc. }
    { intros n W U Nn I. apply bert_turned; auto. apply in_map_iff in I as ([o w] & Ew & I). apply filter_In in I as [I Io]. cbn [fst snd] in *. subst w. destruct o; [discriminate|]. destruct (Hb _ I) as [H|H]; [exact H|now destruct H]. }
    { intros w Hw. destruct (Hc w Hw) as [Nw Cw]. destruct (Hb _ Hw) as [H|H]; [|now destruct H]. cbn [snd] in H. split; [|rewrite Et2; constructor]. unfold g. intros E0. now apply (bert_text_empty _ _ _ _ _ _ _ Cw H) in E0. }
    exists e, rows. auto.
  Qed.

  Lemma rows_items p rows : Forall2 (item_tokens (wp_model wp)) (flat_map (turned_items (bert_pieces u) g) (plain_item p)) rows -> clean p -> bert_reads cc mn lower true uncased true p -> plain_ids u mn lower uncased v p (map fst (concat rows)).
  Proof.
    intros F C B. apply rows_plain. destruct p as [|x p]; [|cbn [plain_item flat_map] in F; rewrite app_nil_r in F; exact F].
    cbn [plain_item flat_map] in F. unfold g. rewrite (proj2 (bert_text_empty _ _ _ _ _ _ _ C B) eq_refl). exact F.
  Qed.
  Lemma rows_written ps : forall rows, Forall2 (item_tokens (wp_model wp)) (flat_map (turned_items (bert_pieces u) g) (flat_map (fun q => (Some (snd (fst q)), fst (fst q)) :: plain_item (snd q)) ps)) rows ->
    Forall (fun q => clean (snd q) /\ bert_reads cc mn lower true uncased true (snd q)) ps ->
    exists ls, Forall2 (fun q l => exists k, plain_ids u mn lower uncased v (snd q) k /\ l = snd (fst q) :: k) ps ls /\ map fst (concat rows) = concat ls.
  Proof.
    induction ps as [|[[t id] q] ps IH]; intros rows F H; [inversion F; exists []; split; constructor|]. apply Forall_cons_iff in H as [[C B] H]. cbn [flat_map fst snd] in *. rewrite flat_map_app in F. apply Forall2_app_inv_l in F as (r1 & r2 & F1 & F2 & ->).
    cbn [flat_map] in F1. unfold turned_items at 1 in F1. cbn [fst app] in F1. inversion F1 as [|x row xs r1' X F1']; subst. unfold item_tokens in X. cbn [fst snd] in X. subst row. destruct (IH r2 F2 H) as (ls & Fl & El).
    apply rows_items in F1'; auto. exists ((id :: map fst (concat r1')) :: ls). split; [constructor; [|exact Fl]; cbn [fst snd]; eauto|]. cbn [concat]. rewrite concat_app. cbn [app map fst]. rewrite map_app, El. reflexivity.
  Qed.

  Lemma ids_apart : c <> s /\ c <> k /\ s <> k.
  Proof.
    split; [|split]; intros X.
    - assert (Y : vget SEP v = Some c) by congruence. discriminate (ids_inj v Ni _ _ _ Ec Y).
    - assert (Y : vget MASK v = Some c) by congruence. discriminate (ids_inj v Ni _ _ _ Ec Y).
    - assert (Y : vget MASK v = Some s) by congruence. discriminate (ids_inj v Ni _ _ _ Es Y).
  Qed.
  Lemma special_clean t : In t [MASK; SEP; CLS] -> clean t.
  Proof. intros [<-|[<-|[<-|[]]]]; [exists MASK|exists SEP|exists CLS]; (split; [repeat constructor; unfold scalar; lia|split; [repeat constructor; discriminate|reflexivity]]). Qed.

  (** From a cut of the text into its items to the ids. *)
  Lemma bert_sequence_ids x p ps ot : x <> [] -> ot <> OInvalid -> clean x -> Forall clean (p :: map snd ps) -> Forall (bert_reads cc mn lower true uncased true) (p :: map snd ps) ->
    cut_added ss si (re_matching [(plain_re MASK, k); (plain_re SEP, s); (plain_re CLS, c)]) x = written_items p ps ->
    forall r ty, bert u is_word cc mn lower wp uncased = Ok r ->
    exists e, encode_sequence ss si (rd_tok r) ty ot (Raw x) = Ok e /\ special_ids u mn lower uncased v p ps (ids e).
  Proof.
    intros Ne Hot Cs Cp B Cut r0 ty Er. destruct ids_apart as (D1 & D2 & D3). destruct (bert_made_any u is_word cc mn lower wp uncased c s k Ec Es Ek D1 D2 D3) as (av & Eb). set (r := Ready _ _ _ _ _) in Eb.
    assert (r0 = r) by congruence. subst r0. clear Er.
    assert (Hw : forall w, In (None, w) (written_items p ps) -> w <> [] /\ In w (p :: map snd ps)).
    { intros w Hw. assert (Pl : forall q, In (None, w) (plain_item q) -> w <> [] /\ w = q) by (intros q Hq; destruct q; [destruct Hq|]; destruct Hq as [Hq|[]]; injection Hq as <-; split; [discriminate|reflexivity]).
      apply in_app_or in Hw as [Hw|Hw]; [apply Pl in Hw as [H ->]; split; [exact H|now left]|]. apply in_flat_map in Hw as (q & Hq & [Hw|Hw]); [discriminate|]. apply Pl in Hw as [H ->]. split; [exact H|]. right. now apply in_map. }
    rewrite Forall_forall in Cp, B.
    destruct (bert_cut ty ot x Cs Ne Hot (rd_tok r) eq_refl eq_refl eq_refl eq_refl eq_refl) as (e & rows & E & F & Ie).
    { cbn [rd_tok r tk_raw]. rewrite Cut. intros w H. destruct (Hw w H) as [Nw Iw]. auto. }
    { cbn [rd_tok r tk_raw]. rewrite Cut. intros [[id|] w] H; [right; discriminate|left]. now apply B, Hw. }
    cbn [rd_tok r tk_raw] in F. rewrite Cut in F. unfold written_items in F. rewrite flat_map_app in F. apply Forall2_app_inv_l in F as (r1 & r2 & F1 & F2 & ->).
    apply rows_items in F1; [|apply Cp; now left|apply B; now left]. destruct (rows_written ps r2 F2) as (ls & Fl & El).
    { apply Forall_forall. intros q Hq. split; [apply Cp|apply B]; right; now apply in_map. }
    exists e. split; [exact E|]. exists (map fst (concat r1)), ls. split; [exact F1|]. split; [exact Fl|]. rewrite Ie, concat_app, map_app, El. reflexivity.
  Qed.
  Lemma bert_cut_ids x p ps ot add : x <> [] -> ot <> OInvalid -> clean x -> Forall clean (p :: map snd ps) -> Forall (bert_reads cc mn lower true uncased true) (p :: map snd ps) ->
    cut_added ss si (re_matching [(plain_re MASK, k); (plain_re SEP, s); (plain_re CLS, c)]) x = written_items p ps ->
    exists r e l, bert u is_word cc mn lower wp uncased = Ok r /\ tk_encode ss si (rd_tok r) ot (ISingle (Raw x)) add = Ok (Some e) /\
      special_ids u mn lower uncased v p ps l /\ ids e = in_frame add c s l.
  Proof.
    intros Ne Hot Cs Cp B Cut. destruct ids_apart as (D1 & D2 & D3). destruct (bert_made_any u is_word cc mn lower wp uncased c s k Ec Es Ek D1 D2 D3) as (av & Eb). set (r := Ready _ _ _ _ _) in Eb.
    destruct (bert_sequence_ids x p ps ot Ne Hot Cs Cp B Cut r 0 Eb) as (e & E & I).
    destruct (sequence_plain ss si (rd_tok r) 0 ot (Raw x) e E) as [O0 S0]. destruct (bert_end (PTok CLS c) (PTok SEP s) e add O0 S0) as (e' & Ee & Ii).
    exists r, e', (ids e). split; [exact Eb|]. split; [unfold tk_encode; rewrite E; cbn [bind]; exact Ee|]. auto.
  Qed.

  Lemma written_clean p ps : Forall clean (p :: map snd ps) -> Forall (fun q => clean (fst (fst q))) ps -> clean (written p ps).
  Proof.
    intros F G. apply Forall_cons_iff in F as [Cp F]. apply clean_app; [exact Cp|]. induction ps as [|q ps IH]; cbn [flat_map]; [apply clean_nil|]. cbn [map] in F. apply Forall_cons_iff in F as [Cq F]. apply Forall_cons_iff in G as [Ct G].
    apply clean_app; [now apply clean_app|now apply IH].
  Qed.
  Lemma bert_written p ps ot add : written p ps <> [] -> ot <> OInvalid -> in_order bert_specials ps -> Forall clean (p :: map snd ps) -> Forall (free_of [MASK; SEP; CLS]) (p :: map snd ps) ->
    Forall (bert_reads cc mn lower true uncased true) (p :: map snd ps) ->
    exists r e l, bert u is_word cc mn lower wp uncased = Ok r /\ tk_encode ss si (rd_tok r) ot (ISingle (Raw (written p ps))) add = Ok (Some e) /\
      special_ids u mn lower uncased v p ps l /\ ids e = in_frame add c s l.
  Proof.
    intros Ne Hot O Cp Fr B. apply bert_cut_ids; auto.
    - apply written_clean; [exact Cp|]. destruct O as (ns & Ln & Eo). apply Forall_forall. intros q Hq. apply special_clean. apply (in_map fst) in Hq. rewrite Eo in Hq. apply in_flat_map in Hq as ([y n] & Hy & Hq). apply repeat_spec in Hq. cbn [fst snd] in Hq. rewrite Hq.
      apply in_combine_l in Hy. apply (in_map fst) in Hy. exact Hy.
    - exact (cut_written ss si HS HI bert_specials p ps special_brackets special_apart O Fr Ne).
  Qed.

  Lemma written_ready p ps : written p ps <> [] -> in_order bert_specials ps -> Forall clean (p :: map snd ps) -> Forall (free_of [MASK; SEP; CLS]) (p :: map snd ps) ->
    clean (written p ps) /\ cut_added ss si (re_matching [(plain_re MASK, k); (plain_re SEP, s); (plain_re CLS, c)]) (written p ps) = written_items p ps.
  Proof.
    intros Ne O Cp Fr. split; [|exact (cut_written ss si HS HI bert_specials p ps special_brackets special_apart O Fr Ne)].
    apply written_clean; [exact Cp|]. destruct O as (ns & Ln & Eo). apply Forall_forall. intros q Hq. apply special_clean. apply (in_map fst) in Hq. rewrite Eo in Hq. apply in_flat_map in Hq as ([y n] & Hy & Hq). apply repeat_spec in Hq. cbn [fst snd] in Hq. rewrite Hq.
    apply in_combine_l in Hy. apply (in_map fst) in Hy. exact Hy.
  Qed.
  Lemma bert_written_pair p ps q qs ot add : ot <> OInvalid -> written p ps <> [] -> in_order bert_specials ps -> written q qs <> [] -> in_order bert_specials qs ->
    Forall clean (p :: map snd ps ++ q :: map snd qs) -> Forall (free_of [MASK; SEP; CLS]) (p :: map snd ps ++ q :: map snd qs) -> Forall (bert_reads cc mn lower true uncased true) (p :: map snd ps ++ q :: map snd qs) ->
    exists r e l m, bert u is_word cc mn lower wp uncased = Ok r /\ tk_encode ss si (rd_tok r) ot (IDual (Raw (written p ps)) (Raw (written q qs))) add = Ok (Some e) /\
      special_ids u mn lower uncased v p ps l /\ special_ids u mn lower uncased v q qs m /\ ids e = in_pair_frame add c s l m.
  Proof.
    intros Hot Ne O Ne' O' Cl Fr B. rewrite app_comm_cons in *. apply Forall_app in Cl as [C1 C2], Fr as [F1 F2], B as [B1 B2]. destruct (written_ready p ps Ne O C1 F1) as [K1 X1]. destruct (written_ready q qs Ne' O' C2 F2) as [K2 X2].
    destruct ids_apart as (D1 & D2 & D3). destruct (bert_made_any u is_word cc mn lower wp uncased c s k Ec Es Ek D1 D2 D3) as (av & Eb). set (r := Ready _ _ _ _ _) in Eb.
    destruct (bert_sequence_ids _ p ps ot Ne Hot K1 C1 B1 X1 r 0 Eb) as (e & E & I). destruct (bert_sequence_ids _ q qs ot Ne' Hot K2 C2 B2 X2 r 1 Eb) as (e' & E' & I').
    destruct (sequence_plain ss si _ _ _ _ e E) as [O0 S0]. destruct (sequence_plain ss si _ _ _ _ e' E') as [O1 S1]. destruct (bert_pair_end (PTok CLS c) (PTok SEP s) e e' add O0 S0 O1 S1) as (d & Ed & Id).
    exists r, d, (ids e), (ids e'). split; [exact Eb|]. split; [unfold tk_encode; rewrite E; cbn [bind]; rewrite E'; cbn [bind]; exact Ed|]. auto.
  Qed.

  (** *** [CLS] in front of [SEP] *)
  Lemma swallowed total a b d e : 0 <= d < e -> e <= a < b -> b <= total ->
    AddedVocabModel.find_matches ss si total [k; s; c] [[]; [(a, b)]; [(d, e)]] = (None, (0, a)) :: (Some s, (a, b)) :: (if b =? total then [] else [(None, (b, total))]).
  Proof.
    intros H1 H2 H3. rewrite (find_matches_eq ss si HI) by lia.
    assert (Cn : candidates ss si [[]; [(a, b)]; [(d, e)]] = [(1%nat, (a, b)); (2%nat, (d, e))]).
    { unfold candidates. pose proof (proj1 (HS (io_pairs [[]; [(a, b)]; [(d, e)]]))) as P1.
      set (l1 := ss _) in *. destruct (HI l1) as (P2 & S2 & _). set (l2 := si l1) in *.
      assert (P : Permutation [(1%nat, (a, b)); (2%nat, (d, e))] l2) by (exact (Permutation_trans P1 P2)).
      apply Permutation_length_2_inv in P as [->| ->]; [reflexivity|].
      apply StronglySorted_inv in S2 as [_ S2]. inversion S2 as [|? ? K]; subst. unfold id_key in K. cbn in K. lia. }
    rewrite Cn. cbn [AddedFindProofs.greedy fst snd]. replace (a <? 0) with false by lia. replace (d <? b) with true by lia.
    cbn [fill nth]. replace (0 <? a) with true by lia. reflexivity.
  Qed.
  Lemma bert_cls_cut p q z : Forall (free_of [MASK; SEP; CLS]) [p; q; z] ->
    cut_added ss si (re_matching [(plain_re MASK, k); (plain_re SEP, s); (plain_re CLS, c)]) (p ++ CLS ++ q ++ SEP ++ z) = written_items (p ++ CLS ++ q) [((SEP, s), z)].
  Proof.
    intros Fr. set (ps := [((CLS, c), q); ((SEP, s), z)]). assert (Ew : p ++ CLS ++ q ++ SEP ++ z = written p ps) by (unfold written, ps; cbn [flat_map fst snd]; now rewrite app_nil_r, <- !app_assoc).
    pose proof special_brackets as Br. rewrite Forall_forall in Br.
    assert (Ff : forall t i, In (t, i) bert_specials -> find_re (plain_re t) None (written p ps) 0 0 = map snd (filter (same_token t) (places 0 p ps))).
    { intros t i Ht. apply (written_found 91 93 ltac:(discriminate)); [exact (Br _ Ht)|repeat constructor; cbn [fst]; [apply (Br (CLS, c))|apply (Br (SEP, s))]; cbn; auto|]. eapply Forall_impl; [|exact Fr]. intros w Hw a b. apply Hw. apply (in_map fst) in Ht. exact Ht. }
    unfold cut_added, re_matching. cbn [mt_ids mt_find map fst snd]. rewrite Ew. rewrite (Ff MASK k), (Ff SEP s), (Ff CLS c) by (cbn; auto). unfold same_token. assert (Ep : places 0 p ps = [((CLS, c), (0 + zlen p, 0 + zlen p + zlen CLS)); ((SEP, s), (0 + zlen p + zlen CLS + zlen q, 0 + zlen p + zlen CLS + zlen q + zlen SEP))]) by reflexivity. rewrite Ep. cbn [filter fst snd].
    change (str_eqb CLS MASK) with false. change (str_eqb SEP MASK) with false. change (str_eqb CLS SEP) with false. change (str_eqb SEP SEP) with true. change (str_eqb CLS CLS) with true. change (str_eqb SEP CLS) with false. cbn [map snd].
    rewrite <- Ew. assert (Lw : zlen (p ++ CLS ++ q ++ SEP ++ z) = zlen p + zlen CLS + zlen q + zlen SEP + zlen z) by (rewrite !zlen_app; lia).
    pose proof (Zle_0_nat (length p)). pose proof (Zle_0_nat (length q)). pose proof (Zle_0_nat (length z)). assert (L1 : zlen CLS = 5) by reflexivity. assert (L2 : zlen SEP = 5) by reflexivity.
    rewrite swallowed by (rewrite ?Lw; unfold zlen in *; lia). cbn [map fst snd].
    unfold written_items. cbn [flat_map fst snd app]. rewrite app_nil_r.
    assert (A1 : part 0 (0 + zlen p + zlen CLS + zlen q) (p ++ CLS ++ q ++ SEP ++ z) = p ++ CLS ++ q).
    { rewrite <- (app_nil_l (p ++ _)). replace (p ++ CLS ++ q ++ SEP ++ z) with ((p ++ CLS ++ q) ++ SEP ++ z) by (now rewrite <- !app_assoc). apply part_mid; [reflexivity|]. rewrite !zlen_app. lia. }
    assert (A2 : part (0 + zlen p + zlen CLS + zlen q) (0 + zlen p + zlen CLS + zlen q + zlen SEP) (p ++ CLS ++ q ++ SEP ++ z) = SEP).
    { replace (p ++ CLS ++ q ++ SEP ++ z) with ((p ++ CLS ++ q) ++ SEP ++ z) by (now rewrite <- !app_assoc). apply part_mid; rewrite ?zlen_app; lia. }
    rewrite A1, A2. assert (Pl : plain_item (p ++ CLS ++ q) = [(None, p ++ CLS ++ q)]) by (destruct p; reflexivity). rewrite Pl. cbn [app]. do 2 f_equal. rewrite Lw. destruct z as [|y z'].
    - replace (_ =? _) with true by (cbn; lia). reflexivity.
    - set (z := y :: z') in *. assert (0 < zlen z) by (unfold zlen, z; cbn; lia). replace (_ =? _) with false by lia. cbn [map fst snd]. change (plain_item z) with [(@None Z, z)].
      assert (A3 : part (0 + zlen p + zlen CLS + zlen q + zlen SEP) (zlen p + zlen CLS + zlen q + zlen SEP + zlen z) (p ++ CLS ++ q ++ SEP ++ z) = z); [|now rewrite A3].
      replace (p ++ CLS ++ q ++ SEP ++ z) with ((p ++ CLS ++ q ++ SEP) ++ z ++ []) by (now rewrite <- !app_assoc, app_nil_r). apply part_mid; rewrite ?zlen_app; lia.
  Qed.

  Lemma plain_no_special x l : plain_ids u mn lower uncased v x l -> ~ In c l.
  Proof.
    intros (ls & F & ->) H. apply in_concat in H as (l & Hl & Hc).
    assert (X : exists w, In w (bert_words u (g x)) /\ word_ids v w l) by (unfold g; revert Hl; clear -F; induction F as [|w l' ws ls H F IH]; intros Hl; [destruct Hl|]; destruct Hl as [->|Hl]; [exists w; split; [now left|exact H]|destruct (IH Hl) as (w' & A & B); exists w'; split; [now right|exact B]]).
    destruct X as (w & Hw & Wi). assert (T : exists ts, wp_tokenize wp w = Ok ts /\ map t_id ts = l).
    { destruct Wi as [(qs & L & G & ->)|(Nk & unk & Eu & ->)].
      - exists (piece_tokens [35; 35]%N true 0 qs). split; [exact (wp_greedy wp w qs L G)|apply piece_ids].
      - exists [Tok unk [91; 85; 78; 75; 93]%N (0, zlen (runes w))]. split; [|reflexivity]. rewrite wp_unk_case.
        + change (wp_vocab wp) with v. change (wp_unk wp) with [91; 85; 78; 75; 93]%N. now rewrite Eu.
        + destruct (Z_lt_dec (wp_max wp) (zlen (runes w))) as [Lt|Ge]; [now left|right]. intros qs G. apply Nk. split; [change (wp_max wp) with 100 in Ge; lia|now exists qs]. }
    destruct T as (ts & Et & <-). apply in_map_iff in Hc as (t & It & Ht). pose proof (wp_values wp w ts Et) as Va. rewrite Forall_forall in Va. specialize (Va t Ht). rewrite It in Va.
    assert (Vw : valid_utf8 w) by (unfold bert_words in Hw; apply in_map_iff in Hw as (y & <- & Hy); pose proof (documented_keeps u PTBert (bert_pieces u) eq_refl scalar (runes (g x)) (runes_scalar (g x))) as Fy; rewrite Forall_forall in Fy; exists y; split; [now apply Fy|reflexivity]).
    pose proof (pieces_of wp w ts Vw Et) as Pi. rewrite Forall_forall in Pi. destruct (bert_piece_plain v order u is_word cc mn lower w (g x) Hw _ (Pi t Ht)) as (_ & _ & Q). apply Q. exact (ids_inj v Ni _ _ _ Va Ec).
  Qed.

  Lemma bert_swallows p q z ot add : ot <> OInvalid -> Forall clean [p; q; z] -> Forall (free_of [MASK; SEP; CLS]) [p; q; z] ->
    Forall (bert_reads cc mn lower true uncased true) [p ++ CLS ++ q; z] ->
    exists r e l, bert u is_word cc mn lower wp uncased = Ok r /\ tk_encode ss si (rd_tok r) ot (ISingle (Raw (p ++ CLS ++ q ++ SEP ++ z))) add = Ok (Some e) /\
      special_ids u mn lower uncased v (p ++ CLS ++ q) [((SEP, s), z)] l /\ ids e = in_frame add c s l /\ ~ In c l.
  Proof.
    intros Hot Cp Fr B. apply Forall_cons_iff in Cp as [C1 Cp]. apply Forall_cons_iff in Cp as [C2 Cp]. apply Forall_cons_iff in Cp as [C3 _].
    assert (Cc : clean CLS) by (apply special_clean; cbn; auto). assert (Cs : clean SEP) by (apply special_clean; cbn; auto).
    destruct (bert_cut_ids (p ++ CLS ++ q ++ SEP ++ z) (p ++ CLS ++ q) [((SEP, s), z)] ot add) as (r & e & l & H1 & H2 & H3 & H4); auto.
    - destruct p; discriminate.
    - repeat (apply clean_app; [assumption|]). exact C3.
    - repeat constructor; [|exact C3]. repeat (apply clean_app; [assumption|]). exact C2.
    - now apply bert_cls_cut.
    - exists r, e, l. repeat (split; [assumption|]). destruct H3 as (l0 & ls & P0 & F & ->). inversion F as [|? y ? ls' (k0 & P1 & ->) F']; subst. inversion F'; subst. cbn [concat fst snd]. rewrite app_nil_r.
      intros H. apply in_app_or in H as [H|[H|H]]; [exact (plain_no_special _ _ P0 H)|destruct ids_apart as (D & _); congruence|exact (plain_no_special _ _ P1 H)].
  Qed.
End Bert.
