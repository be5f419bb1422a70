(** What the BERT tokenizer decodes (C74). *)
From Verif Require Import Base BaseProofs Utf8Model Utf8Proofs NormalizedModel NormalizedSpec NormalizedProofs NormalizedInvProofs NormalizedExactProofs NormalizedOpProofs EncodingModel EncodingSpec EncodingProofs
  BpeModel BpeTokProofs BpeSaveModel WordPieceModel WordPieceSpec WordPieceProofs AddedVocabModel AddedVocabSpec AddedFindProofs AddedPatternModel AddedPatternProofs DecoderModel DecoderProofs PreTokenizedModel PreTokenizedSpec PreTokenizedProofs
  PreTokenizerModel PreTokenizerSpec ChunkProofs PreTokenizerProofs ProcessorModel ExpandedProofs BertNormModel BertNormSpec BertNormProofs PipelineModel PipelineSpec PipelineProofs PlacedProofs TokensSpec TokensProofs
  ReturnSpec ReturnProofs RoundTripSpec RoundTripEndProofs RoundTripProofs PretrainedModel PretrainedProofs WordsSpec WordsProofs WordsGlueProofs TurnedProofs.
Open Scope Z_scope.

(** ** The words *)
Lemma stay_shape (sep : N -> bool) rs : Forall (fun g => g <> [] /\ ((exists c, g = [c] /\ sep c = true) \/ Forall (fun c => sep c = false) g)) (segments (stay Isolated sep) rs).
Proof.
  induction rs as [|x rs IH]; [constructor|]. cbn [segments]. assert (One : [x] <> [] /\ ((exists c, [x] = [c] /\ sep c = true) \/ Forall (fun c => sep c = false) [x])).
  { split; [discriminate|]. destruct (sep x) eqn:E; [left; eauto|right; repeat constructor; exact E]. }
  destruct (segments (stay Isolated sep) rs) as [|[|y g] gs]; [constructor; auto|constructor; auto|].
  apply Forall_cons_iff in IH as [[_ H] F]. destruct (stay Isolated sep x y) eqn:J.
  - constructor; [|exact F]. split; [discriminate|]. right. unfold stay in J. cbn [joins] in J. rewrite orb_false_r in J. apply andb_true_iff in J as [J1 J2]. apply negb_true_iff in J1, J2.
    destruct H as [(c & E & Hc)|H]; [injection E as -> ->; congruence|]. constructor; assumption.
  - constructor; [exact One|]. constructor; [|exact F]. split; [discriminate|exact H].
Qed.
Lemma bert_shape u rs g : In g (bert_pieces u rs) -> g <> [] /\ Forall (fun c => re_space c = false) g /\ incl g rs /\ ((exists c, g = [c] /\ is_punct u c = true) \/ Forall (fun c => is_punct u c = false) g).
Proof.
  intros H. unfold bert_pieces in H. apply in_flat_map in H as (w & Hw & H). pose proof (stay_shape (is_punct u) w) as S. rewrite Forall_forall in S. destruct (S g H) as [Ne K].
  split; [exact Ne|]. assert (I : incl g w) by (intros c Hc; rewrite <- (segments_concat (stay Isolated (is_punct u)) w); apply in_concat; eauto).
  unfold words_of in Hw. apply filter_In in Hw as [Hw Hs]. split; [|split; [|exact K]].
  - apply Forall_forall. intros c Hc. unfold all_seg in Hs. rewrite forallb_forall in Hs. apply negb_true_iff. apply Hs, I, Hc.
  - intros c Hc. rewrite <- (segments_concat (fun c d => Bool.eqb (re_space c) (re_space d)) rs). apply in_concat. exists w. split; [exact Hw|now apply I].
Qed.
Lemma low_byte b rs : (b < 128)%N -> In b (encode rs) -> In b rs.
Proof.
  intros Hb. induction rs as [|c rs IH]; [now intros []|]. rewrite encode_cons. intros H. apply in_app_or in H as [H|H]; [|right; auto]. left.
  destruct (N.lt_ge_cases c 128) as [L|L].
  - unfold encode_rune in H. replace (c <? 128)%N with true in H by (symmetry; now apply N.ltb_lt). destruct H as [H|[]]. exact H.
  - pose proof (high_bytes c L) as F. rewrite Forall_forall in F. specialize (F b H). lia.
Qed.
Lemma one_rune b1 l z c : (b1 < 128)%N -> encode [c] = (b1 :: l) ++ z -> c = b1 /\ l = [] /\ z = [].
Proof.
  intros Hb E. unfold encode in E. cbn [map concat] in E. rewrite app_nil_r in E. destruct (N.lt_ge_cases c 128) as [L|L].
  - unfold encode_rune in E. replace (c <? 128)%N with true in E by (symmetry; now apply N.ltb_lt). injection E as -> E. symmetry in E. apply app_eq_nil in E. tauto.
  - pose proof (high_bytes c L) as F. rewrite E in F. inversion F; subst. lia.
Qed.
Lemma ascii_punct u b : ((33 <= b <= 47) \/ (58 <= b <= 64) \/ (91 <= b <= 96))%N -> is_punct u b = true.
Proof. intros H. unfold is_punct. assert (X : ((33 <=? b) && (b <=? 47) || (58 <=? b) && (b <=? 64) || (91 <=? b) && (b <=? 96))%N = true) by lia. now rewrite X. Qed.
(** What begins with punctuation is just that. *)
Lemma begins_punct u rs g b l z : In g (bert_pieces u rs) -> ((33 <= b <= 47) \/ (58 <= b <= 64) \/ (91 <= b <= 96))%N -> encode g = (b :: l) ++ z -> l = [] /\ z = [].
Proof.
  intros H P E. destruct (bert_shape u rs g H) as (_ & _ & _ & [(c & -> & _)|F]).
  - destruct (one_rune b l z c) as (_ & X); [lia|exact E|exact X].
  - exfalso. assert (I : In b g) by (apply low_byte; [lia|rewrite E; now left]). rewrite Forall_forall in F. pose proof (ascii_punct u b P) as X. now rewrite (F b I) in X.
Qed.
Lemma contains_punct u rs g b : In g (bert_pieces u rs) -> ((33 <= b <= 47) \/ (58 <= b <= 64) \/ (91 <= b <= 96))%N -> In b (encode g) -> encode g = [b].
Proof.
  intros H P E. destruct (bert_shape u rs g H) as (_ & _ & _ & [(c & -> & _)|F]).
  - apply low_byte in E; [|lia]. destruct E as [->|[]]. unfold encode. cbn [map concat]. unfold encode_rune. replace (b <? 128)%N with true by (symmetry; apply N.ltb_lt; lia). reflexivity.
  - exfalso. assert (I : In b g) by (apply low_byte; [lia|exact E]). rewrite Forall_forall in F. pose proof (ascii_punct u b P) as X. now rewrite (F b I) in X.
Qed.
Lemma bert_neat u rs g : In g (bert_pieces u rs) -> neat (encode g).
Proof.
  intros H. split.
  - intros X. apply low_byte in X; [|lia]. destruct (bert_shape u rs g H) as (_ & F & _). rewrite Forall_forall in F. specialize (F _ X). discriminate F.
  - destruct (in_dec (list_eq_dec N.eq_dec) (encode g) stops) as [I|I]; [now left|right]. intros b z Hb E. apply I. clear I.
    assert (K : forall c, In c b -> ((33 <= c <= 47) \/ (58 <= c <= 64) \/ (91 <= c <= 96))%N -> encode g = [c]).
    { intros c Hc P. apply (contains_punct u rs g c H P). rewrite E. apply in_or_app. now left. }
    cbn in Hb. destruct Hb as [<-|[<-|[<-|[<-|Hb]]]]; try (rewrite (K _ (or_introl eq_refl)) by lia; cbn; tauto).
    exfalso. assert (I39 : In 39%N b) by (destruct Hb as [<-|[<-|[<-|[<-|[<-|[]]]]]]; cbn; tauto). rewrite (K _ I39) in E by lia. apply (f_equal (@length _)) in E. rewrite app_length in E.
    destruct Hb as [<-|[<-|[<-|[<-|[<-|[]]]]]]; cbn in E; lia.
Qed.
Lemma bert_hashes u rs g : In g (bert_pieces u rs) -> starts_with HASHES (encode g) = false.
Proof.
  intros H. destruct (starts_with HASHES (encode g)) eqn:E; [|reflexivity]. apply starts_ex in E as (z & E). destruct (begins_punct u rs g 35 [35%N] z H) as [X _]; [lia|exact E|discriminate].
Qed.


(** ** The tokenizer *)
Lemma bert_made u is_word cc mn lower wp c s k : vget CLS (wp_vocab wp) = Some c -> vget SEP (wp_vocab wp) = Some s -> vget MASK (wp_vocab wp) = Some k -> c <> s -> c <> k -> s <> k ->
  exists av, bert u is_word cc mn lower wp false = Ok (Ready (Tkz (re_matching [(plain_re MASK, k); (plain_re SEP, s); (plain_re CLS, c)]) (re_matching [])
        (Some (bert_normalize cc mn lower (BN true true true false))) (Some (pre_tokenize u PTBert)) (Some (wp_model wp)) (Some (PBert (PTok CLS c) (PTok SEP s))) None None) (wp_base wp) av ByNew (DWordPiece HASHES true)) /\
    av_map_r av = [(k, MASK); (s, SEP); (c, CLS)] /\ av_set av = [CLS; SEP; MASK].
Proof.
  intros Ec Es Ek N1 N2 N3.
  assert (M1 : (c =? s) = false) by lia. assert (M2 : (c =? k) = false) by lia. assert (M3 : (s =? k) = false) by lia.
  assert (M4 : (s =? c) = false) by lia. assert (M5 : (k =? c) = false) by lia. assert (M6 : (k =? s) = false) by lia.
  unfold bert, added_by, add_history, add_step, add_special_tokens, add_tokens, refresh, looked_for.
  cbn. do 9 (rewrite ?Ec, ?Es, ?Ek, ?M1, ?M2, ?M3, ?M4, ?M5, ?M6, ?Z.eqb_refl; cbn). eexists. split; [reflexivity|]. split; reflexivity.
Qed.

(** ** Any tokenizer with words and WordPiece *)
Lemma put_words (clean : bool) wp m av skip ws tss : Forall valid_utf8 ws -> Forall (fun w => starts_with (wp_prefix wp) w = false) ws -> starts_with (wp_prefix wp) (wp_unk wp) = false ->
  Forall2 (fun w ts => ts <> [] /\ wp_tokenize wp w = Ok ts) ws tss ->
  (forall w v id, In w ws -> piece_of wp w v -> vget v (wp_vocab wp) = Some id -> shown m av skip id = Some v) ->
  (clean = true -> Forall neat ws /\ neat (wp_unk wp)) ->
  exists xs, Forall2 (seen_as wp) ws xs /\ concat (wpd_chain (wp_prefix wp) clean (shown_all m av skip (map t_id (concat tss)))) = put_together clean xs.
Proof.
  intros V Hp Hu F Nm C. destruct clean.
  - destruct (C eq_refl) as [Nw Nu]. exact (words_tidied wp m av skip ws tss V Hp Hu F Nm Nw Nu).
  - exact (words_decoded wp m av skip ws tss V Hp Hu F Nm).
Qed.
Lemma always_some (f : str -> res (list token)) w ts : always f w = Ok (Some ts) -> f w = Ok ts.
Proof. unfold always. destruct (f w); cbn; congruence. Qed.
Lemma part_words_valid ss si t u pre cut w ws : documented u pre = Some cut -> part_words ss si t cut w ws -> Forall valid_utf8 ws.
Proof.
  intros D (n & m & _ & _ & _ & _ & ->). destruct (ns_norm m) as [|c x] eqn:E; [constructor|]. rewrite <- E. clear E. apply Forall_forall. intros y Hy. apply in_flat_map in Hy as (z & _ & Hy). apply in_map_iff in Hy as (g & <- & Hg).
  pose proof (documented_keeps u pre cut D scalar (runes z) (runes_scalar z)) as F. rewrite Forall_forall in F. exists g. split; [now apply F|reflexivity].
Qed.
Lemma Forall2_right {A B} (R : A -> B -> Prop) l l' y : Forall2 R l l' -> In y l' -> exists x, R x y.
Proof. induction 1 as [|a b l l' H F IH]; intros I; [destruct I|]. destruct I as [<-|I]; [eauto|auto]. Qed.
Lemma input_words_valid ss si t u pre cut x ws : documented u pre = Some cut -> input_words ss si t cut x ws -> Forall valid_utf8 ws.
Proof.
  intros D (l & F & ->). apply Forall_forall. intros w Hw. apply in_concat in Hw as (ws & Hs & Hw). 
  destruct (Forall2_right _ _ _ _ F Hs) as (s & l' & F' & ->). apply in_concat in Hw as (ws & Hs' & Hw). destruct (Forall2_right _ _ _ _ F' Hs') as (p & T).
  pose proof (part_words_valid ss si t u pre cut p ws D T) as G. rewrite Forall_forall in G. now apply G.
Qed.

Section Words.
  Variable ss si : list io_pair -> list io_pair.
  Hypothesis HS : sorts start_key ss.
  Hypothesis HI : sorts id_key si.
  Lemma words_restored t u pre cut wp m av skip clean ot x add e : matching_ok (tk_raw t) -> matching_ok (tk_normalized t) -> with_default normalizer_ok (tk_normalizer t) ->
    tk_pre t = Some (pre_tokenize u pre) -> documented u pre = Some cut -> tk_model t = Some (always (wp_tokenize wp)) ->
    added_hidden ss si t (shown m av skip) -> ending_hides (shown m av skip) t (dual x) add -> clean_inputs x -> tk_encode ss si t ot x add = Ok (Some e) ->
    exists ws, input_words ss si t cut x ws /\
      (Forall (fun w => starts_with (wp_prefix wp) w = false) ws -> starts_with (wp_prefix wp) (wp_unk wp) = false ->
       (forall w v id, In w ws -> piece_of wp w v -> vget v (wp_vocab wp) = Some id -> shown m av skip id = Some v) ->
       (clean = true -> Forall neat ws /\ neat (wp_unk wp)) ->
       exists xs, Forall2 (seen_as wp) ws xs /\ decode_ids m av (Some (decode ByNew (DWordPiece (wp_prefix wp) clean))) (ids e) skip = Ok (put_together clean xs)).
  Proof.
    intros M1 M2 No Pre Doc Fm Ah Eh C E. destruct (encode_shown ss si HS HI t u pre cut _ m av skip M1 M2 No Pre Doc Fm Ah ot x add e Eh C E) as (ws & tss & W & F & S0).
    exists ws. split; [exact W|]. intros Hp Hu Nm Cl.
    assert (F' : Forall2 (fun w ts => ts <> [] /\ wp_tokenize wp w = Ok ts) ws tss) by (clear -F; induction F as [|w ts ws tss [N E] F IH]; constructor; [split; [exact N|now apply always_some]|exact IH]).
    destruct (put_words clean wp m av skip ws tss (input_words_valid ss si t u pre cut x ws Doc W) Hp Hu F' Nm Cl) as (xs & X & D). exists xs. split; [exact X|].
    unfold decode_ids. rewrite tokens_of_shown, S0. cbn [decode decode_chain bind]. now rewrite D.
  Qed.
End Words.

(** ** BERT *)
Section Bert.
  Variable ss si : list io_pair -> list io_pair.
  Hypothesis HS : sorts start_key ss.
  Hypothesis HI : sorts id_key si.
  Variables (v order : vocab) (u : unicode) (is_word cc mn : N -> bool) (lower : str -> str) (c s k : Z).
  Hypothesis Nk : NoDup (map fst v).
  Hypothesis Ni : NoDup (map snd v).
  Hypothesis P : Permutation order v.
  Hypothesis Ec : vget CLS v = Some c.
  Hypothesis Es : vget SEP v = Some s.
  Hypothesis Ek : vget MASK v = Some k.
  Hypothesis Eu : vget UNK v <> None.
  Hypothesis Mo : model_ok (wp_model (wp_from_file v order)).
  Hypothesis Mr : model_returns (wp_model (wp_from_file v order)).
  Hypothesis Po : pre_ok (pre_tokenize u PTBert).
  Hypothesis Pr : pre_returns (pre_tokenize u PTBert).

  Let wp := wp_from_file v order.
  Lemma ids_inj a b id : vget a v = Some id -> vget b v = Some id -> a = b.
  Proof. intros A B. apply aget_str_in in A, B. exact (nodup_ids v a b id Ni A B). Qed.
  Lemma bert_piece_plain w x : In w (bert_words u x) -> forall y, piece_of wp w y -> y <> MASK /\ y <> SEP /\ y <> CLS.
  Proof.
    intros Hw y [->|(a & b & z & E & Nb & K)]; [split; [discriminate|split; discriminate]|]. unfold bert_words in Hw. apply in_map_iff in Hw as (g & <- & Hg).
    destruct K as [[-> ->]|[_ ->]].
    - cbn [app] in E. assert (K : forall l, b <> (91%N :: 1%N :: l) /\ forall d, b = 91%N :: d :: l -> False).
      { intros l. split; [|intros d X]; [intros X|]; rewrite X in E; destruct (begins_punct u (runes x) g 91 (_ :: l) z Hg ltac:(lia) E) as [Y _]; discriminate Y. }
      unfold MASK, SEP, CLS. split; [|split]; intros X; exact (proj2 (K _) _ X).
    - split; [|split]; intros X; discriminate X.
  Qed.

  Lemma bert_decodes ot x add : clean_inputs x -> ot <> OInvalid ->
    Forall (fun w => bert_reads cc mn lower true false true w /\ forall t, In t [MASK; SEP; CLS] -> forall a z, w <> a ++ t ++ z) (encode_texts x) ->
    exists r e xs, bert u is_word cc mn lower wp false = Ok r /\ tk_encode ss si (rd_tok r) ot x add = Ok (Some e) /\
      Forall2 (seen_as wp) (flat_map (fun w => bert_words u (bert_text true false true mn lower (runes w))) (encode_texts x)) xs /\ rd_decode r (ids e) true = Ok (tidy xs).
  Proof.
    intros C Hot F. rewrite Forall_forall in F.
    assert (D1 : c <> s) by (intros ->; pose proof (ids_inj _ _ _ Ec Es); discriminate). assert (D2 : c <> k) by (intros ->; pose proof (ids_inj _ _ _ Ec Ek); discriminate).
    assert (D3 : s <> k) by (intros ->; pose proof (ids_inj _ _ _ Es Ek); discriminate).
    destruct (bert_made u is_word cc mn lower wp c s k Ec Es Ek D1 D2 D3) as (av & Er & A1 & A2). set (r := Ready _ _ _ _ _) in Er. exists r.
    set (t := rd_tok r). set (f := bert_normalize cc mn lower (BN true true true false)).
    assert (M1 : matching_ok (tk_raw t)) by (apply re_matching_ok; repeat constructor; cbn [fst]; (try discriminate); [exists MASK|exists SEP|exists CLS]; (split; [repeat constructor; unfold scalar; lia|reflexivity])).
    assert (M2 : matching_ok (tk_normalized t)) by (apply re_matching_ok; constructor).
    assert (Hid : forall i, In i [k; s; c] -> shown (wp_base wp) av true i = None).
    { intros i Hi. unfold shown, av_id_to_token, is_special. rewrite A1, A2. cbn [aget].
      destruct (Z.eqb_spec i k); [reflexivity|]. destruct (Z.eqb_spec i s); [reflexivity|]. destruct (Z.eqb_spec i c); [reflexivity|]. cbn in Hi. intuition congruence. }
    destruct (turned_words ss si HS HI t u PTBert (bert_pieces u) f (fun w => bert_text true false true mn lower (runes w)) (always (wp_tokenize wp)) (wp_base wp) av ot x add) as (e & tss & Ee & G & Sh); auto.
    { intros n Wn U Ne Hn. exact (bert_turned cc mn lower true true true false n Wn U Ne (proj1 (F _ Hn))). }
    { intros w Hw. exact (bert_text_empty cc mn lower true false true w (clean_texts x C w Hw) (proj1 (F w Hw))). }
    { intros w Hw. destruct (F w Hw) as [_ A]. cbn [t r rd_tok tk_raw re_matching mt_find map fst].
      repeat constructor; apply absent; try discriminate; apply A; cbn; tauto. }
    { intros w _. constructor. }
    { intros set w i y Hs Hi. assert (Q : In i (mt_ids set)) by (apply (found_ids ss si HS HI set w i y); [destruct Hs as [-> | ->]; intros z; reflexivity|exact Hi]).
      destruct Hs as [-> | ->]; [apply Hid; exact Q|destruct Q]. }
    { split; [constructor|split; exact I]. }
    { split; [intros _; split; apply Hid; cbn; tauto|split; [reflexivity|exact I]]. }
    set (ws := flat_map _ _) in G. change (flat_map (fun w => bert_words u (bert_text true false true mn lower (runes w))) (encode_texts x)) with ws.
    assert (Hp : Forall (fun w => exists z, In w (bert_words u z)) ws).
    { apply Forall_forall. intros w Hw. apply in_flat_map in Hw as (z & _ & Hw). eexists. exact Hw. }
    assert (F' : Forall2 (fun w ts => ts <> [] /\ wp_tokenize wp w = Ok ts) ws tss) by (clear -G; induction G as [|w ts ws tss [N E] F IH]; constructor; [split; [exact N|now apply always_some]|exact IH]).
    destruct (put_words true wp (wp_base wp) av true ws tss) as (xs & X & Dx); [| | |exact F'| | |].
    - eapply Forall_impl; [|exact Hp]. intros w (z & Hw). apply in_map_iff in Hw as (g & <- & Hg). exists g. split; [|reflexivity].
      pose proof (documented_keeps u PTBert (bert_pieces u) eq_refl scalar (runes z) (runes_scalar z)) as Fs. rewrite Forall_forall in Fs. exact (Fs g Hg).
    - eapply Forall_impl; [|exact Hp]. intros w (z & Hw). apply in_map_iff in Hw as (g & <- & Hg). exact (bert_hashes u _ g Hg).
    - reflexivity.
    - intros w y id Hw Hy Hv. rewrite Forall_forall in Hp. destruct (Hp w Hw) as (z & Hz). destruct (bert_piece_plain w z Hz y Hy) as (Q1 & Q2 & Q3).
      unfold shown, av_id_to_token. rewrite A1. cbn [aget]. destruct (Z.eqb_spec id k); [subst; elim Q1; exact (ids_inj _ _ _ Hv Ek)|]. destruct (Z.eqb_spec id s); [subst; elim Q2; exact (ids_inj _ _ _ Hv Es)|].
      destruct (Z.eqb_spec id c); [subst; elim Q3; exact (ids_inj _ _ _ Hv Ec)|]. change (bm_i2t (wp_base wp) id) with (vrget id (build_vocab_r order)). rewrite (proj1 (lookup_inverse v order Nk Ni P y id) Hv).
      unfold is_special. rewrite A2. cbn [existsb]. rewrite !(proj2 (str_eqb_neq _ _)) by assumption. reflexivity.
    - intros _. split; [|split; [cbn; intuition discriminate|right; intros b z Hb X; cbn in Hb; intuition (subst b; discriminate X)]].
      eapply Forall_impl; [|exact Hp]. intros w (z & Hw). apply in_map_iff in Hw as (g & <- & Hg). exact (bert_neat u _ g Hg).
    - exists e, xs. split; [exact Er|]. split; [exact Ee|]. split; [exact X|]. unfold rd_decode. cbn [rd_model rd_added rd_made rd_decoder r]. unfold decode_ids. rewrite tokens_of_shown, Sh. cbn [decode decode_chain bind]. change HASHES with (wp_prefix wp). now rewrite Dx.
  Qed.
End Bert.

(** Spaces that come back. *)
Lemma tidy_space x xs y : In y xs -> ~ In y stops -> In 32%N (tidy (x :: xs)).
Proof.
  intros H N. cbn [tidy]. apply in_or_app. right. apply in_concat. exists (32%N :: y). split; [|now left]. apply in_map_iff. exists y. split; [|exact H]. destruct (in_dec (list_eq_dec N.eq_dec) y stops); [now destruct N|reflexivity].
Qed.
