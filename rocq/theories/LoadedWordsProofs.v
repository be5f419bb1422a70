(** BERT tokenizers loaded from files decode to the words of the text (C77). *)
From Coq Require Import String QArith.
From Verif Require Import Base BaseProofs Utf8Model Utf8Proofs NormalizedModel NormalizedSpec NormalizedProofs NormalizedInvProofs NormalizedExactProofs NormalizedOpProofs EncodingModel EncodingProofs BpeModel BpeSaveModel BpeTokProofs
  WordPieceModel WordPieceSpec WordPieceProofs AddedVocabModel AddedVocabSpec AddedVocabProofs AddedFindProofs DecoderModel DecoderProofs PreTokenizerModel PreTokenizerSpec ProcessorModel PreTokenizedModel PreTokenizedSpec PipelineModel PipelineSpec PipelineProofs PlacedProofs PlacedNormProofs
  AddedPatternModel AddedPatternProofs BertNormModel BertNormSpec SpmModel UnicodeNormModel PretrainedModel ConfigModel ConfigSpec ConfigProofs ConfigLoadProofs
  BertNormProofs ExpandedProofs PreTokenizerProofs TokensProofs TokensSpec ReturnSpec ReturnProofs RoundTripSpec RoundTripEndProofs RoundTripProofs WordsSpec WordsProofs WordsGlueProofs TurnedProofs BertWordsProofs LoadedModel LoadedSpec LoadedAddedProofs LoadedProofs LoadedWordsSpec WordLevelSpec BareProofs.
Open Scope Z_scope.
Open Scope list_scope.

(** ** Words of which some are hidden *)
Definition part_of (wp : wordpiece) (w v : str) : Prop :=
  exists a y z, w = a ++ y ++ z /\ y <> [] /\ (a = [] /\ v = y \/ a <> [] /\ v = wp_prefix wp ++ y).
Lemma parts_of wp w : forall ps, valid_utf8 w -> WordPieceSpec.greedy (wp_vocab wp) (wp_prefix wp) true (runes w) ps ->
  Forall (fun t => part_of wp w (t_value t)) (piece_tokens (wp_prefix wp) true 0 ps).
Proof.
  intros ps V G.
  assert (K : forall first rs ps, WordPieceSpec.greedy (wp_vocab wp) (wp_prefix wp) first rs ps -> forall a pos, w = encode a ++ encode rs -> (first = true <-> encode a = []) -> Forall (fun t => part_of wp w (t_value t)) (piece_tokens (wp_prefix wp) first pos ps)).
  { clear. induction 1 as [|first q rest id ps Hq Hid Hm G IH]; intros a pos Ew Ha; [constructor|]. cbn [piece_tokens].
    assert (Nq : encode q <> []) by (destruct q as [|r q]; [now destruct Hq|]; rewrite encode_cons; intros X; apply app_eq_nil in X as [X _]; now apply (encode_rune_nonempty r)).
    rewrite encode_app in Ew. constructor.
    - exists (encode a), (encode q), (encode rest). split; [exact Ew|]. split; [exact Nq|]. cbn [t_value]. unfold piece_key. destruct first; [left|right]; (split; [|reflexivity]); intuition congruence.
    - apply (IH (a ++ q)); [now rewrite encode_app, <- app_assoc|]. split; [discriminate|]. rewrite encode_app. intros X. apply app_eq_nil in X as [_ X]. congruence. }
  apply (K true _ _ G []); [now rewrite valid_utf8_runes|easy].
Qed.

Section Hidden.
  Variables (wp : wordpiece) (name : Z -> option str) (hidden : Prop).
  Hypothesis Hd : hidden \/ ~ hidden.
  (** Tokens of parts are shown; the unknown token is if it is not hidden. *)
  Variable good : str -> Prop.
  Hypothesis Nm : forall w v id, good w -> part_of wp w v -> vget v (wp_vocab wp) = Some id -> name id = Some v.
  Hypothesis Nh : hidden -> forall id, vget (wp_unk wp) (wp_vocab wp) = Some id -> name id = None.
  Hypothesis Ns : ~ hidden -> forall id, vget (wp_unk wp) (wp_vocab wp) = Some id -> name id = Some (wp_unk wp).
  Local Notation names ts := (flat_map (fun t => match name (t_id t) with Some s => [s] | None => [] end) ts).
  Definition back (w : str) (xs : list str) : Prop := known wp w /\ xs = [w] \/ ~ known wp w /\ (hidden /\ xs = [] \/ ~ hidden /\ xs = [wp_unk wp]).

  Lemma shown_values ts : (forall t, In t ts -> name (t_id t) = Some (t_value t)) -> names ts = values ts.
  Proof. induction ts as [|t ts IH]; intros H; [reflexivity|]. cbn [flat_map values map]. rewrite (H t (or_introl eq_refl)). cbn [app]. f_equal. apply IH. intros; apply H; now right. Qed.
  Lemma word_back w ts : valid_utf8 w -> good w -> ts <> [] -> wp_tokenize wp w = Ok ts ->
    (known wp w /\ names ts = values ts) \/ (~ known wp w /\ ((hidden /\ names ts = []) \/ (~ hidden /\ names ts = values ts))).
  Proof.
    intros V G Ne E.
    assert (U : forall n, wp_unknown wp n = Ok ts -> (hidden /\ names ts = []) \/ (~ hidden /\ names ts = values ts)).
    { intros n. unfold wp_unknown. destruct (vget (wp_unk wp) (wp_vocab wp)) as [id|] eqn:Ev; [|discriminate]. intros [= <-]. cbn [flat_map values map t_id t_value]. destruct Hd as [H|H]; [left|right]; (split; [exact H|]).
      - rewrite (Nh H id eq_refl). reflexivity.
      - rewrite (Ns H id eq_refl). reflexivity. }
    destruct (wp_cases wp w) as [H|[H|(ps & Gr & L)]].
    - right. rewrite wp_unk_case in E by auto. split; [intros [X _]; lia|exact (U _ E)].
    - right. rewrite wp_unk_case in E by auto. split; [intros [_ (ps & X)]; exact (H ps X)|exact (U _ E)].
    - left. split; [split; [exact L|eauto]|]. pose proof (wp_values wp w ts E) as Q. rewrite (wp_greedy _ _ _ L Gr) in E. injection E as <-. pose proof (parts_of wp w ps V Gr) as P.
      apply shown_values. intros t Ht. rewrite Forall_forall in P, Q. exact (Nm w _ _ G (P t Ht) (Q t Ht)).
  Qed.
  (** Leaving out the hidden words. *)
  Lemma words_back ws tss : Forall valid_utf8 ws -> Forall good ws -> Forall2 (fun w ts => ts <> [] /\ wp_tokenize wp w = Ok ts) ws tss ->
    exists ws' tss', incl ws' ws /\ Forall2 (fun w ts => ts <> [] /\ wp_tokenize wp w = Ok ts) ws' tss' /\ names (concat tss) = concat (map values tss') /\
      (hidden -> Forall (known wp) ws') /\
      forall xs, Forall2 (seen_as wp) ws' xs -> exists xss, Forall2 back ws xss /\ concat xss = xs.
  Proof.
    intros V G F. revert V G. induction F as [|w ts ws tss [Ne E] F IH]; intros V G.
    - exists [], []. split; [easy|]. split; [constructor|]. split; [reflexivity|]. split; [constructor|]. intros xs H. inversion H; subst. exists []. split; [constructor|reflexivity].
    - apply Forall_cons_iff in V as [V1 V2]. apply Forall_cons_iff in G as [G1 G2]. destruct (IH V2 G2) as (ws' & tss' & I & F' & N & Kn & B). cbn [concat]. rewrite flat_map_app, N.
      destruct (word_back w ts V1 G1 Ne E) as [[K Ev]|[K [[H Ev]|[H Ev]]]]; rewrite Ev.
      + exists (w :: ws'), (ts :: tss'). split; [intros x [->|Hx]; [now left|right; auto]|]. split; [constructor; auto|]. split; [reflexivity|]. split; [intros h; constructor; [exact K|auto]|].
        intros xs X. inversion X as [|? x ? xs' S X']; subst. destruct (B _ X') as (xss & B1 & <-). destruct S as [[_ ->]|[S _]]; [|contradiction]. exists ([w] :: xss). split; [constructor; [left; auto|exact B1]|reflexivity].
      + exists ws', tss'. split; [intros x Hx; right; auto|]. split; [exact F'|]. split; [reflexivity|]. split; [exact Kn|]. intros xs X. destruct (B _ X) as (xss & B1 & <-). exists ([] :: xss). split; [constructor; [right; auto|exact B1]|reflexivity].
      + exists (w :: ws'), (ts :: tss'). split; [intros x [->|Hx]; [now left|right; auto]|]. split; [constructor; auto|]. split; [reflexivity|]. split; [intros h; contradiction|].
        intros xs X. inversion X as [|? x ? xs' S X']; subst. destruct (B _ X') as (xss & B1 & <-). destruct S as [[S _]|[_ ->]]; [contradiction|]. exists ([wp_unk wp] :: xss). split; [constructor; [right; auto|exact B1]|reflexivity].
  Qed.
End Hidden.

(** The unknown token does not matter if all words are known. *)
Definition with_unk (wp : wordpiece) (u : str) : wordpiece := WP (wp_vocab wp) (wp_vocab_r wp) u (wp_prefix wp) (wp_max wp).
Lemma known_tokens wp u w ts : known wp w -> wp_tokenize wp w = Ok ts -> wp_tokenize (with_unk wp u) w = Ok ts.
Proof. intros (L & ps & G) E. rewrite (wp_greedy wp _ _ L G) in E. rewrite (wp_greedy (with_unk wp u) w ps L G). exact E. Qed.
Lemma known_seen wp u w x : known wp w -> seen_as (with_unk wp u) w x -> seen_as wp w x.
Proof. intros K [[_ ->]|[N _]]; [now left|destruct N; exact K]. Qed.

Lemma glued (cleanup : bool) wp ws tss : Forall valid_utf8 ws -> Forall (fun w => starts_with (wp_prefix wp) w = false) ws -> starts_with (wp_prefix wp) (wp_unk wp) = false ->
  Forall2 (fun w ts => ts <> [] /\ wp_tokenize wp w = Ok ts) ws tss -> (cleanup = true -> Forall neat ws /\ neat (wp_unk wp)) ->
  exists xs, Forall2 (seen_as wp) ws xs /\ concat (wpd_chain (wp_prefix wp) cleanup (concat (map values tss))) = put_together cleanup xs.
Proof.
  intros V Hp Hu F C. destruct cleanup.
  - destruct (C eq_refl) as [N1 N2]. exact (values_tidied wp ws tss V Hp Hu F N1 N2).
  - exact (values_decoded wp ws tss V Hp Hu F).
Qed.
Lemma Forall_in {A} (P : A -> Prop) l l' : incl l' l -> Forall P l -> Forall P l'.
Proof. rewrite !Forall_forall. auto. Qed.
Lemma put_back (cleanup : bool) wp m av (hidden : Prop) ws tss : hidden \/ ~ hidden ->
  Forall valid_utf8 ws -> Forall (fun w => starts_with (wp_prefix wp) w = false) ws -> Forall neat ws -> (~ hidden -> starts_with (wp_prefix wp) (wp_unk wp) = false /\ neat (wp_unk wp)) -> starts_with (wp_prefix wp) [65%N] = false ->
  Forall2 (fun w ts => ts <> [] /\ wp_tokenize wp w = Ok ts) ws tss ->
  (forall w v id, In w ws -> part_of wp w v -> vget v (wp_vocab wp) = Some id -> shown m av true id = Some v) ->
  (hidden -> forall id, vget (wp_unk wp) (wp_vocab wp) = Some id -> shown m av true id = None) ->
  (~ hidden -> forall id, vget (wp_unk wp) (wp_vocab wp) = Some id -> shown m av true id = Some (wp_unk wp)) ->
  exists xss, Forall2 (back wp hidden) ws xss /\ concat (wpd_chain (wp_prefix wp) cleanup (shown_all m av true (map t_id (concat tss)))) = put_together cleanup (concat xss).
Proof.
  intros Hd V Hp Nw Hu P65 F Nm Nh Ns.
  destruct (words_back wp (shown m av true) hidden Hd (fun w => In w ws) Nm Nh Ns ws tss V (proj2 (Forall_forall _ _) (fun x H => H)) F) as (ws' & tss' & I & F' & N & Kn & B).
  assert (E : shown_all m av true (map t_id (concat tss)) = concat (map values tss')).
  { rewrite <- N. unfold shown_all. clear. induction (concat tss) as [|t l IH]; [reflexivity|]. cbn [map flat_map]. now rewrite IH. }
  rewrite E. assert (K : exists xs, Forall2 (seen_as wp) ws' xs /\ concat (wpd_chain (wp_prefix wp) cleanup (concat (map values tss'))) = put_together cleanup xs).
  { destruct Hd as [H|H].
    - specialize (Kn H). set (wp' := with_unk wp [65%N]). destruct (glued cleanup wp' ws' tss') as (xs & X & D).
      + exact (Forall_in _ _ _ I V).
      + exact (Forall_in _ _ _ I Hp).
      + exact P65.
      + clear -F' Kn. revert Kn. induction F' as [|w ts ws' tss' [Ne E] F' IH]; intros Kn; [constructor|]. apply Forall_cons_iff in Kn as [K1 K2]. constructor; [split; [exact Ne|now apply known_tokens]|auto].
      + intros _. split; [exact (Forall_in _ _ _ I Nw)|]. split; [intros [X|[]]; discriminate X|]. right. intros b z Hb X. cbn in Hb. intuition (subst b; discriminate X).
      + exists xs. split; [|exact D]. clear -X Kn. revert Kn. induction X as [|w x ws' xs H X IH]; intros Kn; [constructor|]. apply Forall_cons_iff in Kn as [K1 K2]. constructor; [exact (known_seen _ _ _ _ K1 H)|auto].
    - destruct (Hu H) as [H1 H2]. apply glued; [exact (Forall_in _ _ _ I V)|exact (Forall_in _ _ _ I Hp)|exact H1|exact F'|]. intros _. split; [exact (Forall_in _ _ _ I Nw)|exact H2]. }
  destruct K as (xs & X & D). destruct (B xs X) as (xss & B1 & B2). exists xss. split; [exact B1|]. now rewrite B2.
Qed.

(** ** A lower case that is longer *)
Lemma unfound_matches ss si set s : sorts start_key ss -> sorts id_key si -> s <> [] -> Forall (fun l => l = []) (mt_find set s) ->
  AddedVocabModel.find_matches ss si (zlen s) (mt_ids set) (mt_find set s) = [(None, (0, zlen s))].
Proof.
  intros HS HI Ne F. unfold AddedVocabModel.find_matches. assert (L : 0 < zlen s) by (destruct s; [congruence|unfold zlen; cbn; lia]).
  assert (E0 : (zlen s =? 0) = false) by (apply Z.eqb_neq; lia). rewrite E0.
  assert (E : io_pairs (mt_find set s) = []).
  { unfold io_pairs. generalize 0%nat. induction F as [|l ls -> F IH]; intros k; [reflexivity|]. cbn. apply IH. }
  assert (S1 : ss [] = []) by (destruct (HS []) as [P _]; now apply Permutation_nil in P).
  assert (S2 : si [] = []) by (destruct (HI []) as [P _]; now apply Permutation_nil in P).
  rewrite E, S1, S2. cbn [length select fill]. destruct (Z.eqb_spec 0 (zlen s)); [lia|]. reflexivity.
Qed.
Lemma longer_panics ss si t f lower g ot s add : sorts start_key ss -> sorts id_key si -> matching_ok (tk_raw t) -> tk_normalizer t = Some f -> clean s -> zlen g < zlen (lower g) ->
  (forall n, wf n -> untouched n -> ns_norm n = s -> exists m, f n = Ok (case_map lower m) /\ wf m /\ ns_norm m = g) ->
  s <> [] -> Forall (fun l => l = []) (mt_find (tk_raw t) s) -> Forall (fun l => l = []) (mt_find (tk_normalized t) (lower g)) ->
  tk_encode ss si t ot (ISingle (Raw s)) add = Panic.
Proof.
  intros HS HI M Ef C Lt Hf Ne U1 U2. assert (X : extract_and_normalize ss si t s = Panic); [|unfold tk_encode, encode_sequence, encode_text; rewrite X; reflexivity].
  unfold extract_and_normalize. pose proof (new_in_place s C) as Pl. destruct (indices_labels ss si HS HI s (tk_raw t) (new_ns s) M Pl Ne) as (sps & Ei & N1 & F1).
  change (ns_norm (new_ns s)) with s in F1. rewrite (unfound ss si _ s HS HI Ne U1) in F1. inversion F1 as [|x sp l sps' [T K] F2]; subst. inversion F2; subst. cbn [fst snd] in *. unfold sp_text in T.
  destruct (indices_ok_at ss si HS HI s (tk_raw t) (new_ns s) M Pl Ne) as (sps & Ei' & _ & _ & Ag & _). rewrite Ei in Ei'. injection Ei' as <-. apply Forall_cons_iff in Ag as [(Wp & _) _].
  assert (U : untouched (sp_ns sp)).
  { assert (V : valid_utf8 s) by (destruct C as (rs & Sc & _ & ->); now exists rs).
    pose proof (indices_untouched ss si HS HI (tk_raw t) s (new_ns s) [sp] M Pl (new_untouched s V) Ei) as Q. rewrite (PipelineProofs.filter_true _ _ N1) in Q. apply Forall_cons_iff in Q as [Q _]. exact Q. }
  assert (E1 : exists p, pt_split (fun _ n => split_with_indices ss si (tk_raw t) n) (pt_new s) = Ok p /\ pt_splits p = [sp]).
  { unfold pt_split, pt_new, pt_from_ns. cbn [pt_splits pt_orig split_pieces sp_toks sp_ns]. rewrite Ei. cbn [bind]. fold nonempty. rewrite (PipelineProofs.filter_true _ _ N1). eexists. split; [reflexivity|reflexivity]. }
  destruct E1 as (p & -> & Ep). cbn [bind]. unfold pt_split. rewrite Ep. cbn [split_pieces]. rewrite K, Ef. destruct (Hf (sp_ns sp) (proj1 Wp) U T) as (m & Em & Wm & Tm). cbn [apply_normalizer]. rewrite Em. cbn [bind].
  unfold split_with_indices. change (ns_norm (case_map lower m)) with (lower (ns_norm m)). rewrite Tm. assert (Nl : lower g <> []) by (intros Q; rewrite Q in Lt; unfold zlen in Lt; cbn in Lt; lia).
  rewrite (unfound_matches ss si _ _ HS HI Nl U2). rewrite mapR_cons. unfold indexed_piece. cbn [fst snd]. rewrite <- Tm at 1. rewrite case_map_longer; [reflexivity|exact Wm|now rewrite Tm].
Qed.

(** ** Files *)
Lemma wordpiece_loaded order to32 fs dec v unk max : model_is fs dec "WordPiece" -> vocab_given fs v -> given JStr fs "unk_token" (key "[UNK]") unk ->
  given JStr fs "continuing_subword_prefix" (key "##") (key "##") -> given jint fs "max_input_chars_per_word" 100 max ->
  create_model order to32 (Some fs) dec = Ok (MWordPiece (WP v (build_vocab_r (order v)) unk (key "##") max)).
Proof.
  intros T [V N] H1 H2 H3. unfold create_model. rewrite (model_type_ok _ _ _ T). cbn [bind]. names. unfold create_wordpiece. step.
  destruct (opt_given _ JStr as_str fs _ _ _ (fun a => eq_refl) ltac:(easy) H2) as (o & ->). step.
  rewrite (cast_vocab_ok v N). reflexivity.
Qed.
Lemma bert_nothing u : bert_pieces u [] = [].
Proof. reflexivity. Qed.
Lemma bert_part_plain u wp w x s : wp_prefix wp = [35; 35]%N -> In w (bert_words u x) -> set_apart s -> ~ part_of wp w s.
Proof.
  intros Ep Hw (c & d & l & Es & Pc & Nc) (a & y & z & E & Ny & K). apply in_map_iff in Hw as (g & <- & Hg). destruct K as [[-> Ev]|[_ Ev]].
  - cbn [app] in E. rewrite <- Ev, Es in E. destruct (begins_punct u (runes x) g c (d :: l) z Hg Pc E) as [Y _]. discriminate Y.
  - rewrite Ep, Es in Ev. injection Ev as X _. contradiction.
Qed.
Lemma specials_in ad s : In s (specials ad) <-> special_content ad s.
Proof.
  unfold specials, special_content. rewrite in_map_iff. split.
  - intros (c & E & H). apply filter_In in H. exists c. tauto.
  - intros (c & H1 & H2 & H3). exists c. split; [exact H3|]. apply filter_In. auto.
Qed.
Lemma patterns_plain is_word n m ad av norm ts : (forall t, In t ts -> exists c, In c ad /\ t = added_of c) -> Forall (fun c => tc_single c = false) ad -> (forall t, In t ts -> AddedVocabProofs.known m av t) ->
  exists l, token_patterns is_word n (av_token_to_id m av) norm ts = Ok l /\ Forall (of_token m ad av) l.
Proof.
  intros F Si K. induction ts as [|t ts IH]; [exists []; split; [reflexivity|constructor]|]. cbn [token_patterns].
  destruct (K t (or_introl eq_refl)) as (i & Ei). rewrite Ei. destruct (F t (or_introl eq_refl)) as (c & Hc & ->). rewrite Forall_forall in Si.
  destruct IH as (l & El & Fl); [intros; apply F; now right|intros; apply K; now right|].
  rewrite (get_pattern_plain is_word n (added_of c) (Si c Hc)). cbn [bind]. rewrite El. cbn [bind]. eexists. split; [reflexivity|]. destruct (Bool.eqb _ _); [constructor; [|exact Fl]; exists c; auto|exact Fl].
Qed.
Lemma looked_plain is_word n m ad av norm : reached m ad (listed ad) (special_content ad) av -> Forall (fun c => tc_single c = false) ad ->
  exists l, looked_for is_word n m av norm = Ok (re_matching l) /\ Forall (of_token m ad av) l.
Proof.
  intros R Si. unfold looked_for. destruct R as ((I & K1 & _) & _ & F & _). destruct (patterns_plain is_word n m ad av norm (av_special av ++ av_added av) F Si) as (l & E & Fl).
  - intros t. rewrite in_app_iff. intros [H|H]; [now apply K1|exact (inv_added _ _ I t H)].
  - rewrite E. cbn [bind]. eauto.
Qed.

Section File.
  Variable ss si : list io_pair -> list io_pair.
  Hypothesis HS : sorts start_key ss.
  Hypothesis HI : sorts id_key si.
  Variable order : vocab -> vocab.
  Hypothesis HO : forall v, Permutation (order v) v.
  Variable to32 : Q -> Q.
  Variable lower : str -> str.
  Variable base64 : str -> res str.
  Variable compile : str -> option (str -> list (Z * Z)).
  Variable quoted : str -> str -> list (Z * Z).
  Variable u : unicode.
  Variables is_word cc mn sp : N -> bool.
  Variable lib : norm_lib.
  Variable graphemes : str -> list str.
  Context {S : Type}.
  Variable of_q : Q -> S.
  Variable lt : S -> S -> bool.
  Variables bot zero : S.
  Variable plus : S -> S -> S.
  Variable bonus : nat -> S.
  Variable penal : S -> S.
  Variable dropping : bpe -> Q -> str -> res (list token).
  Hypothesis Mo : forall wp, PipelineSpec.model_ok (always (wp_tokenize wp)).
  Hypothesis Mr : forall wp, vget (wp_unk wp) (wp_vocab wp) <> None -> model_returns (always (wp_tokenize wp)).
  Hypothesis Po : PipelineSpec.pre_ok (pre_tokenize u PTBert).
  Hypothesis Pr : pre_returns (pre_tokenize u PTBert).
  Local Notation put := (assemble u is_word cc mn sp lower lib graphemes of_q lt bot zero plus bonus penal dropping).

  (** What the words of the texts come back as. *)
  Lemma bert_back cleanup v unk max ad av ws tss : let wp := WP v (build_vocab_r (order v)) unk (key "##") max in let m := vocab_model v (build_vocab_r (order v)) in
    numbered v -> Forall (fun t => tc_special t = true -> set_apart (tc_content t)) ad -> (In unk (specials ad) \/ neat unk /\ forall z, unk <> key "##" ++ z) ->
    reached m ad (listed ad) (special_content ad) av -> Forall (fun w => exists z, In w (bert_words u z)) ws -> Forall2 (fun w ts => ts <> [] /\ always (wp_tokenize wp) w = Ok (Some ts)) ws tss ->
    exists xss, Forall2 (comes_back v max unk (specials ad)) ws xss /\ concat (wpd_chain (wp_prefix wp) cleanup (shown_all m av true (map t_id (concat tss)))) = put_together cleanup (concat xss).
  Proof.
    intros wp m Nu Ap Hu R Hw F. pose proof (numbered_base v _ Nu (HO v)) as B. fold m in B.
    assert (F' : Forall2 (fun w ts => ts <> [] /\ wp_tokenize wp w = Ok ts) ws tss) by (clear -F; induction F as [|w ts ws tss [N E] F IH]; constructor; [split; [exact N|now apply always_some]|exact IH]).
    apply (put_back cleanup wp m av (In unk (specials ad)) ws tss).
    * destruct (in_dec (list_eq_dec N.eq_dec) unk (specials ad)); [now left|now right].
    * eapply Forall_impl; [|exact Hw]. intros w (z & Hz). apply in_map_iff in Hz as (g & <- & Hg). exists g. split; [|reflexivity].
      pose proof (documented_keeps u PTBert (bert_pieces u) eq_refl scalar (runes z) (runes_scalar z)) as Fs. rewrite Forall_forall in Fs. exact (Fs g Hg).
    * eapply Forall_impl; [|exact Hw]. intros w (z & Hz). apply in_map_iff in Hz as (g & <- & Hg). exact (bert_hashes u _ g Hg).
    * eapply Forall_impl; [|exact Hw]. intros w (z & Hz). apply in_map_iff in Hz as (g & <- & Hg). exact (bert_neat u _ g Hg).
    * intros Hn. destruct Hu as [Hu|[Hu1 Hu2]]; [contradiction|]. split; [|exact Hu1]. destruct (starts_with _ _) eqn:Es; [|reflexivity]. apply starts_ex in Es as (z & Es). exfalso. exact (Hu2 z Es).
    * reflexivity.
    * exact F'.
    * intros w y id Iw Py Hy. rewrite Forall_forall in Hw. destruct (Hw w Iw) as (z & Hz). apply (shown_other m B ad av R y id Hy). intros (t & Ht & Hs & Et). rewrite Forall_forall in Ap. pose proof (Ap t Ht Hs) as Sa. rewrite Et in Sa.
      exact (bert_part_plain u wp w z y eq_refl Hz Sa Py).
    * intros Hh id Hi. apply specials_in in Hh as (t & Ht & Hs & Et). apply (hidden_ids m B ad av R). unfold special_ids. apply in_flat_map. exists t. split; [exact Ht|]. rewrite Hs, Et. unfold file_id.
      change (bm_t2i m unk) with (vget unk v). cbn [wp wp_unk wp_vocab] in Hi. rewrite Hi. now left.
    * intros Hh id Hi. apply (shown_other m B ad av R unk id Hi). rewrite <- specials_in. exact Hh.
  Qed.

  Lemma bert_loaded v unk max handles lowercase strip cleanup po pa c : bert_file lower base64 compile quoted v unk max handles lowercase strip cleanup po pa c ->
    exists l a, from_reader order to32 lower base64 compile quoted (Some c) = Ok l /\ put l = Ok a /\ tk_processor (as_tok a) = po /\ tk_padding (as_tok a) = pa /\
      (forall s, av_token_to_id (as_lookups a) (as_added a) s = file_id (fun s => vget s v) (zlen v) (c_added c) s) /\
      (forall ot x add, clean_inputs x -> ot <> OInvalid ->
        Forall (fun s => bert_reads cc mn lower handles lowercase strip s /\ unwritten (c_added c) s /\ unwritten (c_added c) (BertNormSpec.bert_text handles lowercase strip mn lower (runes s))) (encode_texts x) ->
        ends_with (special_ids (fun s => vget s v) (zlen v) (c_added c)) (dual x) add po pa ->
        exists e xss, tk_encode ss si (as_tok a) ot x add = Ok (Some e) /\
          Forall2 (comes_back v max unk (specials (c_added c))) (flat_map (fun s => bert_words u (BertNormSpec.bert_text handles lowercase strip mn lower (runes s))) (encode_texts x)) xss /\
          as_decode a (ids e) true = Ok (put_together cleanup (concat xss))) /\
      forall ot s add, clean s -> Forall (fun c => dropped cc c = false /\ (handles = true -> extension_a c = false)) (runes s) -> lowercase = true -> strip = false ->
        let t := encode (if handles then spaced (runes s) else runes s) in
        zlen t < zlen (lower t) -> unwritten (c_added c) s -> unwritten (c_added c) (lower t) -> s <> [] -> tk_encode ss si (as_tok a) ot (ISingle (Raw s)) add = Panic.
  Proof.
    intros (mo & no & pt & de & cleaned & C1 & C2 & C3 & C4 & C5 & T & V & H1 & H2 & H3 & In' & Ip & Id & Ipo & Ipa & Nu & Vu & Ap & Hu).
    pose proof (wordpiece_loaded order to32 mo (Some de) v unk max T V H1 H2 H3) as Em. set (wp := WP v (build_vocab_r (order v)) unk (key "##") max) in *. set (ad := c_added c) in *.
    assert (Fa : Forall (fun t => tc_content t <> [] /\ valid_utf8 (tc_content t)) ad).
    { eapply Forall_impl; [|exact Ap]. cbn. tauto. }
    assert (Si : Forall (fun t => tc_single t = false) ad) by (eapply Forall_impl; [|exact Ap]; cbn; tauto).
    set (m := vocab_model v (build_vocab_r (order v))). pose proof (numbered_base v _ Nu (HO v)) as B. fold m in B.
    destruct (added_reached m B ad Fa) as (av & Ea & R). set (nf := norm_fun cc mn sp lower lib graphemes (Some (NBert cleaned lowercase handles strip))).
    destruct (looked_plain is_word nf m ad av false R Si) as (l1 & E1 & F1). destruct (looked_plain is_word nf m ad av true R Si) as (l2 & E2 & F2).
    eexists. eexists. split; [|split].
    - unfold from_reader. rewrite C1, C2, C3, C4, C5, Em. cbn [bind].
      unfold create_normalizer, create_pretokenizer, create_processor, create_decoder, create_truncation, create_padding.
      cbn [ConfigModel.section]. rewrite (norm_ok base64 compile quoted _ _ In'). cbn [bind]. rewrite (ConfigProofs.pre_ok lower compile quoted _ _ Ip). cbn [bind].
      rewrite (section_ok _ _ _ _ po processor_ok Ipo). cbn [bind]. rewrite (decoder_ok lower compile quoted _ _ Id). cbn [bind].
      rewrite (section_ok _ _ _ _ pa pad_ok Ipa). reflexivity.
    - unfold assemble. cbn [l_model l_norm l_calls l_pre l_post l_trunc l_pad l_dec lookups wp wp_vocab wp_vocab_r]. fold m. fold ad. fold nf. rewrite Ea. cbn [bind]. rewrite E1. cbn [bind]. rewrite E2. reflexivity.
    - split; [reflexivity|]. split; [reflexivity|]. split; [intros s; exact (reached_ids _ _ av R s)|].
      cbn [as_tok]. set (tk := Tkz _ _ _ _ _ _ _ _). split.
      2:{ intros ot s add C Pl Hl Hst Lt W1 W2 Ne. set (t := encode (if handles then spaced (runes s) else runes s)) in *. apply (longer_panics ss si tk (used (run_norm cc mn sp lower lib graphemes (NBert cleaned lowercase handles strip))) lower t ot s add HS HI (looked_ok _ _ Fa av l1 F1) eq_refl C Lt); [|exact Ne|exact (looked_absent _ _ Fa av l1 s F1 W1)|exact (looked_absent _ _ Fa av l2 _ F2 W2)].
          intros n Wn U En. destruct (untouched_fresh n Wn U) as (rs & Sc & F). assert (T0 : ns_norm n = encode rs) by apply F. assert (Rs : runes s = rs) by (rewrite <- En, T0; now apply runes_encode).
          assert (Nr : rs <> []) by (intros ->; apply Ne; now rewrite <- En, T0). rewrite Rs in Pl.
          destruct (bert_stages cc mn lower cleaned handles strip lowercase rs n Nr Sc) as (k & Ek & Wk & _ & _ & _ & Tk & _); [eapply Forall_impl; [|exact Pl]; cbn; tauto|exact F|].
          exists k. subst lowercase strip. split; [|split; [exact Wk|]].
          - unfold used. cbn [run_norm]. rewrite Ek. reflexivity.
          - rewrite Tk. subst t. rewrite Rs. destruct handles; [|reflexivity]. f_equal. apply spaced_by_eq. eapply Forall_impl; [|exact Pl]. cbn. tauto. }
      intros ot x add C Hot W En.
      assert (K1 : ending_returns tk (dual x) add).
      { split; [|split]; [|exact I|]; cbn; [destruct po; [apply En|constructor]|]. unfold returning_padding. destruct pa; [apply En|exact I]. }
      assert (K2 : ending_hides (shown m av true) tk (dual x) add).
      { split; [|split; [reflexivity|]]; cbn.
        + destruct po as [p|]; [|exact I]. apply (hides_mono (except (special_ids (fun s => vget s v) (zlen v) ad))); [|apply En]. intros i. apply (except_hidden m B ad av R).
        + destruct pa as [d|]; [|exact I]. apply (hidden_ids m B ad av R). apply En. }
      rewrite Forall_forall in W.
      assert (Tn : turns (encode_texts x) (used (run_norm cc mn sp lower lib graphemes (NBert cleaned lowercase handles strip))) (fun s => BertNormSpec.bert_text handles lowercase strip mn lower (runes s))).
      { intros n Wn U Ne Hn. destruct (W _ Hn) as (Pl & _). destruct (bert_turned cc mn lower cleaned handles strip lowercase n Wn U Ne Pl) as (k & Ek & K). exists k. split; [|exact K].
        unfold used. cbn [run_norm]. rewrite Ek. reflexivity. }
      destruct (turned_cut ss si HS HI tk u PTBert (bert_pieces u) (used (run_norm cc mn sp lower lib graphemes (NBert cleaned lowercase handles strip))) (fun s => BertNormSpec.bert_text handles lowercase strip mn lower (runes s)) (always (wp_tokenize wp)) m av true ot x add) as (e & tss & Ee & F & Sh).
      + exact (looked_ok _ _ Fa av l1 F1).
      + reflexivity.
      + exact Tn.
      + intros s Hs. exact (bert_text_empty cc mn lower handles lowercase strip s (clean_texts x C s Hs) (proj1 (W s Hs))).
      + reflexivity.
      + reflexivity.
      + exact Po.
      + exact Pr.
      + reflexivity.
      + apply Mo.
      + apply Mr. exact Vu.
      + intros s Hs. exact (looked_absent _ _ Fa av l1 s F1 (proj1 (proj2 (W s Hs)))).
      + intros s Hs. exact (looked_absent _ _ Fa av l2 _ F2 (proj2 (proj2 (W s Hs)))).
      + exact K1.
      + exact K2.
      + exact C.
      + exact Hot.
      + assert (Ec : forall L, flat_map (fun s => cut_words (bert_pieces u) (BertNormSpec.bert_text handles lowercase strip mn lower (runes s))) L = flat_map (fun s => bert_words u (BertNormSpec.bert_text handles lowercase strip mn lower (runes s))) L).
        { intros L. apply flat_map_ext. intros s. unfold cut_words, bert_words. destruct (BertNormSpec.bert_text handles lowercase strip mn lower (runes s)); reflexivity. }
        rewrite Ec in F. exists e. set (ws := flat_map _ _) in F. change (flat_map (fun s => bert_words u (BertNormSpec.bert_text handles lowercase strip mn lower (runes s))) (encode_texts x)) with ws.
        assert (Hw : Forall (fun w => exists z, In w (bert_words u z)) ws).
        { apply Forall_forall. intros w Hw. apply in_flat_map in Hw as (z & _ & Hw). eexists. exact Hw. }
        destruct (bert_back cleanup v unk max ad av ws tss Nu) as (xss & X & D); [eapply Forall_impl; [|exact Ap]; cbn; tauto|exact Hu|exact R|exact Hw|exact F|].
        exists xss. split; [exact Ee|]. split; [exact X|]. unfold as_decode. cbn [as_lookups as_added as_decoder option_map]. unfold decode_ids. rewrite tokens_of_shown. fold m. rewrite Sh. cbn [decode decode_chain bind].
          exact (f_equal Ok D).
  Qed.
End File.
