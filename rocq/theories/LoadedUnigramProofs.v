(** Tokenizers with the metaspace pre-tokenizer loaded from files, for any model (C76). *)
From Coq Require Import String QArith.
From Verif Require Import Base BaseProofs Utf8Model Utf8Proofs NormalizedModel NormalizedSpec NormalizedProofs NormalizedInvProofs ChunkProofs EncodingModel EncodingProofs BpeModel BpeSpec BpeSaveModel BpeSaveSpec BpeSaveProofs BpeTokProofs AddedVocabModel AddedVocabSpec AddedVocabProofs
  DecoderModel PreTokenizerModel PreTokenizerSpec PreTokenizerProofs ProcessorModel PreTokenizedModel PipelineModel PipelineSpec AddedPatternModel AddedPatternProofs SpmModel UnicodeNormModel PretrainedModel UnigramModel UnigramSpec UnigramProofs ConfigModel ConfigSpec ConfigProofs ConfigLoadProofs
  ReturnSpec RoundTripSpec RoundTripBpeProofs RoundTripProofs WordsSpec TurnedProofs BertWordsProofs MetaspaceSpec MetaTripSpec MetaTripProofs MetaModelProofs MetaTextProofs ExpandedProofs PlacedProofs PreTokenizedSpec LoadedModel LoadedSpec LoadedAddedProofs BareProofs LoadedProofs LoadedUnigramSpec PipelineProofs PlacedNormProofs.
From Verif Require NamesLoadedProofs.
Open Scope Z_scope.
Open Scope list_scope.

(** ** Words *)
Lemma led_scalar scheme r first rs : Forall scalar rs -> Forall scalar (led scheme r first rs).
Proof.
  intros F. assert (G : Forall scalar (map (blank r) rs)).
  { apply Forall_map. eapply Forall_impl; [|exact F]. intros c H. unfold blank. destruct (_ || _)%bool; [left; reflexivity|exact H]. }
  unfold led. destruct (map (blank r) rs) as [|c l]; [constructor|]. destruct (_ && _)%bool; [|exact G]. constructor; [left; reflexivity|exact G].
Qed.
(** The characters of a text with marks, in order, but for a mark in front. *)
Lemma led_chars scheme r rs : exists front, (front = [] \/ front = [r]) /\ map (to_mark r) (led scheme r true rs) = front ++ map (fun c => if white c then r else c) rs.
Proof.
  assert (M : map (to_mark r) (map (blank r) rs) = map (fun c => if white c then r else c) rs) by (rewrite map_map; apply map_ext; intros c; rewrite blank_mark; reflexivity).
  unfold led. destruct (map (blank r) rs) as [|c l] eqn:E; [exists []; split; [now left|]; rewrite <- M; reflexivity|].
  destruct (_ && _)%bool; [exists [r]|exists []]; (split; [auto|]); cbn [app]; rewrite <- M; reflexivity.
Qed.
Lemma segment_part {A} (j : A -> A -> bool) l w : In w (segments j l) -> exists a z, l = a ++ w ++ z.
Proof. intros H. apply in_split in H as (x & y & E). exists (concat x), (concat y). rewrite <- (segments_concat j l), E, concat_app. reflexivity. Qed.
Lemma word_shape scheme r texts w : scalar r -> Forall valid_utf8 texts -> In w (led_words scheme r texts) ->
  exists s ws a z, In s texts /\ w = encode ws /\ ws <> [] /\ Forall scalar ws /\ map (to_mark r) (led scheme r true (runes s)) = a ++ ws ++ z /\
    Forall (fun c => c = r \/ In c (runes s) /\ white c = false) ws.
Proof.
  intros Sr V H. unfold led_words in H. apply in_flat_map in H as (s & Hs & H). apply in_map_iff in H as (ws & <- & Hw). change (fun c => if (c =? 32)%N then r else c) with (to_mark r) in Hw. cbn [cut_up] in Hw.
  destruct (segment_part _ _ _ Hw) as (a & z & E). pose proof (segments_nonempty (stay MergedWithNext (N.eqb r)) (map (to_mark r) (led scheme r true (runes s)))) as Ne. rewrite Forall_forall in Ne. specialize (Ne _ Hw).
  rewrite Forall_forall in V. destruct (V _ Hs) as (rs & Sc & Es). assert (Er : runes s = rs) by (rewrite Es; now apply runes_encode).
  exists s, ws, a, z. split; [exact Hs|]. split; [reflexivity|]. split; [exact Ne|].
  assert (Q : Forall (fun c => c = r \/ In c (runes s) /\ white c = false) ws).
  { destruct (led_chars scheme r (runes s)) as (front & Hf & Ef). rewrite Ef in E. apply Forall_forall. intros c Hc.
    assert (I : In c (front ++ map (fun c => if white c then r else c) (runes s))) by (rewrite E; apply in_or_app; right; apply in_or_app; now left).
    apply in_app_or in I as [I|I]; [destruct Hf as [-> | ->]; [destruct I|destruct I as [<-|[]]; now left]|]. apply in_map_iff in I as (d & <- & Hd). destruct (white d) eqn:Ed; [now left|right; auto]. }
  split; [|split; [exact E|exact Q]]. eapply Forall_impl; [|exact Q]. intros c [->|[Hc _]]; [exact Sr|]. rewrite Er in Hc. rewrite Forall_forall in Sc. now apply Sc.
Qed.
(** A part of a word without a mark is a part of a text. *)
Lemma valid_part rs x m y : Forall scalar rs -> encode rs = x ++ m ++ y -> valid_utf8 m -> m <> [] -> exists a ms z, rs = a ++ ms ++ z /\ x = encode a /\ m = encode ms /\ y = encode z.
Proof.
  intros Sc E Vm Ne. assert (V : valid_utf8 (x ++ m ++ y)) by (exists rs; auto). destruct (valid_infix x m y V Vm Ne) as [B _].
  rewrite <- E in B. destruct (boundary_char_pos _ _ B (zlen_nonneg x)) as (k & Hk & Ek). rewrite <- (firstn_skipn k rs), encode_app in E. unfold bytes in Ek.
  assert (Hl : length x = length (encode (firstn k rs))) by (unfold zlen in Ek; lia).
  assert (X : x = encode (firstn k rs) /\ m ++ y = encode (skipn k rs)).
  { clear -E Hl. revert E. generalize (encode (skipn k rs)) as z. intros z E. symmetry in E. split.
    - apply (f_equal (firstn (length x))) in E. rewrite firstn_app, Nat.sub_diag, firstn_all in E. cbn [firstn] in E. rewrite app_nil_r in E. rewrite E, Hl, firstn_app, firstn_all, Nat.sub_diag. cbn. now rewrite app_nil_r.
    - apply (f_equal (skipn (length x))) in E. rewrite skipn_app, Nat.sub_diag, skipn_all in E. cbn [skipn app] in E. rewrite E, Hl, skipn_app, skipn_all, Nat.sub_diag. reflexivity. }
  destruct X as [X1 X2]. destruct Vm as (ms & Sm & ->). destruct (encode_cut ms y (skipn k rs) Sm) as (z & Ez & ->); [now apply Forall_skipn|exact X2|].
  exists (firstn k rs), ms, z. split; [rewrite <- Ez; symmetry; apply firstn_skipn|auto].
Qed.
Lemma map_part {A B} (f : A -> B) l a w z : map f l = a ++ w ++ z -> exists la lw lz, l = la ++ lw ++ lz /\ map f lw = w.
Proof. intros E. apply map_eq_app in E as (la & l2 & -> & _ & E). apply map_eq_app in E as (lw & lz & -> & Ew & _). exists la, lw, lz. auto. Qed.
Lemma unmarked_written scheme r texts w t x y : scalar r -> Forall valid_utf8 texts -> In w (led_words scheme r texts) -> valid_utf8 t -> t <> [] -> ~ In r (runes t) -> w = x ++ t ++ y ->
  exists s a z, In s texts /\ s = a ++ t ++ z.
Proof.
  intros Sr V Hw Vt Nt Nr E. destruct (word_shape scheme r texts w Sr V Hw) as (s & ws & a & z & Hs & -> & Ne & Sw & L & _).
  destruct (valid_part ws x t y Sw E Vt Nt) as (wa & ts & wz & -> & _ & -> & _). destruct (led_chars scheme r (runes s)) as (front & Hf & Ef). rewrite Ef in L.
  apply Forall_app in Sw as [_ Sw]. apply Forall_app in Sw as [St _]. rewrite runes_encode in Nr by assumption.
  assert (K : exists b z', map (fun c => if white c then r else c) (runes s) = b ++ ts ++ z').
  { exists (skipn (length front) (a ++ wa)), (wz ++ z). destruct Hf as [-> | ->]; cbn [app length skipn] in *; [rewrite L, <- !app_assoc; reflexivity|].
    destruct (a ++ wa) as [|c l] eqn:Ea.
    - exfalso. apply app_eq_nil in Ea as [-> ->]. cbn [app] in L. destruct ts as [|c ts]; [now apply Nt|]. cbn [app] in L. injection L as -> _. apply Nr. now left.
    - cbn [skipn]. rewrite <- !app_assoc in L. rewrite app_assoc, Ea in L. cbn [app] in L. injection L as _ L. rewrite L. reflexivity. }
  destruct K as (b & z' & K). destruct (map_part _ _ _ _ _ K) as (la & lt & lz & Er & Em). rewrite Forall_forall in V. destruct (V _ Hs) as (rs & Sc & Es).
  assert (R : runes s = rs) by (rewrite Es; now apply runes_encode). assert (Q : lt = ts).
  { rewrite <- Em. rewrite <- (map_id lt) at 1. apply map_ext_in. intros c Hc. destruct (white c) eqn:W; [|reflexivity]. exfalso. apply Nr. rewrite <- Em. apply in_map_iff. exists c. rewrite W. auto. }
  subst lt. exists s, (encode la), (encode lz). split; [exact Hs|]. rewrite Es, <- R, Er, !encode_app. reflexivity.
Qed.

(** ** Ids *)
Lemma unknown_ext f g : (forall s, f s = g s) -> forall l seen, unknown f seen l = unknown g seen l.
Proof. intros E. induction l as [|s l IH]; intros seen; cbn [unknown]; [reflexivity|]. rewrite E. destruct (g s); [apply IH|]. destruct (existsb _ _); [apply IH|]. now rewrite IH. Qed.
Lemma file_id_ext f g n ad s : (forall s, f s = g s) -> file_id f n ad s = file_id g n ad s.
Proof. intros E. unfold file_id. now rewrite E, (unknown_ext f g E). Qed.
Lemma special_ids_ext f g n ad : (forall s, f s = g s) -> special_ids f n ad = special_ids g n ad.
Proof. intros E. unfold special_ids. apply flat_map_ext. intros t. destruct (tc_special t); [|reflexivity]. now rewrite (file_id_ext f g n ad _ E). Qed.
Lemma position_first s l k : position s l = Some k <-> nth_error l k = Some s /\ forall m, (m < k)%nat -> nth_error l m <> Some s.
Proof.
  revert k. induction l as [|x l IH]; intros k; cbn [position].
  - split; [discriminate|]. intros [H _]. now destruct k.
  - destruct (str_eqb s x) eqn:E.
    + apply str_eqb_eq in E. subst x. split.
      * intros H. injection H as <-. split; [reflexivity|]. intros m Hm. lia.
      * intros [_ H]. destruct k; [reflexivity|]. exfalso. apply (H 0%nat); [lia|reflexivity].
    + assert (Nx : s <> x) by (intros ->; rewrite str_eqb_refl in E; discriminate). destruct (position s l) as [j|] eqn:Ej; cbn [option_map].
      * destruct (proj1 (IH j) eq_refl) as [H1 H2]. split.
        -- intros H. injection H as <-. split; [exact H1|]. intros [|m] Hm; cbn [nth_error]; [congruence|]. apply H2. lia.
        -- intros [H3 H4]. destruct k as [|k]; cbn [nth_error] in H3; [congruence|]. f_equal. f_equal. assert (X : Some j = Some k); [|congruence]. apply IH. split; [exact H3|]. intros m Hm. apply (H4 (Datatypes.S m)). lia.
      * split; [discriminate|]. intros [H3 H4]. destruct k as [|k]; cbn [nth_error] in H3; [congruence|]. exfalso. assert (X : None = Some k); [|discriminate]. apply IH. split; [exact H3|]. intros m Hm. apply (H4 (Datatypes.S m)). lia.
Qed.
Lemma ug_place voc unk bytes fuse s : NoDup (map fst voc) -> ug_token_to_id (UG voc unk bytes fuse) s = place voc s.
Proof.
  intros N. unfold ug_token_to_id, place. cbn [ug_vocab].
  assert (K : forall i, vget s (ug_ids voc) = Some i <-> option_map Z.of_nat (position s (map fst voc)) = Some i).
  { intros i. rewrite ug_lookup. split.
    - intros (k & sc & -> & En & _). assert (Ek : nth_error (map fst voc) k = Some s) by (rewrite nth_error_map, En; reflexivity).
      assert (P : position s (map fst voc) = Some k); [|now rewrite P]. apply position_first. split; [exact Ek|]. intros m Hm E.
      assert (m = k); [|lia]. apply (proj1 (NoDup_nth_error _) N); [apply nth_error_Some; congruence|congruence].
    - destruct (position s (map fst voc)) as [k|] eqn:P; [|discriminate]. intros H. injection H as <-. apply position_first in P as [P _]. rewrite nth_error_map in P. destruct (nth_error voc k) as [[t sc]|] eqn:E; [|discriminate]. injection P as ->.
      exists k, sc. split; [reflexivity|]. now apply nodup_entry. }
  destruct (vget s (ug_ids voc)) as [i|] eqn:E; [symmetry; now apply K|]. destruct (option_map Z.of_nat (position s (map fst voc))) as [i|]; [|reflexivity]. exact (proj2 (K i) eq_refl).
Qed.

Lemma clean_texts x : clean_inputs x -> Forall clean (encode_texts x).
Proof.
  assert (K : forall a, clean_input a -> Forall clean (input_texts a)) by (intros [s|l] H; [now constructor|exact H]).
  destruct x as [a|a b]; cbn [encode_texts]; [apply K|]. intros [H1 H2]. apply Forall_app. split; now apply K.
Qed.
Lemma clean_valid s : clean s -> valid_utf8 s.
Proof. intros (rs & Sc & _ & ->). now exists rs. Qed.

Section File.
  Variable ss si : list io_pair -> list io_pair.
  Hypothesis HS : sorts start_key ss.
  Hypothesis HI : sorts id_key si.
  Variable order : vocab -> vocab.
  Variable to32 : Q -> Q.
  Variable lower : str -> str.
  Variable base64 : str -> res str.
  Variable compile : str -> option (str -> list (Z * Z)).
  Variable quoted : str -> str -> list (Z * Z).
  Variable u : unicode.
  Variables is_word cc mn sp : N -> bool.
  Variable lib : norm_lib.
  Variable graphemes : str -> list str.
  Context {S : Type}.
  Variable of_q : Q -> S.
  Variable lt : S -> S -> bool.
  Variables bot zero : S.
  Variable plus : S -> S -> S.
  Variable bonus : nat -> S.
  Variable penal : S -> S.
  Variable dropping : bpe -> Q -> str -> res (list token).
  Local Notation put := (assemble u is_word cc mn sp lower lib graphemes of_q lt bot zero plus bonus penal dropping).
  Local Notation run := (run_model of_q lt bot zero plus bonus penal dropping).

  (** *** Any model *)
  Section Any.
    Variables (lm : loaded_model) (ad : list token_config).
    Local Notation m := (lookups lm).
    Hypothesis B : AddedVocabSpec.base_ok m.
    Hypothesis Fa : Forall (fun t => tc_content t <> [] /\ valid_utf8 (tc_content t)) ad.
    Hypothesis Mo : PipelineSpec.model_ok (run lm).

    Lemma any_assembled pre po d pa : exists av l1 l2,
      put (Loaded lm None pre po d (add_calls ad) None pa) =
        Ok (Assembled (Tkz (re_matching l1) (re_matching l2) None (option_map (pre_tokenize u) pre) (Some (run lm)) po None pa) m av d) /\
      reached m ad (listed ad) (special_content ad) av /\
      Forall (of_token m ad av) l1 /\ Forall (of_token m ad av) l2.
    Proof.
      destruct (added_reached m B ad Fa) as (av & Ea & R).
      destruct (looked_made m ad Fa av R is_word false) as (l1 & E1 & F1). destruct (looked_made m ad Fa av R is_word true) as (l2 & E2 & F2).
      exists av, l1, l2. split; [|split; [exact R|split; assumption]]. unfold assemble. cbn [l_model l_norm l_calls l_pre l_post l_trunc l_pad l_dec norm_fun option_map].
      rewrite Ea. cbn [bind]. rewrite E1. cbn [bind]. rewrite E2. reflexivity.
    Qed.
    Lemma any_ending av pre l1 l2 f po pa pair add : reached m ad (listed ad) (special_content ad) av -> ends_with (special_ids (bm_t2i m) (bm_size m) ad) pair add po pa ->
      let tk := Tkz l1 l2 None pre f po None pa in ending_returns tk pair add /\ ending_hides (shown m av true) tk pair add.
    Proof.
      intros R [E1 E2] tk. split.
      - split; [|split]; [|exact I|].
        + cbn. destruct po; [apply E1|constructor].
        + cbn. unfold returning_padding. destruct pa; [apply E2|exact I].
      - split; [|split; [reflexivity|]]; cbn.
        + destruct po as [p|]; [|exact I]. apply (hides_mono (except (special_ids (bm_t2i m) (bm_size m) ad))); [|apply E1]. intros i. apply (except_hidden m B ad av R).
        + destruct pa as [d|]; [|exact I]. apply (hidden_ids m B ad av R). apply E2.
    Qed.
    Lemma led_unwritten tk scheme r s : valid_utf8 s -> Forall (fun l => l = []) (mt_find (tk_raw tk) s) -> Forall (fun l => l = []) (mt_find (tk_normalized tk) s) ->
      led_parts ss si tk scheme r s = match s with [] => [] | _ => [led scheme r true (runes s)] end.
    Proof.
      intros (rs & Sc & ->) F1 F2. pose proof (text_parts ss si HS HI tk scheme r rs Sc F1 F2) as T. unfold input_parts in T. cbn [encode_texts input_texts flat_map] in T. rewrite app_nil_r in T. rewrite T, runes_encode by assumption.
      destruct rs as [|c rs]; [reflexivity|]. rewrite encode_cons. pose proof (encode_rune_nonempty c). destruct (encode_rune c); [congruence|reflexivity].
    Qed.

    Lemma meta_put mark scheme drop po pa : scalar mark -> mark <> 0%N ->
      exists a, put (Loaded lm None (Some (PTMetaspace (encode_rune mark) (find_chars (N.eqb mark)) scheme)) po (Some (DMetaspace (encode_rune mark) drop)) (add_calls ad) None pa) = Ok a /\
        tk_processor (as_tok a) = po /\ tk_padding (as_tok a) = pa /\ as_lookups a = m /\ reached m ad (listed ad) (special_content ad) (as_added a) /\
        forall ot x add, clean_inputs x -> ot <> OInvalid -> Forall (unwritten ad) (encode_texts x) ->
          Forall (spells_whole (run lm) (shown m (as_added a) true)) (led_words scheme mark (encode_texts x)) ->
          ends_with (special_ids (bm_t2i m) (bm_size m) ad) (dual x) add po pa ->
          exists e, tk_encode ss si (as_tok a) ot x add = Ok (Some e) /\ as_decode a (ids e) true = Ok (encode (led_text scheme mark drop (encode_texts x))).
    Proof.
      intros Sm M0. destruct (any_assembled (Some (PTMetaspace (encode_rune mark) (find_chars (N.eqb mark)) scheme)) po (Some (DMetaspace (encode_rune mark) drop)) pa) as (av & l1 & l2 & Ea & R & F1 & F2).
      eexists. split; [exact Ea|]. split; [reflexivity|]. split; [reflexivity|]. split; [reflexivity|]. split; [exact R|]. intros ot x add C Hot W Sw En. cbn [as_tok as_added] in *. set (tk0 := Tkz _ _ _ _ _ _ _ _). set (tk := unadded tk0 None).
      destruct (any_ending av (option_map (pre_tokenize u) (Some (PTMetaspace (encode_rune mark) (find_chars (N.eqb mark)) scheme))) (re_matching l1) (re_matching l2) (Some (run lm)) po pa (dual x) add R En) as [K1 K2].
      assert (Ag : tk_encode ss si tk0 ot x add = tk_encode ss si tk ot x add).
      { rewrite Forall_forall in W. apply (bare_encodes ss si HS HI); [reflexivity|exact C| |]; intros s Hs; [exact (looked_absent _ _ Fa av l1 _ F1 (W s Hs))|exact (looked_absent _ _ Fa av l2 _ F2 (W s Hs))]. }
      assert (P : forall l, Forall (unwritten ad) l -> Forall clean l -> flat_map (led_parts ss si tk scheme mark) l = flat_map (fun s => match s with [] => [] | _ => [led scheme mark true (runes s)] end) l).
      { induction l as [|s l IH]; intros Wl Cl; [reflexivity|]. apply Forall_cons_iff in Wl as [W1 W2]. apply Forall_cons_iff in Cl as [C1 C2]. cbn [flat_map]. rewrite (IH W2 C2). f_equal.
        apply led_unwritten; [destruct C1 as (rs & Sc & _ & ->); now exists rs|constructor|constructor]. }
      assert (Cx : Forall clean (encode_texts x)).
      { exact (clean_texts x C). }
      assert (Q : input_parts ss si tk scheme mark x = flat_map (fun s => match s with [] => [] | _ => [led scheme mark true (runes s)] end) (encode_texts x)) by (exact (P _ W Cx)).
      assert (Mw : meta_words ss si tk scheme mark x = led_words scheme mark (encode_texts x)).
      { unfold meta_words, led_words. rewrite Q. generalize (encode_texts x). induction l as [|s l IH]; [reflexivity|]. cbn [flat_map]. rewrite flat_map_app, IH. f_equal. destruct s; [reflexivity|]. cbn [flat_map]. now rewrite app_nil_r. }
      assert (Ct : concat (input_parts ss si tk scheme mark x) = flat_map (fun s => led scheme mark true (runes s)) (encode_texts x)).
      { rewrite Q. generalize (encode_texts x). induction l as [|s l IH]; [reflexivity|]. cbn [flat_map]. rewrite concat_app, IH. f_equal. destruct s; [reflexivity|]. cbn [concat]. now rewrite app_nil_r. }
      destruct (meta_decodes ss si HS HI tk (run lm) u mark scheme m av true) with (drop := drop) (mk := ByNew) (ot := ot) (x := x) (add := add) as (e & E & D).
      + exact Sm.
      + exact M0.
      + exact bare_ok.
      + exact bare_ok.
      + reflexivity.
      + reflexivity.
      + reflexivity.
      + exact Mo.
      + apply (bare_hidden ss si HS HI).
      + exact K1.
      + exact K2.
      + exact C.
      + exact Hot.
      + rewrite Mw. exact Sw.
      + exists e. split; [now rewrite Ag|]. unfold as_decode. cbn [as_lookups as_added as_decoder option_map]. rewrite D. unfold led_text. now rewrite Ct.
    Qed.
  End Any.

  (** *** Unigram *)
  Lemma unigram_loaded fs dec voc unk fuse : unigram_section fs dec voc unk fuse -> create_model order to32 (Some fs) dec = Ok (MUnigram (UG voc unk false fuse)).
  Proof.
    intros (T & V & H1 & U & H2 & H3). destruct (ConfigLoadProofs.model_ok order to32 fs dec _ (IM_unigram to32 false fs dec voc unk false fuse T V H1 U H2 H3)) as (m' & E & Sm). rewrite E. destruct m'; try contradiction. cbn in Sm. now subst.
  Qed.
  Lemma unigram_file_loaded says voc unk fuse mark scheme drop po pa c : score_laws lt bot plus -> unigram_file lower compile quoted says voc unk fuse mark scheme po pa c ->
    (forall de, says de -> decoder_of quoted (JObj de) = Ok (DMetaspace (encode_rune mark) drop)) ->
    exists l a, from_reader order to32 lower base64 compile quoted (Some c) = Ok l /\ put l = Ok a /\ tk_processor (as_tok a) = po /\ tk_padding (as_tok a) = pa /\
      (forall s, av_token_to_id (as_lookups a) (as_added a) s = file_id (place voc) (zlen voc) (c_added c) s) /\
      forall ot x add, clean_inputs x -> ot <> OInvalid -> Forall (unwritten (c_added c)) (encode_texts x) ->
        Forall (fun s => Forall (fun c => white c = false -> In (encode_rune c) (map fst voc)) (runes s)) (encode_texts x) ->
        Forall (fun w => exists gs, let g := UG (map (fun p => (fst p, of_q (snd p))) voc) unk false fuse in segmentation g w gs /\ lt bot (total lt zero plus bonus penal g gs) = true) (led_words scheme mark (encode_texts x)) ->
        ends_with (special_ids (place voc) (zlen voc) (c_added c)) (dual x) add po pa ->
        exists e, tk_encode ss si (as_tok a) ot x add = Ok (Some e) /\ as_decode a (ids e) true = Ok (encode (led_text scheme mark drop (encode_texts x))).
  Proof.
    intros Ls (mo & pt & de & C1 & C2 & C3 & C4 & C5 & Us & Ip & Sy & Ipo & Ipa & Nd & Vv & Sm & M0 & Vm & Fa & Fu) Hd. specialize (Hd de Sy). pose proof (unigram_loaded _ _ _ _ _ Us) as Em.
    set (lm := MUnigram (UG voc unk false fuse)) in *. set (g := UG (map (fun p => (fst p, of_q (snd p))) voc) unk false fuse).
    assert (B : AddedVocabSpec.base_ok (lookups lm)) by (apply (NamesLoadedProofs.lookups_ok lower graphemes of_q lt plus bonus penal dropping lm); exact Nd).
    assert (Fv : Forall (fun t => tc_content t <> [] /\ valid_utf8 (tc_content t)) (c_added c)) by (eapply Forall_impl; [|exact Fa]; cbn; tauto).
    assert (Mo : PipelineSpec.model_ok (run lm)).
    { apply always_model. intros s toks C N E. exists (zlen s). split; [|lia]. exact (proj1 (unigram_tiles lt bot zero plus bonus penal Ls g s toks eq_refl E)). }
    destruct (meta_put lm (c_added c) B Fv Mo mark scheme drop po pa Sm M0) as (a & Ea & E3 & E4 & E5 & R & D).
    assert (Pl : forall s, bm_t2i (lookups lm) s = place voc s) by (intros s; exact (ug_place voc unk false fuse s Nd)).
    eexists. exists a. split; [|split; [exact Ea|split; [exact E3|split; [exact E4|split]]]].
    - unfold from_reader. rewrite C1, C2, C3, C4, C5, Em. cbn [bind].
      unfold create_normalizer, create_pretokenizer, create_processor, create_decoder, create_truncation, create_padding.
      cbn [ConfigModel.section]. cbn [bind]. rewrite (ConfigProofs.pre_ok lower compile quoted _ _ Ip). cbn [bind].
      rewrite (section_ok _ _ _ _ po processor_ok Ipo). cbn [bind]. rewrite Hd. cbn [bind].
      rewrite (section_ok _ _ _ _ pa pad_ok Ipa). reflexivity.
    - intros s. rewrite E5, (reached_ids _ _ _ R). exact (file_id_ext _ _ _ _ s Pl).
    - intros ot x add C Hot W Kc Fin En. pose proof (clean_texts x C) as Cx. assert (Vx : Forall valid_utf8 (encode_texts x)) by (eapply Forall_impl; [|exact Cx]; exact clean_valid).
      apply (D ot x add C Hot W).
      + apply Forall_forall. intros w Hw. rewrite Forall_forall in Fin. destruct (Fin w Hw) as (gs & Sg & Tg). destruct (word_shape scheme mark _ w Sm Vx Hw) as (s & ws & a0 & z0 & Hs & Ew & Ne & Sw & _ & K).
        assert (Mf : map fst (ug_vocab g) = map fst voc) by (unfold g; cbn [ug_vocab]; rewrite map_map; reflexivity).
        assert (Un : forall t x0 y0, In t (map tc_content (filter tc_special (c_added c))) -> w <> x0 ++ t ++ y0).
        { intros t x0 y0 Ht E. apply in_map_iff in Ht as (tc & <- & Htc). apply filter_In in Htc as [Htc Hsp]. pose proof Fa as Fa'. rewrite Forall_forall in Fa'. destruct (Fa' tc Htc) as (T1 & T2 & T3). specialize (T3 Hsp).
          destruct (unmarked_written scheme mark _ w (tc_content tc) x0 y0 Sm Vx Hw T2 T1 T3 E) as (s' & a' & z' & Hs' & Es'). rewrite Forall_forall in W. exact (W s' Hs' tc a' z' Htc Es'). }
        apply (unigram_spells g); [|exact Ls|reflexivity|exists ws; auto| | | |exists gs; split; [exact Sg|exact Tg]|].
        * unfold g. cbn [ug_vocab]. apply Forall_map. exact Vv.
        * rewrite Ew. destruct ws as [|c0 ws]; [congruence|]. rewrite encode_cons. intros X. apply app_eq_nil in X as [X _]. now apply (encode_rune_nonempty c0).
        * rewrite Ew, runes_encode, Mf by assumption. eapply Forall_impl; [|exact K]. intros c0 [->|[Hc E]]; [exact Vm|]. rewrite Forall_forall in Kc. specialize (Kc s Hs). rewrite Forall_forall in Kc. exact (Kc c0 Hc E).
        * intros k t sc x0 y0 Hu Hk. apply Un. unfold g in Hk. cbn [ug_vocab] in Hk. rewrite nth_error_map in Hk. destruct (nth_error voc k) as [p|] eqn:Ep; [|discriminate]. injection Hk as <- _. exact (Fu k p Hu Ep).
        * intros t id x0 y0 Ht E. apply (shown_other _ B _ _ R t id); [|intros (tc & Htc & Hsp & <-); apply (Un (tc_content tc) x0 y0); [apply in_map, filter_In; auto|exact E]].
          rewrite Pl. rewrite <- (ug_place voc unk false fuse t Nd). rewrite <- (NamesLoadedProofs.scored_id of_q (UG voc unk false fuse) t). exact Ht.
      + cbn [lookups bm_size lm ug_vocab]. rewrite (special_ids_ext _ _ _ _ Pl). exact En.
  Qed.

  (** *** BPE *)
  Lemma bpe_file_inputs says v ms mark scheme drop po pa c : (forall v, Permutation (order v) v) -> (forall b, PipelineSpec.model_ok (always (bpe_tokenize b))) ->
    metaspace_file lower compile quoted says v ms mark scheme po pa c ->
    (forall de, says de -> decoder_of quoted (JObj de) = Ok (DMetaspace (encode_rune mark) drop)) ->
    exists l a, from_reader order to32 lower base64 compile quoted (Some c) = Ok l /\ put l = Ok a /\ tk_processor (as_tok a) = po /\ tk_padding (as_tok a) = pa /\
      forall ot x add, clean_inputs x -> ot <> OInvalid -> Forall (unwritten (c_added c)) (encode_texts x) ->
        Forall (fun s => Forall (fun c => white c = false -> vget (encode_rune c) v <> None) (runes s)) (encode_texts x) ->
        ends_with (special_ids (fun s => vget s v) (zlen v) (c_added c)) (dual x) add po pa ->
        exists e, tk_encode ss si (as_tok a) ot x add = Ok (Some e) /\ as_decode a (ids e) true = Ok (encode (led_text scheme mark drop (encode_texts x))).
  Proof.
    intros HO Mb (mo & pt & de & unk & suffix & C1 & C2 & C3 & C4 & C5 & Bs & Ip & Sy & Ipo & Ipa & Nu & Sm & M0 & Vm & Ap) Hd. specialize (Hd de Sy).
    destruct (bpe_loaded order to32 mo (Some de) v ms unk suffix Bs) as (t & Em & Et). pose proof Bs as (_ & _ & _ & _ & Sp & _).
    set (b := Bpe v (build_vocab_r (order v)) t unk None suffix) in *. set (lm := MBpe b None) in *.
    assert (B : AddedVocabSpec.base_ok (lookups lm)) by (exact (numbered_base v _ Nu (HO v))).
    assert (Fv : Forall (fun t => tc_content t <> [] /\ valid_utf8 (tc_content t)) (c_added c)) by (eapply Forall_impl; [|exact Ap]; cbn; tauto).
    destruct (meta_put lm (c_added c) B Fv (Mb b) mark scheme drop po pa Sm M0) as (a & Ea & E3 & E4 & E5 & R & D).
    eexists. exists a. split; [|split; [exact Ea|split; [exact E3|split; [exact E4|]]]].
    - unfold from_reader. rewrite C1, C2, C3, C4, C5, Em. cbn [bind].
      unfold create_normalizer, create_pretokenizer, create_processor, create_decoder, create_truncation, create_padding.
      cbn [ConfigModel.section]. cbn [bind]. rewrite (ConfigProofs.pre_ok lower compile quoted _ _ Ip). cbn [bind].
      rewrite (section_ok _ _ _ _ po processor_ok Ipo). cbn [bind]. rewrite Hd. cbn [bind].
      rewrite (section_ok _ _ _ _ pa pad_ok Ipa). reflexivity.
    - intros ot x add C Hot W Kc En. pose proof (clean_texts x C) as Cx. assert (Vx : Forall valid_utf8 (encode_texts x)) by (eapply Forall_impl; [|exact Cx]; exact clean_valid).
      apply (D ot x add C Hot W); [|exact En]. apply Forall_forall. intros w Hw. destruct (word_shape scheme mark _ w Sm Vx Hw) as (s & ws & a0 & z0 & Hs & -> & Ne & Sw & _ & K).
      apply (bpe_spells_whole b); [exact (bpe_literal order HO v ms t unk suffix Nu Et)|now exists ws| | |exact (bpe_names order HO v ms t unk suffix (c_added c) Nu Et Sp Ap _ R)].
      + intros E. destruct ws as [|c0 ws]; [congruence|]. rewrite encode_cons in E. apply app_eq_nil in E as [E _]. now apply (encode_rune_nonempty c0).
      + rewrite runes_encode by assumption. eapply Forall_impl; [|exact K]. intros c0 [->|[Hc E]]; [exact Vm|]. rewrite Forall_forall in Kc. specialize (Kc s Hs). rewrite Forall_forall in Kc. exact (Kc c0 Hc E).
  Qed.
End File.

(** ** Texts *)
Lemma led_single scheme r s : led_text scheme r (prepends scheme) [s] = meta_back scheme r (runes s).
Proof. unfold led_text. cbn [flat_map]. rewrite app_nil_r. apply led_back. Qed.
Lemma led_spaced scheme r s : scheme <> Never -> s <> [] -> valid_utf8 s -> faithful scheme r (runes s) -> encode (led_text scheme r false [s]) = 32%N :: s.
Proof.
  intros Ns Ne (rs & Sc & ->) F. rewrite runes_encode in F by assumption. unfold led_text. cbn [flat_map andb]. rewrite app_nil_r, runes_encode by assumption. rewrite led_faithful; [reflexivity|exact Ns| |exact F]. intros ->. now apply Ne.
Qed.
