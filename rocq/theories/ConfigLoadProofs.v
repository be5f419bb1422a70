From Coq Require Import String QArith.
From Verif Require Import Base BaseProofs BpeModel BpeSaveModel BpeSaveSpec BpeSaveProofs PatternModel EncodingModel NormalizedModel WordPieceModel UnigramModel.
From Verif Require Import AddedVocabModel DecoderModel PreTokenizerModel ProcessorModel SpmModel ConfigModel ConfigSpec ConfigProofs.
Open Scope Z_scope.
Open Scope list_scope.

(** ** Vocabulary and merges *)

Lemma cast_vocab_ok : forall v, NoDup (map fst v) ->
  cast_vocab (map (fun p => (fst p, jint (snd p))) v) = Ok v.
Proof.
  intros v N. unfold cast_vocab.
  rewrite (mapR_map _ _ _ _ (fun p : str * Z => (fst p, jint (snd p))) (fun p => p)).
  2:{ intros [k z]. cbn [fst snd]. rewrite as_int_int. reflexivity. }
  cbn [bind]. rewrite map_id. f_equal. now apply (fold_aset_app _ v []).
Qed.

Definition line_of (m : str * str) : str := fst m ++ [SP] ++ snd m.

Lemma cast_merge_ok : forall js ms, Forall2 merge_json js ms -> cast_merge js = Ok (map line_of ms).
Proof.
  intros js ms H. induction H as [|j m js ms M _ IH]; [reflexivity|].
  unfold cast_merge in *. cbn [mapR map]. destruct M as [x y _ _|x y]; rewrite IH; reflexivity.
Qed.

Definition spaceless (m : str * str) : Prop := ~ In 32%N (fst m) /\ ~ In 32%N (snd m).

Lemma merges_table : forall v ms t, Forall (in_vocab v) ms -> Forall spaceless ms -> table_of v ms t ->
  exists t', create_merges v (map line_of ms) = Ok t' /\ forall k, aget pair_eqb k t = aget pair_eqb k t'.
Proof.
  intros v ms t V Sp T.
  assert (X : exists es, Forall2 (fun m (e : (Z*Z)*Z) => vget (fst m) v = Some (fst (fst e)) /\
              vget (snd m) v = Some (snd (fst e)) /\ vget (fst m ++ snd m) v = Some (snd e)) ms es).
  { clear - V. induction V as [|m ms (A & B & C) _ (es & IH)]; [exists []; constructor|].
    destruct (vget (fst m) v) as [a|] eqn:Ea; [|easy].
    destruct (vget (snd m) v) as [b|] eqn:Eb; [|easy].
    destruct (vget (fst m ++ snd m) v) as [n|] eqn:En; [|easy].
    exists (((a, b), n) :: es). constructor; auto. }
  destruct X as (es & F).
  assert (A : accepts v (map line_of ms) es).
  { apply accepts_all. clear - F Sp. induction F as [|[x y] e ms es (H1 & H2 & H3) _ IH]; [constructor|].
    cbn [map]. inversion Sp as [|? ? [S1 S2] Sp']; subst.
    constructor; [|now apply IH].
    exists x, y. split; [|auto]. now split. }
  destruct (create_merges_total v (map line_of ms)) as [[_ (t' & E)]|[Hn _]].
  2:{ exfalso. apply Hn, accepts_iff. eauto. }
  exists t'. split; [exact E|].
  destruct (create_merges_ok v _ t' E) as (acc & A' & L).
  rewrite (accepts_det v _ acc es A' A) in L. clear acc A'.
  assert (M : forall i a b n, merge_at v ms i a b n <-> nth_error es i = Some ((a, b), n)).
  { intros i a b n. clear - F. revert i. induction F as [|[x y] [[a' b'] n'] ms es (H1 & H2 & H3) _ IH]; intros i.
    - unfold merge_at. destruct i; cbn; split; [intros (x & y & K & _)| | intros (x & y & K & _)|]; easy.
    - destruct i as [|i].
      + unfold merge_at. cbn [nth_error]. cbn [fst snd] in *. split.
        * intros (x' & y' & K & K1 & K2 & K3). injection K as <- <-. congruence.
        * intro K. injection K as <- <- <-. exists x, y. auto.
      + unfold merge_at in *. cbn [nth_error]. apply IH. }
  assert (I : forall a b r n, aget pair_eqb (a, b) t = Some (r, n) <-> aget pair_eqb (a, b) t' = Some (r, n)).
  { intros a b r n. unfold table_of in T. rewrite T. unfold lookup_merge in L. rewrite L. split.
    - intros (i & -> & H & H'). exists i. split; [|reflexivity]. split; [now apply M|].
      intros j n' Hj K. apply M in K. exact (H' j n' Hj K).
    - intros (i & [H H'] & ->). exists i. split; [reflexivity|]. split; [now apply M|].
      intros j n' Hj K. apply M in K. exact (H' j n' Hj K). }
  intros [a b]. destruct (aget pair_eqb (a, b) t) as [[r n]|] eqn:E1.
  - symmetry. now apply I.
  - destruct (aget pair_eqb (a, b) t') as [[r n]|] eqn:E2; [|reflexivity].
    apply I in E2. congruence.
Qed.

(** ** Models *)

Lemma model_type_ok : forall fs dec t, model_is fs dec t -> model_type fs dec = Ok (key t).
Proof.
  intros fs dec t H. unfold model_type.
  destruct H as [t H|d t H -> H1 I|d t H -> H1 I|d H -> H1|H ->].
  - rewrite (maybe_str fs "type" (Some (key t)) H). reflexivity.
  - rewrite (maybe_str fs "type" None H). cbn [bind]. rewrite (maybe_str d "type" (Some (key t)) H1). cbn [bind].
    cbn in I. repeat (destruct I as [<-|I]; [reflexivity|]). easy.
  - rewrite (maybe_str fs "type" None H). cbn [bind]. rewrite (maybe_str d "type" (Some t) H1). cbn [bind].
    destruct (str_eqb t (key "WordPiece")) eqn:E1; [exfalso; apply I; apply str_eqb_eq in E1; subst; now left|].
    destruct (str_eqb t (key "WordLevel")) eqn:E2; [exfalso; apply I; apply str_eqb_eq in E2; subst; right; now left|].
    destruct (str_eqb t (key "Unigram")) eqn:E3; [exfalso; apply I; apply str_eqb_eq in E3; subst; right; right; now left|].
    reflexivity.
  - rewrite (maybe_str fs "type" None H). cbn [bind]. rewrite (maybe_str d "type" None H1). reflexivity.
  - rewrite (maybe_str fs "type" None H). reflexivity.
Qed.

Section Models.
  Variable order : vocab -> vocab.
  Variable to32 : Q -> Q.

  Lemma model_ok : forall fs dec m, intended_model to32 false fs dec m ->
    exists m', create_model order to32 (Some fs) dec = Ok m' /\ same_model m m'.
  Proof.
    intros fs dec m H.
    destruct H as [v vr ms t unk prefix suffix dropout js T [V N] M F I TB Sp H1 H2 H3 H4 D
                  | v vr unk prefix max T [V N] H1 H2 P H3 | v vr unk T [V N] H1 H2
                  | voc unk bytes fuse T V H1 U H2 H3];
      unfold create_model; rewrite (model_type_ok _ _ _ T); cbn [bind]; names.
    - unfold create_bpe. step.
      rewrite (cast_vocab_ok v N). step. rewrite (cast_merge_ok _ _ F). cbn [bind].
      destruct (merges_table v ms t I (Sp eq_refl) TB) as (t' & E & Q). rewrite E. cbn [bind]. cbn zeta.
      assert (O : match option_map to32 dropout with Some p => negb (Qle_bool p 0) && Qle_bool p 1 | None => true end = true).
      { destruct dropout as [p|]; [|reflexivity]. cbn [option_map]. destruct (D p eq_refl) as [D1 D2].
        apply andb_true_iff. split; [|now apply Qle_bool_iff].
        apply negb_true_iff. apply not_true_is_false. intro K. apply Qle_bool_iff in K.
        exact (Qlt_not_le _ _ D1 K). }
      rewrite O. eexists. split; [reflexivity|]. cbn [same_model b_vocab b_merges b_unk b_prefix b_suffix].
      split; [reflexivity|]. split; [exact Q|]. auto.
    - unfold create_wordpiece. step.
      destruct (opt_given _ JStr as_str fs _ _ _ (fun a => eq_refl) ltac:(easy) H2) as (o & ->). step.
      rewrite (cast_vocab_ok v N). cbn [bind]. eexists. split; [reflexivity|]. cbn.
      rewrite (P eq_refl). auto.
    - unfold create_wordlevel.
      assert (E : exists u, dflt as_str [] "unk_token" fs = Ok u /\ match u with [] => key "<unk>" | _ => u end = unk).
      { destruct H1 as [H1|[H1 ->]].
        - exists unk. split; [now apply given_str; left|]. now destruct unk.
        - exists []. split; [now apply given_str; right|]. reflexivity. }
      destruct E as (u & -> & E). step. rewrite (cast_vocab_ok v N). cbn [bind]. cbn zeta. rewrite E.
      eexists. split; [reflexivity|]. cbn. auto.
    - unfold create_unigram. step. cbn [as_arr bind].
      rewrite (mapR_map _ _ _ unigram_entry (fun p : str * Q => JArr [JStr (fst p); JNum (snd p)]) (fun p => p)).
      2:{ intros [s q]. reflexivity. }
      cbn [bind]. rewrite map_id. unfold ug_build.
      destruct unk as [u|].
      + replace (zlen voc <=? u) with false by (symmetry; apply Z.leb_gt; now apply U).
        eexists. split; [reflexivity|]. reflexivity.
      + eexists. split; [reflexivity|]. reflexivity.
  Qed.

  (** *** Settings which are not honoured *)

  (** Whatever the section says. *)
  Lemma wordpiece_prefix : forall fs dec w, create_model order to32 (Some fs) dec = Ok (MWordPiece w) ->
    wp_prefix w = key "##".
  Proof.
    intros fs dec w. unfold create_model. destruct (model_type fs dec) as [t| | | |]; cbn [bind]; try easy.
    destruct (str_eqb t (key "BPE")).
    { unfold create_bpe.
      repeat match goal with |- bind ?e _ = _ -> _ => destruct e; cbn [bind]; [|easy..] end.
      cbn zeta. match goal with |- (if ?b then _ else _) = _ -> _ => destruct b end; easy. }
    destruct (str_eqb t (key "WordPiece")).
    { unfold create_wordpiece.
      repeat match goal with |- bind ?e _ = _ -> _ => destruct e; cbn [bind]; [|easy..] end.
      intro H. injection H as <-. reflexivity. }
    destruct (str_eqb t (key "WordLevel")).
    { unfold create_wordlevel.
      repeat match goal with |- bind ?e _ = _ -> _ => destruct e; cbn [bind]; [|easy..] end. easy. }
    destruct (str_eqb t (key "Unigram")); [|easy].
    unfold create_unigram.
    repeat match goal with |- bind ?e _ = _ -> _ => destruct e; cbn [bind]; [|easy..] end.
    destruct (fget "vocab" fs); try easy;
    repeat match goal with |- bind ?e _ = _ -> _ => destruct e; cbn [bind]; [|easy..] end; easy.
  Qed.

  (** A merge whose parts contain a space. *)
  Lemma merge_space : forall fs dec js x y m,
    states fs "type" (JStr (key "BPE")) -> states fs "merges" (JArr js) -> In (JArr [JStr x; JStr y]) js ->
    In 32%N (x ++ y) -> create_model order to32 (Some fs) dec <> Ok m.
  Proof.
    intros fs dec js x y m T M I Sp. unfold create_model.
    rewrite (model_type_ok fs dec "BPE" (MI_stated _ _ _ T)). cbn [bind]. names.
    unfold create_bpe.
    do 6 match goal with |- bind ?e _ <> _ => destruct e as [?a| | | |]; cbn [bind]; [|easy..] end.
    rewrite (fget_states _ _ _ M). cbn [as_arr bind].
    destruct (cast_merge js) as [lines| | | |] eqn:E; cbn [bind]; try easy.
    assert (L : In (x ++ [SP] ++ y) lines).
    { clear - I E. revert lines E. induction js as [|j js IH]; [easy|]. intros lines E.
      unfold cast_merge in E. cbn [mapR] in E. fold (cast_merge js) in E.
      destruct I as [->|I].
      - cbn in E. change (mapR _ js) with (cast_merge js) in E.
        destruct (cast_merge js) as [ls| | | |]; cbn in E; try discriminate. injection E as <-. now left.
      - match type of E with bind ?e _ = _ => destruct e as [s| | | |]; cbn [bind] in E; try discriminate end.
        change (mapR _ js) with (cast_merge js) in E.
        destruct (cast_merge js) as [ls| | | |]; cbn [bind] in E; try discriminate. injection E as <-.
        right. now apply IH. }
    rewrite (create_rejects _ lines _ L); [easy|]. left.
    intros (x' & y' & E' & S1 & S2).
    assert (C : count_occ N.eq_dec (x ++ [SP] ++ y) SP = 1%nat).
    { rewrite E'. rewrite !count_occ_app. rewrite (proj1 (count_occ_not_In N.eq_dec x' SP) S1).
      rewrite (proj1 (count_occ_not_In N.eq_dec y' SP) S2). reflexivity. }
    rewrite !count_occ_app in C.
    assert (O : (count_occ N.eq_dec (x ++ y) SP > 0)%nat) by (apply count_occ_In; exact Sp).
    rewrite count_occ_app in O. change (count_occ N.eq_dec [SP] SP) with 1%nat in C. lia.
  Qed.
End Models.

(** A pattern given as a regular expression is never used. *)
Lemma replace_regex : forall compile quoted fs p q, pattern_given compile quoted fs true p ->
  replace_pattern quoted fs = Ok q -> q <> p.
Proof.
  intros compile quoted fs p q H. inversion H as [|pfs s find H1 H2 H3 H4]; subst.
  unfold replace_pattern. step.
  assert (E : fget "String" pfs = JNull).
  { unfold fget. now rewrite (proj2 (ag_none str_eqb str_eqb_eq pfs (key "String")) H3). }
  rewrite E. destruct (fget "Regex" fs); intro K; try (injection K as <-; easy);
  destruct (as_str (fget "Regex" pfs)) as [?| | | |]; cbn [bind] in K; try discriminate; injection K as <-; easy.
Qed.

Section Wrong.
  Variable lower : str -> str.
  Variable base64 : str -> res str.
  Variable compile : str -> option (str -> list (Z * Z)).
  Variable quoted : str -> str -> list (Z * Z).

  Lemma norm_regex : forall fs p content, states fs "type" (JStr (key "Replace")) ->
    pattern_given compile quoted fs true p -> norm_of base64 quoted (JObj fs) <> Ok (NReplace p content).
  Proof.
    intros fs p content T P E. cbn [norm_of] in E. rewrite (fget_states _ _ _ T) in E. cbn [bind as_str] in E.
    revert E. names. destruct (replace_pattern quoted fs) as [q| | | |] eqn:R; cbn [bind]; try easy.
    destruct (as_str (fget "content" fs)); cbn [bind]; try easy. intro K. injection K as -> _.
    exact (replace_regex compile quoted fs p p P R eq_refl).
  Qed.

  Lemma decoder_regex : forall fs p content, states fs "type" (JStr (key "Replace")) ->
    pattern_given compile quoted fs true p -> decoder_of quoted (JObj fs) <> Ok (DReplace p content).
  Proof.
    intros fs p content T P E. cbn [decoder_of] in E. rewrite (fget_states _ _ _ T) in E. cbn [bind as_str] in E.
    revert E. names. destruct (replace_pattern quoted fs) as [q| | | |] eqn:R; cbn [bind]; try easy.
    destruct (as_str (fget "content" fs)); cbn [bind]; try easy. intro K. injection K as -> _.
    exact (replace_regex compile quoted fs p p P R eq_refl).
  Qed.

  Lemma regex_empty : forall fs p content, states fs "type" (JStr (key "Replace")) ->
    pattern_given compile quoted fs true p -> omits fs "Regex" -> states fs "content" (JStr content) ->
    (do x <- norm_of base64 quoted (JObj fs); Ok (Some x)) = Ok (Some (NReplace (PString [] (quoted [])) content)) /\
    (do x <- decoder_of quoted (JObj fs); Ok (Some x)) = Ok (Some (DReplace (PString [] (quoted [])) content)).
  Proof.
    intros fs p content T P O C. inversion P as [|pfs s find H1 H2 H3 H4]; subst.
    assert (R : replace_pattern quoted fs = Ok (PString [] (quoted []))).
    { unfold replace_pattern. step.
      assert (E : fget "String" pfs = JNull).
      { unfold fget. now rewrite (proj2 (ag_none str_eqb str_eqb_eq pfs (key "String")) H3). }
      rewrite E. reflexivity. }
    split; [cbn [norm_of]|cbn [decoder_of]]; step; rewrite R; cbn [bind]; step; reflexivity.
  Qed.

  Lemma pre_string : forall fs p b inv, states fs "type" (JStr (key "Split")) ->
    pattern_given compile quoted fs false p -> pretok_of lower compile (JObj fs) <> Ok (PTSplit p b inv).
  Proof.
    intros fs p b inv T P E. inversion P as [pfs s H1 H2 H3 E0|]; subst.
    cbn [pretok_of] in E. rewrite (fget_states _ _ _ T) in E. cbn [bind as_str] in E.
    revert E. names. unfold create_split. rewrite (fget_states _ _ _ H1). cbn [as_obj bind].
    destruct (as_str (fget "behavior" fs)); cbn [bind]; try easy.
    destruct (as_bool (fget "invert" fs)); cbn [bind]; try easy.
    rewrite (aget_states _ _ _ H2).
    assert (X : forall v (f : pattern -> res pre_tokenizer) q, 
      (do s <- as_str v; regexp_pattern compile s) = Ok q -> exists find, q = PRegexp find).
    { intros v f q. destruct (as_str v); cbn [bind]; try easy. unfold regexp_pattern.
      destruct (compile _) as [find|]; [|easy]. intro K. injection K as <-. now exists find. }
    destruct (aget str_eqb (key "Regex") pfs) as [v|].
    - destruct (do s <- as_str v; regexp_pattern compile s) as [q| | | |] eqn:E1; cbn [bind]; try easy.
      destruct (X v (fun _ => Err) q E1) as (find & ->).
      destruct (behavior_of _); cbn [bind]; easy.
    - destruct (do s <- as_str (JStr s); regexp_pattern compile s) as [q| | | |] eqn:E1; cbn [bind]; try easy.
      destruct (X (JStr s) (fun _ => Err) q E1) as (find & ->).
      destruct (behavior_of _); cbn [bind]; easy.
  Qed.

  (** The decoder does not look at the scheme. *)
  Lemma decoder_scheme : forall fs s rep, states fs "type" (JStr (key "Metaspace")) ->
    given JStr fs "replacement" [] rep -> states fs "prepend_scheme" (JStr s) -> omits fs "add_prefix_space" ->
    decoder_of quoted (JObj fs) = Ok (DMetaspace rep false).
  Proof.
    intros fs s rep T R P O. cbn [decoder_of]. step.
    rewrite (given_bool fs "add_prefix_space" false false (or_intror (conj O eq_refl))). reflexivity.
  Qed.

  Lemma norm_nmt : forall fs, states fs "type" (JStr (key "Nmt")) -> norm_of base64 quoted (JObj fs) = Panic.
  Proof. intros fs T. cbn [norm_of]. step. reflexivity. Qed.
End Wrong.

Lemma trunc_unknown : forall fs max stride s, states fs "max_length" (jint max) -> states fs "stride" (jint stride) ->
  states fs "strategy" (JStr s) -> ~ In s (map (fun p => key (fst p)) strategies) ->
  trunc_of (JObj fs) = Ok (Trunc max LongestFirst stride).
Proof.
  intros fs max stride s H1 H2 H3 N. unfold trunc_of. step.
  destruct (str_eqb s (key "OnlyFirst")) eqn:E1; [exfalso; apply N; apply str_eqb_eq in E1; subst; right; now left|].
  destruct (str_eqb s (key "OnlySecond")) eqn:E2; [exfalso; apply N; apply str_eqb_eq in E2; subst; right; right; now left|].
  reflexivity.
Qed.

(** ** Added tokens *)

Lemma added_tokens : forall l,
  Forall2 token_asked (filter tc_special l) (fst (create_added l)) /\
  Forall2 token_asked (filter (fun t => negb (tc_special t)) l) (snd (create_added l)).
Proof.
  intro l. unfold create_added. cbn [fst snd].
  split; (match goal with |- Forall2 _ ?f _ => generalize f end;
    intro k; induction k as [|t k IH]; constructor; [|exact IH]; unfold token_asked, added_of; cbn; auto).
Qed.

Definition with_id (f : token_config -> Z) (t : token_config) : token_config :=
  TC (f t) (tc_content t) (tc_single t) (tc_lstrip t) (tc_rstrip t) (tc_norm t) (tc_special t).

Lemma added_ids : forall f l, add_calls (map (with_id f) l) = add_calls l.
Proof.
  intros f l. unfold add_calls, create_added.
  assert (E : forall P, (forall t, P (with_id f t) = P t) ->
    map added_of (filter P (map (with_id f) l)) = map added_of (filter P l)).
  { intros P HP. induction l as [|t l IH]; [reflexivity|]. cbn [map filter]. rewrite HP.
    destruct (P t); cbn [map]; rewrite IH; reflexivity. }
  rewrite (E tc_special) by reflexivity. rewrite (E (fun t => negb (tc_special t))) by reflexivity. reflexivity.
Qed.

(** ** Whole files *)

Lemma section_ok : forall A (f : json -> res A) (R : json -> A -> Prop) c o,
  (forall j x, R j x -> f j = Ok x) -> intended_section R c o -> ConfigModel.section f c = Ok o.
Proof.
  intros A f R c o H S. destruct S as [|fs x HR]; [reflexivity|]. unfold ConfigModel.section. now rewrite (H _ _ HR).
Qed.

Section Whole.
  Variable order : vocab -> vocab.
  Variable to32 : Q -> Q.
  Variable lower : str -> str.
  Variable base64 : str -> res str.
  Variable compile : str -> option (str -> list (Z * Z)).
  Variable quoted : str -> str -> list (Z * Z).

  Lemma whole_ok : forall tr pd ad no pt pp de mo m n p po d t pa,
    intended_model to32 false mo de m ->
    intended_section (intended_norm base64 compile quoted false) no n ->
    intended_section (intended_pre lower compile quoted false) pt p ->
    intended_section intended_processor pp po ->
    intended_section (intended_decoder lower compile quoted false) de d ->
    intended_section intended_trunc tr t ->
    intended_section intended_pad pd pa ->
    exists m', same_model m m' /\
      from_reader order to32 lower base64 compile quoted (Some (Config tr pd ad no pt pp de (Some mo)))
      = Ok (Loaded m' n p po d (add_calls ad) t pa).
  Proof.
    intros tr pd ad no pt pp de mo m n p po d t pa Hm Hn Hp Hpo Hd Ht Hpa.
    destruct (model_ok order to32 mo de m Hm) as (m' & E & Sm).
    exists m'. split; [exact Sm|]. unfold from_reader. cbn [c_model c_decoder c_normalizer c_pretokenizer c_processor c_truncation c_padding c_added].
    rewrite E. cbn [bind].
    unfold create_normalizer, create_pretokenizer, create_processor, create_decoder, create_truncation, create_padding.
    rewrite (section_ok _ _ _ no n (norm_ok base64 compile quoted) Hn). cbn [bind].
    rewrite (section_ok _ _ _ pt p (pre_ok lower compile quoted) Hp). cbn [bind].
    rewrite (section_ok _ _ _ pp po processor_ok Hpo). cbn [bind].
    rewrite (section_ok _ _ _ de d (decoder_ok lower compile quoted) Hd). cbn [bind].
    rewrite (section_ok _ _ _ tr t trunc_ok Ht). cbn [bind].
    rewrite (section_ok _ _ _ pd pa pad_ok Hpa). reflexivity.
  Qed.
End Whole.

(** The id which a listed token gets does not depend on the id written in the file. *)
Lemma added_id_is_size : forall m pattern compiles c av cs,
  tc_content c <> [] -> bm_t2i m (tc_content c) = None ->
  add_history m pattern compiles new_added_vocab (add_calls [c]) = Ok (av, cs) ->
  av_token_to_id m av (tc_content c) = Some (bm_size m).
Proof.
  intros m pattern compiles c av cs NE NI H.
  assert (L : (length (tc_content c) =? 0)%nat = false) by (destruct (tc_content c); easy).
  assert (X : forall av0, av_map av0 = [] ->
     forall r, add_tokens m pattern compiles [added_of c] av0 = Ok r -> av_token_to_id m (fst r) (tc_content c) = Some (bm_size m)).
  { intros av0 E0 r E. unfold add_tokens in E. cbn [fold_left] in E.
    unfold add_one in E. cbn [added_of at_content] in E. rewrite L in E. cbn [orb negb] in E.
    unfold av_token_to_id at 1 in E. rewrite E0 in E. cbn [aget] in E. rewrite NI in E.
    rewrite ?E0 in E. cbn in E.
    unfold refresh in E. cbn [av_special av_added av_map av_map_r av_set] in E.
    match type of E with bind (bind ?e _) _ = _ => destruct e as [l| | | |]; cbn [bind] in E; try discriminate E end.
    cbn zeta in E.
    match type of E with bind (if ?b then _ else _) _ = _ => destruct b; cbn [bind] in E; try discriminate E end.
    injection E as <-. unfold av_token_to_id. cbn. rewrite str_eqb_refl. f_equal. unfold zlen; cbn; lia. }
  unfold add_calls, create_added in H. cbn [filter map] in H.
  destruct (tc_special c); cbn [map app negb] in H; cbn [add_history add_step] in H.
  - unfold add_special_tokens in H. cbn [fold_left] in H.
    match type of H with bind ?e _ = _ => destruct e as [r| | | |] eqn:E; cbn [bind] in H; try discriminate H end.
    injection H as <- _. refine (X _ _ r E). unfold note_special. cbn [added_of at_content].
    rewrite L. reflexivity.
  - match type of H with bind ?e _ = _ => destruct e as [r| | | |] eqn:E; cbn [bind] in H; try discriminate H end.
    injection H as <- _. refine (X _ _ r E). reflexivity.
Qed.
