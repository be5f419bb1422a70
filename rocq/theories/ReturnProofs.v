(** Proofs that Encode returns. *)
From Verif Require Import Base BaseProofs Utf8Model Utf8Proofs PatternModel PatternSpec PatternProofs NormalizedModel NormalizedSpec NormalizedProofs NormalizedInvProofs
  NormalizedExactProofs NormalizedOpProofs EncodingModel EncodingSpec EncodingProofs BpeModel BpeSpec AddedVocabModel AddedVocabSpec AddedFindProofs
  PreTokenizedModel PreTokenizedSpec PreTokenizedProofs PreTokenizerModel PreTokenizerSpec PreTokenizerProofs ProcessorModel ProcessorSpec ProcessorProofs
  ExpandedProofs PipelineModel PipelineSpec PipelineProofs PlacedProofs PlacedNormProofs TokensSpec TokensProofs MetaspaceSpec MetaspaceProofs ReturnSpec ReturnEndProofs.
Open Scope Z_scope.

(** ** Splitting *)
Lemma split_pieces_total f l : Forall (fun sp => sp_toks sp = None -> forall i, exists new, f i (sp_ns sp) = Ok new) l ->
  forall i, exists l', split_pieces f i l = Ok l'.
Proof.
  induction 1 as [|sp l H F IH]; intros i; cbn [split_pieces]; [eauto|]. destruct (IH (S i)) as (l' & E). rewrite E. destruct (sp_toks sp) as [t|] eqn:Et; [cbn; eauto|].
  destruct (H eq_refl i) as (new & En). rewrite En. cbn. eauto.
Qed.
(** A split function that makes no tokens, or none that are empty. *)
Definition no_empty_tokens (l : list split) : Prop := Forall (fun sp => sp_toks sp <> Some []) l.
Lemma split_there f p p' : (forall i n new, f i n = Ok new -> no_empty_tokens new) -> tokens_there p -> pt_split f p = Ok p' -> tokens_there p'.
Proof.
  intros H T. unfold pt_split. destruct (split_pieces f 0 (pt_splits p)) as [l'| | | |] eqn:E; cbn [bind]; try discriminate. intros [= <-]. unfold tokens_there in *. cbn [pt_splits].
  destruct (split_pieces_news f _ _ _ E) as (news & -> & F). apply forall_concat_l. clear E. induction F as [|sp new l news X F IH]; [constructor|].
  inversion T as [|? ? T1 T2]; subst. constructor; [|now apply IH]. destruct (sp_toks sp) as [t|] eqn:Et.
  - subst new. constructor; [rewrite Et; exact T1|constructor].
  - destruct X as (i & new0 & Ef & ->). apply forall_filter. exact (H i _ new0 Ef).
Qed.
Lemma untokenized_there ps : no_empty_tokens (untokenized ps).
Proof. unfold no_empty_tokens, untokenized. apply Forall_map. apply Forall_forall. intros; cbn; discriminate. Qed.

(** A split function that returns on every piece. *)
Definition splits (f : nat -> ns -> res (list split)) : Prop :=
  (forall orig i n, in_place orig n -> ns_norm n <> [] -> exists new, f i n = Ok new) /\ forall i n new, f i n = Ok new -> no_empty_tokens new.
Definition fresh_splits (f : nat -> ns -> res (list split)) : Prop :=
  (forall orig i n, in_place orig n -> ns_norm n <> [] -> untouched n -> exists new, f i n = Ok new) /\ forall i n new, f i n = Ok new -> no_empty_tokens new.
Lemma split_returns f p : splits f -> laid p -> tokens_there p -> exists p', pt_split f p = Ok p' /\ tokens_there p'.
Proof.
  intros [S1 S2] [G _] T. assert (E : exists p', pt_split f p = Ok p').
  { unfold pt_split. destruct (split_pieces_total f (pt_splits p)) with (i := 0%nat) as (l' & E); [|rewrite E; cbn; eauto].
    eapply Forall_impl; [|exact G]. intros sp (P & _ & N) _ i. exact (S1 _ i _ P N). }
  destruct E as (p' & E). exists p'. split; [exact E|]. exact (split_there f p p' S2 T E).
Qed.
Lemma fresh_split_returns f p : fresh_splits f -> laid p -> fresh p -> tokens_there p -> exists p', pt_split f p = Ok p' /\ tokens_there p'.
Proof.
  intros [S1 S2] [G _] U T. assert (E : exists p', pt_split f p = Ok p').
  { unfold pt_split. destruct (split_pieces_total f (pt_splits p)) with (i := 0%nat) as (l' & E); [|rewrite E; cbn; eauto].
    unfold fresh in U. rewrite Forall_forall in *. intros sp Hsp _ i. destruct (G sp Hsp) as (P & _ & N). exact (S1 _ i _ P N (U sp Hsp)). }
  destruct E as (p' & E). exists p'. split; [exact E|]. exact (split_there f p p' S2 T E).
Qed.

Lemma split_by_splits p b : cuts_well p -> splits (split_by p b).
Proof.
  intros Cw. split.
  - intros orig i n P Ne. destruct (split_parts p b orig n Cw P Ne) as (ps & E & _). unfold split_by. rewrite E. cbn. eauto.
  - intros i n new E. unfold split_by in E. destruct (ns_split n p b) as [ps| | | |]; cbn [bind] in E; try discriminate E. injection E as <-. apply untokenized_there.
Qed.
Lemma bert_splits u : splits (bert_split u).
Proof.
  split.
  - intros orig i n P Ne. unfold bert_split. destruct (split_parts (PRegexp find_spaces) Removed orig n (proj1 (class_cuts _)) P Ne) as (ps & E & (F & _)). rewrite E. cbn [bind].
    assert (M : exists pss, mapR (fun m => ns_split m (PFn (is_punct u)) Isolated) ps = Ok pss).
    { clear E. induction F as [|m ps [Pm Nm] F (pss & IH)]; [eexists; reflexivity|]. destruct (split_parts (PFn (is_punct u)) Isolated orig m (fn_cuts _) Pm Nm) as (qs & Eq & _).
      rewrite mapR_cons, Eq. cbn [bind]. rewrite IH. cbn. eauto. }
    destruct M as (pss & ->). cbn. eauto.
  - intros i n new E. unfold bert_split in E. destruct (ns_split n _ Removed) as [ps| | | |]; cbn [bind] in E; try discriminate E.
    destruct (mapR _ ps) as [pss| | | |]; cbn [bind] in E; try discriminate E. injection E as <-. apply untokenized_there.
Qed.
Lemma windows_total orig n l : in_place orig n ->
  Forall (fun r => cut (ns_norm n) (r, false) /\ 0 <= fst r /\ snd r <= zlen (ns_norm n)) (pairs l) -> exists ps, windows n l = Ok ps.
Proof.
  intros P. induction l as [|a [|b l] IH]; intros F; [eexists; reflexivity|eexists; reflexivity|].
  change (pairs (a :: b :: l)) with ((a, b) :: pairs (b :: l)) in F. inversion F as [|? ? (C & H1 & H2) F']; subst. destruct C as (C1 & C2 & C3). cbn [fst snd] in *.
  change (windows n (a :: b :: l)) with (do m <- ns_slice n (Rng a b OnNormalized); match m with None => Panic | Some m => do rest <- windows n (b :: l); Ok (m :: rest) end).
  destruct (slice_in_place orig n a b P H1 C1 H2 C2 C3) as (m & Em & _). rewrite Em. cbn [bind]. destruct (IH F') as (ps & E). rewrite E. cbn. eauto.
Qed.
Lemma script_splits u : splits (script_split u).
Proof.
  split.
  - intros orig i n P Ne. unfold script_split. pose proof P as (W & O & (rs & Sc & NZ & En) & S0 & S1). rewrite En, runes_encode by assumption.
    match goal with |- context [windows n ?l] => set (ls := l) end. destruct (script_starts_spec (fixed_script u) rs [] []) as [I1 I2]. cbn [app] in I1. change (bytes []) with 0 in I1, I2.
    destruct (pairs_rising (encode rs) ls 0) as [Q1 Q2].
    + apply climbing_app; [exact I2| |apply zlen_nonneg]. eapply Forall_impl; [|exact I1]. intros x [_ H]. exact H.
    + lia.
    + apply Forall_app. split.
      * eapply Forall_impl; [|exact I1]. intros x [H1 H2]. split; [now apply char_pos_boundary|]. unfold bytes in H2. lia.
      * constructor; [|constructor]. split; [right; now left|lia].
    + rewrite <- En in Q2. destruct (windows_total orig n ls P Q2) as (ps & E). rewrite E. cbn. eauto.
  - intros i n new E. unfold script_split in E. destruct (windows n _) as [ps| | | |]; cbn [bind] in E; try discriminate E. injection E as <-. apply untokenized_there.
Qed.

(** Pre-tokenizers that cut. *)
Lemma cutting_returns u t : cutting t -> pre_returns (pre_tokenize u t).
Proof.
  induction t as [t N|ts IH] using pre_tokenizer_ind'; intros H p L T.
  - destruct t as [| | |b|i|d|q b i| |r g s|x|ts]; cbn [pre_tokenize cutting] in *; [..|now destruct (N ts)].
    + exact (split_returns _ p (bert_splits u) L T).
    + exact (split_returns _ p (split_by_splits _ _ (proj2 (class_cuts _))) L T).
    + exact (split_returns _ p (split_by_splits _ _ (fn_cuts _)) L T).
    + exact (split_returns _ p (split_by_splits _ _ (fn_cuts _)) L T).
    + exact (split_returns _ p (split_by_splits _ _ (fn_cuts _)) L T).
    + exact (split_returns _ p (split_by_splits _ _ (rune_cuts _)) L T).
    + exact (split_returns _ p (split_by_splits _ _ (finds_cuts _ H)) L T).
    + exact (split_returns _ p (script_splits u) L T).
    + destruct H.
    + destruct H.
  - revert p L T. induction ts as [|t ts IHts]; intros p L T; [exists p; auto|].
    inversion IH as [|? ? Ht Hts]; subst. destruct H as [H1 H2]. cbn [pre_tokenize].
    destruct (Ht H1 p L T) as (p1 & E1 & T1). rewrite E1. cbn [bind].
    exact (IHts Hts H2 p1 (proj1 (placed_ok u t (cutting_placed t H1) p p1 L E1)) T1).
Qed.

(** Pre-tokenizers that rewrite text as it was given. *)
Lemma byte_fresh_splits u prefix : (prefix = true -> blank_ok u) -> fresh_splits (byte_split u prefix).
Proof.
  intros U. split.
  - intros orig i n (W & O & (cs & Sc' & NZ & En) & _) Ne Un. destruct (untouched_fresh n W Un) as (rs & Sc & Fr).
    assert (cs = rs). { apply encode_inj; [assumption|assumption|]. rewrite <- En. apply Fr. } subst cs.
    assert (Nr : rs <> []) by (intros ->; apply Ne; rewrite En; reflexivity).
    destruct (byte_split_fresh u prefix i rs n Sc NZ Nr (fun H _ => U H) Fr W O) as (gs & l & E' & _). eauto.
  - intros i n new E. unfold byte_split in E. apply bind_Ok_inv in E as (n1 & _ & E). unfold split_by in E.
    destruct (ns_split n1 _ Isolated) as [ps| | | |]; cbn [bind] in E; try discriminate E. injection E as <-. apply untokenized_there.
Qed.
Lemma normalize_total l : Forall byte_ready l -> exists l', normalize_pieces byte_normalize l = Ok l' /\ no_empty_tokens l'.
Proof.
  induction 1 as [|sp l R F (l' & E & T)]; cbn [normalize_pieces]; [eexists; split; [reflexivity|constructor]|]. unfold byte_ready in R. destruct (sp_toks sp) as [ts|]; [eauto|].
  destruct R as (g & (_ & X & W & O) & Ng & Wg & Zg). destruct (normalize_expanded g (sp_ns sp) W O X Ng Wg Zg) as (m & Em & _). rewrite Em. cbn [bind]. rewrite E. cbn [bind].
  eexists. split; [reflexivity|]. constructor; [cbn; discriminate|exact T].
Qed.
Lemma byte_level_returns u prefix : (prefix = true -> blank_ok u) -> pre_fresh_returns (pre_tokenize u (PTByteLevel prefix)).
Proof.
  intros U p L Un T. cbn [pre_tokenize]. destruct (fresh_split_returns _ p (byte_fresh_splits u prefix U) L Un T) as (p1 & E1 & T1). rewrite E1. cbn [bind].
  pose proof (split_ready u prefix p p1 U L Un E1) as R. unfold pt_normalize. destruct (normalize_total _ R) as (l' & E & T'). rewrite E. cbn [bind].
  eexists. split; [reflexivity|exact T'].
Qed.
Lemma meta_fresh_splits rep find scheme : clean rep -> rep <> [] -> cuts_well (PRegexp find) -> fresh_splits (meta_split rep find scheme).
Proof.
  intros Cr Nr Cw. split.
  - intros orig i n P Ne U. pose proof P as (W & O & (cs & Sc & NZ & En) & _). destruct (untouched_expanded n U) as (rs & Sr & X).
    assert (En' : ns_norm n = encode rs) by (destruct X as (_ & X & _); now rewrite exp_text_same in X).
    assert (cs = rs) by (apply encode_inj; congruence). subst cs.
    destruct (clean_valid_runes rep Cr) as (rr & S1 & S2 & S3 & S4).
    destruct (replace_class re_space rr rs n space_ascii S1 Sr) as (n1 & E1 & _ & _); [intros ->; apply Ne; rewrite En; reflexivity|exact W|exact X|].
    rewrite <- S3 in E1. unfold meta_split. rewrite E1. cbn [bind].
    pose proof (replace_rewrites orig _ rep n n1 (chars_cuts re_space) Cr Ne P E1) as R1.
    match goal with |- exists new, (do n2 <- (if ?b then _ else _); _) = _ => set (add := b) end.
    assert (N2 : exists n2, (if add then ns_prepend rep n1 else Ok n1) = Ok n2).
    { destruct add; [|eauto]. pose proof (proj1 R1) as (W1 & O1 & (r1 & A & B & C) & _). destruct (prepend_ok rep r1 n1 W1 O1 C A) as (n2 & E2 & _); [destruct B; cbn; [discriminate|assumption]|eauto]. }
    destruct N2 as (n2 & E2). rewrite E2. cbn [bind].
    assert (R2 : rewritten orig n n2).
    { destruct add; [|injection E2 as <-; exact R1]. eapply rewritten_trans; [exact R1|]. exact (prepend_rewrites orig rep n1 n2 Cr Nr (proj1 R1) E2). }
    destruct (ns_norm n2) as [|c t] eqn:En2.
    + destruct (split_nothing n2 (PRegexp find) MergedWithNext false En2 eq_refl) as (ps & Es & _). unfold split_by. rewrite Es. cbn. eauto.
    + apply (proj1 (split_by_splits _ _ Cw) orig i n2 (proj1 R2)). congruence.
  - intros i n new E. unfold meta_split in E. apply bind_Ok_inv in E as (n1 & _ & E). apply bind_Ok_inv in E as (n2 & _ & E).
    exact (proj2 (split_by_splits _ MergedWithNext Cw) i n2 new E).
Qed.
Lemma metaspace_returns u rep find scheme : placed (PTMetaspace rep find scheme) -> pre_fresh_returns (pre_tokenize u (PTMetaspace rep find scheme)).
Proof. intros (H1 & H2 & H3) p L Un T. cbn [pre_tokenize]. exact (fresh_split_returns _ p (meta_fresh_splits rep find scheme H1 H2 (finds_cuts _ H3)) L Un T). Qed.

Lemma sequence_snoc u ts t p : pre_tokenize u (PTSequence (ts ++ [t])) p = (do p1 <- pre_tokenize u (PTSequence ts) p; pre_tokenize u t p1).
Proof.
  revert p. induction ts as [|t0 ts IH]; intros p.
  - change (pre_tokenize u (PTSequence ([] ++ [t])) p) with (do p1 <- pre_tokenize u t p; Ok p1). cbn [pre_tokenize bind]. now destruct (pre_tokenize u t p).
  - change (pre_tokenize u (PTSequence ((t0 :: ts) ++ [t])) p) with (do p1 <- pre_tokenize u t0 p; pre_tokenize u (PTSequence (ts ++ [t])) p1).
    change (pre_tokenize u (PTSequence (t0 :: ts)) p) with (do p1 <- pre_tokenize u t0 p; pre_tokenize u (PTSequence ts) p1).
    destruct (pre_tokenize u t0 p) as [p1| | | |]; cbn [bind]; [apply IH|reflexivity..].
Qed.
Lemma cut_then_returns u ts t : cutting (PTSequence ts) -> pre_fresh_returns (pre_tokenize u t) -> pre_fresh_returns (pre_tokenize u (PTSequence (ts ++ [t]))).
Proof.
  intros C R p L U T. rewrite sequence_snoc. destruct (cutting_returns u _ C p L T) as (p1 & E1 & T1). rewrite E1. cbn [bind].
  apply R; [exact (proj1 (placed_ok u _ (cutting_placed _ C) p p1 L E1))|exact (cutting_fresh u _ p p1 C L U E1)|exact T1].
Qed.

(** ** Added tokens and normalizer *)
Section Encode.
  Variable ss si : list io_pair -> list io_pair.
  Hypothesis HS : sorts start_key ss.
  Hypothesis HI : sorts id_key si.

  Lemma indices_total set orig n : matching_ok set -> in_place orig n -> exists new, split_with_indices ss si set n = Ok new.
  Proof.
    intros M P. destruct (ns_norm n) as [|c s] eqn:En.
    - destruct (indices_empty ss si orig set n P En) as (sps & E & _). eauto.
    - destruct (indices_ok ss si HS HI orig set n M P ltac:(congruence)) as (l & sps & E & _). eauto.
  Qed.
  Lemma indices_there set n new : split_with_indices ss si set n = Ok new -> no_empty_tokens new.
  Proof.
    unfold split_with_indices. generalize (AddedVocabModel.find_matches ss si (zlen (ns_norm n)) (mt_ids set) (mt_find set (ns_norm n))). intros l. revert new.
    induction l as [|x l IH]; intros new E; [injection E as <-; constructor|]. rewrite mapR_cons in E. apply bind_Ok_inv in E as (sp & E1 & E). apply bind_Ok_inv in E as (rest & E2 & E). injection E as <-.
    constructor; [|now apply IH]. unfold indexed_piece in E1. apply bind_Ok_inv in E1 as (m & _ & E1). destruct m as [m|]; [|discriminate]. injection E1 as <-. cbn. destruct (fst x); discriminate.
  Qed.
  Lemma extract_returns t s : matching_ok (tk_raw t) -> matching_ok (tk_normalized t) -> with_default normalizer_ok (tk_normalizer t) ->
    with_default normalizer_returns (tk_normalizer t) -> clean s ->
    exists p, extract_and_normalize ss si t s = Ok p /\ tokens_there p.
  Proof.
    intros M1 M2 N R C. unfold extract_and_normalize. destruct (raw_apart ss si HS HI (tk_raw t) s M1 C) as (p1 & E1 & O1 & A1 & U1). rewrite E1. cbn [bind].
    assert (T1 : tokens_there p1).
    { apply (split_there _ _ _ (fun i n new H => indices_there (tk_raw t) n new H)) with (2 := E1). constructor; [cbn; discriminate|constructor]. }
    assert (E : exists p, pt_split (fun _ n => do m <- apply_normalizer (tk_normalizer t) n; split_with_indices ss si (tk_normalized t) m) p1 = Ok p).
    { unfold pt_split. destruct (split_pieces_total (fun _ n => do m <- apply_normalizer (tk_normalizer t) n; split_with_indices ss si (tk_normalized t) m) (pt_splits p1)) with (i := 0%nat) as (l' & E); [|rewrite E; cbn; eauto].
      destruct A1 as [G _]. unfold all_good in G. rewrite Forall_forall in *. intros sp Hsp _ i. destruct (G sp Hsp) as (P & _). specialize (U1 sp Hsp).
      assert (A : exists m, apply_normalizer (tk_normalizer t) (sp_ns sp) = Ok m).
      { unfold apply_normalizer. destruct (tk_normalizer t) as [f|]; [|eauto]. destruct (R s (sp_ns sp) P U1) as (m & Em). rewrite Em. eauto. }
      destruct A as (m & Em). rewrite Em. cbn [bind]. destruct (apply_ok t s (sp_ns sp) m N P U1 Em) as (Pm & _). exact (indices_total _ s m M2 Pm). }
    destruct E as (p & E). exists p. split; [exact E|]. refine (split_there _ _ _ _ T1 E).
    intros i n new H. apply bind_Ok_inv in H as (m & _ & H). exact (indices_there _ m new H).
  Qed.

  (** ** Tokens *)
  Lemma tokenize_total (P : str -> Prop) g p : (forall n, P (ns_norm n) -> exists toks, g n = Ok (Some toks) /\ toks <> []) ->
    tokens_there p -> Forall (fun sp => sp_toks sp = None -> P (sp_text sp)) (pt_splits p) ->
    exists p', pt_tokenize g p = Ok p' /\ forall sp, In sp (pt_splits p') -> toks_in sp <> [].
  Proof.
    intros M T Q. unfold pt_tokenize. assert (E : exists l', tokenize_pieces g (pt_splits p) = Ok l' /\ forall sp, In sp l' -> toks_in sp <> []).
    { unfold tokens_there in T. induction (pt_splits p) as [|sp l IH]; cbn [tokenize_pieces]; [eexists; split; [reflexivity|intros sp []]|].
      inversion T as [|? ? T1 T2]; subst. inversion Q as [|? ? Q1 Q2]; subst. destruct (IH T2 Q2) as (l' & E & F). destruct (sp_toks sp) as [t|] eqn:Et.
      - cbn [bind]. rewrite E. cbn [bind]. eexists. split; [reflexivity|]. intros x [<-|Hx]; [|now apply F]. unfold toks_in. rewrite Et. congruence.
      - destruct (M (sp_ns sp) (Q1 eq_refl)) as (toks & Em & Ne). rewrite Em. cbn [bind]. rewrite E. cbn [bind]. eexists. split; [reflexivity|].
        intros x [<-|Hx]; [exact Ne|now apply F]. }
    destruct E as (l' & E & F). rewrite E. cbn [bind]. eexists. split; [reflexivity|exact F].
  Qed.
  (** The stages put together; [P] holds of the texts that the pre-tokenizer leaves. *)
  Lemma text_returns_on (P : str -> Prop) t ty wi ot s p p' f : components_ok t -> clean s -> ot <> OInvalid ->
    extract_and_normalize ss si t s = Ok p -> match tk_pre t with None => Ok p | Some f => f p end = Ok p' -> tokens_there p' ->
    Forall (fun sp => sp_toks sp = None -> P (sp_text sp)) (pt_splits p') ->
    tk_model t = Some f -> (forall w, P w -> exists toks, f w = Ok (Some toks) /\ toks <> []) ->
    exists e, encode_text ss si t ty wi ot s = Ok e.
  Proof.
    intros (M1 & M2 & N & Pr & Md) C Hot E1 E2 T Q Em Mr. unfold encode_text, do_tokenize. rewrite E1. cbn [bind]. rewrite E2. cbn [bind]. rewrite Em in *. cbn [with_default] in Md.
    destruct (extract_laid ss si HS HI t s p M1 M2 N C E1) as (L1 & O1 & U1).
    assert (L2 : laid p').
    { destruct (tk_pre t) as [g|]; [|injection E2 as <-; auto]. destruct Pr as [Pr|[Nn Pr]].
      - now apply (Pr p p').
      - now apply (Pr p p' L1 (U1 Nn)). }
    destruct (tokenize_total P (fun n => f (ns_norm n)) p' (fun n H => Mr _ H) T Q) as (p3 & E3 & F3). rewrite E3. cbn [bind].
    destruct (tokenize_laid (fun n => f (ns_norm n)) p' p3) as [L3 _]; [intros n toks Cn Nn Ef; exact (Md _ _ Cn Nn Ef)|exact L2|exact E3|].
    destruct (into_fails p3 ty wi ot (laid_good p3 L3)) as [I1 I2]. apply I2. intros X. apply (proj1 I1) in X. destruct X as (_ & [(sp & Hsp & Hn)|X]); [|congruence].
    exact (F3 sp Hsp Hn).
  Qed.
  Lemma text_returns t ty wi ot s : components_ok t -> components_return t -> clean s -> ot <> OInvalid ->
    exists e, encode_text ss si t ty wi ot s = Ok e.
  Proof.
    intros K (RN & RP & f & Em & Mr) C Hot. pose proof K as (M1 & M2 & N & Pr & Md).
    destruct (extract_returns t s M1 M2 N RN C) as (p & E1 & T1). destruct (extract_laid ss si HS HI t s p M1 M2 N C E1) as (L1 & O1 & U1).
    assert (E2 : exists p', match tk_pre t with None => Ok p | Some f => f p end = Ok p' /\ tokens_there p').
    { destruct (tk_pre t) as [g|]; [|eauto]. destruct RP as [RP|[Nn RP]]; [exact (RP p L1 T1)|exact (RP p L1 (U1 Nn) T1)]. }
    destruct E2 as (p' & E2 & T2).
    apply (text_returns_on (fun w => clean w /\ w <> []) t ty wi ot s p p' f K C Hot E1 E2 T2); [|exact Em|intros w [H1 H2]; exact (Mr w H1 H2)].
    assert (L2 : laid p').
    { destruct (tk_pre t) as [g|]; [|injection E2 as <-; auto]. destruct Pr as [Pr|[Nn Pr]].
      - now apply (Pr p p').
      - now apply (Pr p p' L1 (U1 Nn)). }
    destruct L2 as [G _]. eapply Forall_impl; [|exact G]. intros sp ((_ & _ & Cs & _) & _ & Ns) _. split; assumption.
  Qed.

  (** ** All inputs *)
  Lemma sequence_plain t ty ot x e : encode_sequence ss si t ty ot x = Ok e -> overflowing e = [] /\ seq_ranges e = Some [].
  Proof.
    destruct x as [s|l]; intros H; [destruct (raw_same ss si t ty ot s e H) as (_ & _ & _ & H1 & H2); auto|].
    apply bind_Ok_inv in H as (es & Hl & H). destruct (words_each ss si t ty ot l 0 es ltac:(lia) Hl) as (P & _). unfold merge in H.
    destruct (merges_ok es default_encoding eq_refl eq_refl P) as (r & Hr & H1 & H2). assert (r = e) by congruence. subst r. auto.
  Qed.
  Lemma text_parallel t ty wi ot s e : encode_text ss si t ty wi ot s = Ok e -> deep_parallel e.
  Proof.
    unfold encode_text. intros H. apply bind_Ok_inv in H as (p & _ & H). apply bind_Ok_inv in H as (p' & _ & H). unfold do_tokenize in H. apply bind_Ok_inv in H as (q & _ & H).
    destruct (into_rows _ _ _ _ _ H) as (R1 & R2 & R3 & R4 & R5 & R6 & R7 & R8 & R9 & _). constructor; [|rewrite R9; constructor].
    unfold parallel. rewrite R1, R2, R4, R5, R6, R7, R8, !map_length, !repeat_length. auto 10.
  Qed.
  Lemma merges_parallel l : forall e r, foldR (fun acc p => merge_with false acc p) l e = Ok r -> deep_parallel e -> Forall deep_parallel l -> deep_parallel r.
  Proof.
    induction l as [|p l IH]; intros e r H De Dl; cbn [foldR] in H; [injection H as <-; exact De|]. destruct (merge_with false e p) as [x| | | |] eqn:E; try discriminate.
    inversion Dl as [|? ? D1 D2]; subst. exact (IH x r H (merge_with_deep_parallel _ _ _ _ De D1 E) D2).
  Qed.
  Lemma sequence_parallel t ty ot x e : encode_sequence ss si t ty ot x = Ok e -> parallel e.
  Proof.
    intros H. assert (D : deep_parallel e); [|now inversion D].
    assert (Dd : deep_parallel default_encoding) by (constructor; [repeat split|constructor]).
    destruct x as [s|l]; apply bind_Ok_inv in H as (es & He & H); unfold merge in H; refine (merges_parallel _ _ _ H Dd _).
    - apply bind_Ok_inv in He as (e0 & He & Hl). injection Hl as <-. constructor; [exact (text_parallel _ _ _ _ _ _ He)|constructor].
    - clear H. revert es He. generalize 0 as i. induction l as [|s l IH]; intros i es He; cbn [encode_words] in He; [injection He as <-; constructor|].
      apply bind_Ok_inv in He as (e0 & He & H). apply bind_Ok_inv in H as (rest & Hr & H). injection H as <-. constructor; [exact (text_parallel _ _ _ _ _ _ He)|exact (IH _ _ Hr)].
  Qed.
  Lemma sequence_returns t ty ot x : components_ok t -> components_return t -> clean_input x -> ot <> OInvalid ->
    exists e, encode_sequence ss si t ty ot x = Ok e.
  Proof.
    intros K R C Hot. assert (G : forall s, clean s -> exists e, encode_sequence ss si t ty ot (Raw s) = Ok e).
    { intros s Cs. destruct (text_returns t ty (-1) ot s K R Cs Hot) as (e & E). exact (raw_ok ss si t ty ot s e E). }
    destruct x as [s|l]; [now apply G|]. apply words_ok. eapply Forall_impl; [|exact C]. exact G.
  Qed.
  Lemma encode_returns t ot x add : components_ok t -> components_return t -> ending_returns t (dual x) add -> clean_inputs x -> ot <> OInvalid ->
    exists e, tk_encode ss si t ot x add = Ok (Some e).
  Proof.
    intros K R (H1 & H2 & H3) C Hot.
    assert (Pl : forall ty a e, encode_sequence ss si t ty ot a = Ok e -> plain e).
    { intros ty a e E. destruct (sequence_plain _ _ _ _ _ E). split; [exact (sequence_parallel _ _ _ _ _ E)|auto]. }
    destruct x as [a|a b]; cbn [tk_encode clean_inputs dual] in *.
    - destruct (sequence_returns t 0 ot a K R C Hot) as (e & E). rewrite E. cbn [bind]. apply post_returns; auto; [exact (Pl _ _ _ E)|discriminate].
    - destruct C as [Ca Cb]. destruct (sequence_returns t 0 ot a K R Ca Hot) as (e & E). rewrite E. cbn [bind]. destruct (sequence_returns t 1 ot b K R Cb Hot) as (e' & E'). rewrite E'. cbn [bind].
      apply post_returns; auto; [exact (Pl _ _ _ E)|]. intros p [= <-]. exact (Pl _ _ _ E').
  Qed.
End Encode.
