(** Normalizers that turn some texts into others, and the one of BERT (C74, C77). *)
From Verif Require Import Base BaseProofs Utf8Model Utf8Proofs NormalizedModel NormalizedSpec NormalizedProofs NormalizedInvProofs NormalizedExactProofs NormalizedOpProofs EncodingModel EncodingSpec EncodingProofs
  BpeModel BpeTokProofs BpeSaveModel WordPieceModel WordPieceSpec WordPieceProofs AddedVocabModel AddedVocabSpec AddedFindProofs AddedPatternModel AddedPatternProofs DecoderModel DecoderProofs PreTokenizedModel PreTokenizedSpec PreTokenizedProofs
  PreTokenizerModel PreTokenizerSpec ChunkProofs PreTokenizerProofs ProcessorModel ExpandedProofs MetaspaceProofs BertNormModel BertNormSpec BertNormProofs PipelineModel PipelineSpec PipelineProofs PlacedProofs PlacedNormProofs TokensSpec TokensProofs
  ReturnSpec ReturnProofs RoundTripSpec RoundTripEndProofs RoundTripProofs WordsSpec WordsProofs.
Open Scope Z_scope.

Lemma same_transform rs n : rs <> [] -> Forall scalar rs -> Forall (fun c => c <> 0%N) rs -> fresh_as rs n ->
  exists n', transform n (flat_map exp_items (same rs)) 0 = Ok n' /\ fresh_as rs n' /\ ns_shift n' = ns_shift n.
Proof.
  intros Ne Sc NZ F. destruct (lead_exact false (same rs) n) as (n' & E & O & T & A & Va).
  - now apply Forall_map.
  - now apply same_ok.
  - destruct rs; [congruence|discriminate].
  - now rewrite map_fst_same.
  - cbn [app] in *. exists n'. split; [exact E|]. rewrite map_fst_same, exp_text_same, exp_al_same, exp_ao_same in *. destruct (fresh_wf rs n Sc F) as [W _]. split.
    + split; [exact O|]. split; [exact T|]. split; [exact A|]. split; [exact Va|]. eapply transform_range_wf in E; [apply E|exact W|]. now apply valid_exp_items, same_ok.
    + apply transform_range_spec in E. destruct E as (nr & s' & e' & _ & _ & _ & _ & _ & _ & _ & Hsh & _). exact Hsh.
Qed.
(** ** The normalizer of BERT *)
Lemma bert_stages cc mn lower a b c lowercase rs n : rs <> [] -> Forall scalar rs -> Forall (fun c => dropped cc c = false) rs -> fresh_as rs n ->
  exists m, bert_normalize cc mn lower (BN a b c lowercase) n = (let m3 := if lowercase then case_map lower m else m in if c then remove_accents mn m3 else Ok m3) /\
    wf m /\ ordered (ns_al m) /\ ns_orig m = ns_orig n /\ ns_shift m = ns_shift n /\ ns_norm m = encode (if b then spaced_by is_chinese rs else rs) /\
    expand (ns_ao_values m) = Some (if b && next_is is_chinese rs then 1 else 0, zlen (ns_norm m)).
Proof.
  intros Ne Sc D F. pose proof (dropped_nonzero cc rs D) as NZ. unfold bert_normalize. cbn [bn_clean bn_chinese bn_lower bn_accents].
  assert (Rn : forall k, fresh_as rs k -> runes (ns_norm k) = rs) by (intros k (_ & -> & _); now apply runes_encode).
  assert (S1 : exists n1, (if a then clean_text cc n else Ok n) = Ok n1 /\ fresh_as rs n1 /\ ns_shift n1 = ns_shift n).
  { destruct a; [|exists n; auto]. unfold clean_text. rewrite (Rn n F), clean_none by exact D. now apply same_transform. }
  destruct S1 as (n1 & -> & F1 & Sh1). cbn [bind]. assert (Eo : ns_orig n = encode rs) by apply F. destruct (fresh_wf rs n1 Sc F1) as (W1 & O1). destruct b.
  - destruct (chinese_fresh rs n1 Ne Sc NZ F1) as (n2 & E2 & Or & T & A & Va). rewrite E2. cbn [bind]. exists n2. split; [reflexivity|]. split.
    { eapply transform_range_wf in E2; [exact E2|exact W1|]. rewrite chinese_items_xs. apply Forall_app. split.
      - destruct (next_is is_chinese (runes (ns_norm n1))); repeat constructor. apply (valid_encode_rune 32).
      - apply valid_exp_items, sp_xs_ok. now rewrite (Rn n1 F1). }
    split. { rewrite A. apply ordered_app; [destruct (next_is is_chinese rs); [apply (ordered_repeat (0, 0) 1)|apply ordered_nil]|apply exp_al_ordered|].
      intros v w Hv Hw. destruct (next_is is_chinese rs); [|destruct Hv]. destruct Hv as [<-|[]].
      pose proof (exp_al_bounds (sp_xs rs) 0) as B. rewrite Forall_forall in B. specialize (B w Hw). unfold ple. cbn [fst snd]. lia. }
    split; [congruence|]. split.
    { apply transform_range_spec in E2. destruct E2 as (nr & s' & e' & _ & _ & _ & _ & _ & _ & _ & Hsh & _). congruence. }
    split; [exact T|]. rewrite Va, exp_ao_expand by (destruct rs; [congruence|discriminate]).
    rewrite T, <- sp_xs_text, zlen_app. cbn [andb]. destruct (next_is is_chinese rs); reflexivity.
  - cbn [bind]. exists n1. split; [reflexivity|]. split; [exact W1|]. split; [exact O1|]. destruct F1 as (Or & T & A & Va & _). split; [congruence|]. split; [exact Sh1|].
    split; [exact T|]. rewrite Va, <- exp_ao_same, exp_ao_expand by (destruct rs; [congruence|discriminate]).
    rewrite exp_text_same, T. reflexivity.
Qed.
Lemma bert_turned cc mn lower a b c (lowercase : bool) n : wf n -> untouched n -> ns_norm n <> [] -> bert_reads cc mn lower b lowercase c (ns_norm n) ->
  exists m, bert_normalize cc mn lower (BN a b c lowercase) n = Ok m /\ ns_norm m = bert_text b lowercase c mn lower (runes (ns_norm n)) /\
    ns_orig m = ns_orig n /\ ns_shift m = ns_shift n /\ wf m /\ ordered (ns_al m) /\ clean (ns_norm m).
Proof.
  intros W U Ne (P & C & L & Hs). destruct (untouched_fresh n W U) as (rs & Sc & F). assert (T : ns_norm n = encode rs) by apply F. assert (Nr : rs <> []) by (intros ->; now apply Ne).
  rewrite T, runes_encode in * by exact Sc. unfold bert_text. set (t := encode (if b then spaced rs else rs)) in *. set (t2 := if lowercase then lower t else t) in *.
  destruct (bert_stages cc mn lower a b c lowercase rs n Nr Sc) as (n2 & E & W2 & Or & Og & Sh & T2 & Ex); [eapply Forall_impl; [|exact P]; cbn; tauto|exact F|].
  assert (Es : (if b then spaced_by is_chinese rs else rs) = if b then spaced rs else rs).
  { destruct b; [|reflexivity]. apply spaced_by_eq. eapply Forall_impl; [|exact P]. cbn. tauto. }
  rewrite Es in T2. fold t in T2. rewrite E. clear E Es. cbv zeta. set (n3 := if lowercase then case_map lower n2 else n2).
  assert (T3 : ns_norm n3 = t2) by (subst n3 t2; destruct lowercase; cbn [case_map ns_norm]; congruence).
  assert (N3 : ns_orig n3 = ns_orig n /\ ns_shift n3 = ns_shift n /\ wf n3 /\ ordered (ns_al n3)).
  { subst n3. destruct lowercase; [|auto]. split; [exact Og|]. split; [exact Sh|]. split; [|exact Or]. apply case_map_wf; [exact W2|]. rewrite T2. exact L. }
  destruct N3 as (Og3 & Sh3 & W3 & Or3). destruct c; [|exists n3; rewrite T3; auto 8].
  destruct (Hs eq_refl) as [Hc Hm].
  assert (Ex3 : expand (ns_ao_values n3) = Some (0, zlen (ns_norm n3))).
  { assert (Ch : b && next_is is_chinese rs = false).
    { destruct b; [|reflexivity]. specialize (Hc eq_refl). destruct rs as [|x rs']; [reflexivity|]. cbn [next_is andb] in *. rewrite is_chinese_eq, Hc. reflexivity. }
    rewrite Ch, T2 in Ex. rewrite T3. unfold zlen in *. rewrite L. subst n3. destruct lowercase; exact Ex. }
  unfold remove_accents, ns_filter. set (f := fun r => negb (mn r)).
  destruct (PlacedProofs.clean_valid_runes _ C) as (rs2 & Sc2 & NZ2 & Et & Er).
  rewrite T3, Er in *. assert (Hne2 : ns_orig n3 <> []).
  { rewrite Og3. destruct F as (-> & _). exact Ne. }
  pose proof (filter_items_text f rs2) as Ft. pose proof (valid_filter_items f rs2) as Fv. pose proof (filter_consumed f rs2) as Fc.
  assert (Fk : snd (filter_items f rs2) = 0).
  { destruct rs2 as [|x rs2']; [reflexivity|]. apply first_kept. cbn [next_is] in *. subst f. cbn beta. now rewrite Hm. }
  destruct (filter_items f rs2) as [items removed]. cbn [fst snd] in *. subst removed.
  destruct (whole_ok n3 items W3 Or3 Hne2) as (n' & E').
  - rewrite T3. exact Ex3.
  - rewrite T3, Et. exists rs2. auto.
  - now rewrite T3, Er.
  - rewrite T3, Er. lia.
  - exists n'. split; [exact E'|]. destruct (whole_text n3 0 items 0 n' W3 Fv Hne2) as (_ & X & Y); [rewrite T3; exact Ex3|exact E'|].
    assert (X' : ns_norm n' = encode (filter f rs2)) by (rewrite X, Ft; reflexivity). unfold transform in E'.
    split; [exact X'|]. split; [congruence|]. split.
    { apply transform_range_spec in E'. destruct E' as (nr & s' & e' & _ & _ & _ & _ & _ & _ & _ & Hsh & _). congruence. }
    split; [exact (transform_range_wf _ _ _ _ _ W3 Fv E')|]. split.
    { assert (La : zlen (ns_ao_values n3) = zlen (ns_orig n3)).
      { unfold ns_ao_values, zlen. rewrite map_length. f_equal. apply W3. }
      pose proof (target_full n3 La Hne2) as Tf. rewrite Ex3 in Tf.
      apply (transform_range_ordered _ _ _ _ _ _ W3 Or3 E' Tf); cbn [r_start r_end]; rewrite T3, Z.min_id, ?part_all.
      - rewrite Et. exists rs2. auto.
      - now rewrite Er.
      - rewrite Er. lia.
      - now left. }
    rewrite X'. exists (filter f rs2). split; [|split; [|reflexivity]]; apply Forall_forall; intros y Hy; apply filter_In in Hy as [Hy _].
    + rewrite Forall_forall in Sc2. now apply Sc2.
    + rewrite Forall_forall in NZ2. now apply NZ2.
Qed.
Lemma bert_text_empty cc mn lower b lowercase c s : clean s -> bert_reads cc mn lower b lowercase c s -> (bert_text b lowercase c mn lower (runes s) = [] <-> s = []).
Proof.
  intros (rs & Sc & _ & ->) (_ & C & L & Hs). rewrite runes_encode in * by exact Sc. unfold bert_text. set (t := encode (if b then spaced rs else rs)) in *. set (t2 := if lowercase then lower t else t) in *.
  assert (Et : t = [] <-> rs = []).
  { split; [|intros ->; subst t; destruct b; reflexivity]. subst t. destruct rs as [|x rs]; [reflexivity|]. intros X. exfalso. pose proof (zlen_rune x) as Z1. destruct b; [unfold spaced in X; cbn [flat_map] in X; destruct (chinese x); [discriminate X|]|];
      rewrite ?app_nil_r in X; cbn [app] in X; rewrite encode_cons in X; apply app_eq_nil in X as [X _]; rewrite X in Z1; cbn in Z1; lia. }
  assert (E2 : t2 = [] <-> rs = []).
  { rewrite <- Et. split; intros X.
    - rewrite X in L. destruct t; [reflexivity|discriminate L].
    - rewrite X in L. destruct t2; [reflexivity|discriminate L]. }
  assert (Er : encode rs = [] <-> rs = []).
  { split; [|now intros ->]. destruct rs as [|x rs]; [reflexivity|]. rewrite encode_cons. intros X. apply app_eq_nil in X as [X _]. pose proof (zlen_rune x) as Z1. rewrite X in Z1. cbn in Z1. lia. }
  rewrite Er. destruct c; [|exact E2]. rewrite <- E2. destruct (Hs eq_refl) as [_ Hm]. destruct (PlacedProofs.clean_valid_runes _ C) as (rs2 & Sc2 & NZ2 & Et2 & Er2). rewrite Er2 in *. rewrite Et2.
  destruct rs2 as [|x rs2]; [cbn; tauto|]. cbn [next_is] in Hm. cbn [filter]. rewrite Hm. cbn [negb]. rewrite !encode_cons. pose proof (zlen_rune x) as Z1.
  split; intros X; apply app_eq_nil in X as [X _]; rewrite X in Z1; cbn in Z1; lia.
Qed.

(** ** Any tokenizer with a normalizer that turns texts into others *)
Definition with_normalizer (t : tokenizer) (f : ns -> res ns) : tokenizer :=
  Tkz (tk_raw t) (tk_normalized t) (Some f) (tk_pre t) (tk_model t) (tk_processor t) (tk_trunc t) (tk_padding t).

Section Ids.
  Variable ss si : list io_pair -> list io_pair.
  Hypothesis HS : sorts start_key ss.
  Hypothesis HI : sorts id_key si.

  (** Two tokenizers that differ in what the normalizer does to other text. *)
  Lemma encode_agrees t f ot x add : (forall s, In s (encode_texts x) -> extract_and_normalize ss si t s = extract_and_normalize ss si (with_normalizer t f) s) ->
    tk_encode ss si t ot x add = tk_encode ss si (with_normalizer t f) ot x add.
  Proof.
    intros H. assert (T : forall ty wi s, In s (encode_texts x) -> encode_text ss si t ty wi ot s = encode_text ss si (with_normalizer t f) ty wi ot s).
    { intros ty wi s Hs. unfold encode_text. rewrite (H s Hs). reflexivity. }
    assert (W : forall ty l i, incl l (encode_texts x) -> encode_words ss si t ty ot i l = encode_words ss si (with_normalizer t f) ty ot i l).
    { intros ty. induction l as [|s l IH]; intros i I; [reflexivity|]. cbn [encode_words]. rewrite T by (apply I; now left). rewrite IH by (intros y Hy; apply I; now right). reflexivity. }
    assert (Q : forall ty a, incl (input_texts a) (encode_texts x) -> encode_sequence ss si t ty ot a = encode_sequence ss si (with_normalizer t f) ty ot a).
    { intros ty [s|l] I; unfold encode_sequence; cbn [input_texts] in I; [rewrite T by (apply I; now left)|rewrite W by exact I]; reflexivity. }
    destruct x as [a|a b]; cbn [tk_encode encode_texts] in *.
    - rewrite Q by apply incl_refl. reflexivity.
    - rewrite Q by apply incl_appl, incl_refl. rewrite (Q 1 b) by apply incl_appr, incl_refl. reflexivity.
  Qed.
  (** The ids of the added tokens that are found are ids of added tokens. *)
  Lemma found_ids set s id w : (forall s, length (mt_find set s) = length (mt_ids set)) -> In (Some id, w) (cut_added ss si set s) -> In id (mt_ids set).
  Proof.
    intros L H. unfold cut_added in H. apply in_map_iff in H as ([o r] & E & H). injection E as -> _. destruct (Z.eq_dec (zlen s) 0) as [Z0|Z0].
    - unfold AddedVocabModel.find_matches in H. rewrite Z0 in H. destruct H as [H|[]]. discriminate H.
    - rewrite (find_matches_eq ss si HI) in H by exact Z0. apply fill_labelled in H as ([i r'] & Hp & -> & _). apply greedy_incl in Hp. apply (candidates_in ss si HS HI) in Hp as (l & Hl & _). cbn [fst] in *.
      apply nth_In. rewrite <- (L s). apply nth_error_Some. congruence.
  Qed.
End Ids.

(** A normalizer that is used for some texts only. *)
Definition among (L : list str) (s : str) : bool := match s with [] => false | _ => existsb (str_eqb s) L end.
Definition sparing (L : list str) (f : ns -> res ns) (n : ns) : res ns := if among L (ns_norm n) then f n else Ok n.
Lemma among_in L s : among L s = true <-> s <> [] /\ In s L.
Proof.
  unfold among. destruct s as [|c s]; [split; [discriminate|intros [H _]; congruence]|]. rewrite existsb_exists. split.
  - intros (x & Hx & E). apply str_eqb_eq in E. subst x. split; [discriminate|exact Hx].
  - intros [_ H]. exists (c :: s). split; [exact H|apply str_eqb_refl].
Qed.
Definition turns (L : list str) (f : ns -> res ns) (g : str -> str) : Prop :=
  forall n, wf n -> untouched n -> ns_norm n <> [] -> In (ns_norm n) L ->
  exists m, f n = Ok m /\ ns_norm m = g (ns_norm n) /\ ns_orig m = ns_orig n /\ ns_shift m = ns_shift n /\ wf m /\ ordered (ns_al m) /\ clean (ns_norm m).
Lemma sparing_ok L f g : turns L f g -> normalizer_ok (sparing L f) /\ normalizer_returns (sparing L f).
Proof.
  intros T. split.
  - intros orig n m P U E. unfold sparing in E. destruct (among L (ns_norm n)) eqn:A; [|injection E as <-; now apply kept_refl]. apply among_in in A as [Ne I]. pose proof P as (W & _).
    destruct (T n W U Ne I) as (m' & Em & _ & Eo & Es & Wm & Om & Cm). rewrite Em in E. injection E as ->. now apply kept_by.
  - intros orig n (W & _) U. unfold sparing. destruct (among L (ns_norm n)) eqn:A; [|eauto]. apply among_in in A as [Ne I]. destruct (T n W U Ne I) as (m & Em & _). eauto.
Qed.

Section Agree.
  Variable ss si : list io_pair -> list io_pair.
  Hypothesis HS : sorts start_key ss.
  Hypothesis HI : sorts id_key si.
  Lemma sparing_agrees t f L s : tk_normalizer t = Some f -> matching_ok (tk_raw t) -> clean s -> In s L -> Forall (fun l => l = []) (mt_find (tk_raw t) s) ->
    extract_and_normalize ss si t s = extract_and_normalize ss si (with_normalizer t (sparing L f)) s.
  Proof.
    intros Ef M C P F. unfold extract_and_normalize. cbn [with_normalizer tk_raw tk_normalized tk_normalizer]. rewrite Ef.
    destruct s as [|c s'].
    - pose proof (new_in_place [] C) as Pl. unfold pt_split, pt_new, pt_from_ns. cbn [pt_splits pt_orig split_pieces sp_toks sp_ns]. destruct (indices_empty ss si _ (tk_raw t) (new_ns []) Pl eq_refl) as (sps & Ei & Fe).
      rewrite Ei. cbn [bind]. fold nonempty. fold nonempty in Fe. rewrite Fe. reflexivity.
    - set (s := c :: s') in *. assert (Ne : s <> []) by discriminate. pose proof (new_in_place s C) as Pl. destruct (indices_labels ss si HS HI s (tk_raw t) (new_ns s) M Pl Ne) as (sps & Ei & N1 & F1).
      change (ns_norm (new_ns s)) with s in F1. rewrite (unfound ss si _ s HS HI Ne F) in F1. inversion F1 as [|x sp l sps' [T K] F2]; subst. inversion F2; subst. cbn [fst snd] in *.
      assert (E1 : exists p, pt_split (fun _ n => split_with_indices ss si (tk_raw t) n) (pt_new s) = Ok p /\ pt_splits p = [sp]).
      { unfold pt_split, pt_new, pt_from_ns. cbn [pt_splits pt_orig split_pieces sp_toks sp_ns]. rewrite Ei. cbn [bind]. fold nonempty. rewrite (PipelineProofs.filter_true _ _ N1). eexists. split; [reflexivity|reflexivity]. }
      destruct E1 as (p & -> & Ep). cbn [bind]. unfold pt_split. rewrite Ep. cbn [split_pieces]. rewrite K. unfold apply_normalizer, sparing. unfold sp_text in T. rewrite T, (proj2 (among_in L s) (conj Ne P)). reflexivity.
  Qed.
End Agree.

(** ** Any tokenizer with a normalizer that turns texts into others *)
Section Turned.
  Variable ss si : list io_pair -> list io_pair.
  Hypothesis HS : sorts start_key ss.
  Hypothesis HI : sorts id_key si.
  Lemma clean_texts x : clean_inputs x -> forall w, In w (encode_texts x) -> clean w.
  Proof.
    intros C. assert (CI : forall a, clean_input a -> Forall clean (input_texts a)) by (intros [w|l] H; cbn in *; [repeat constructor; exact H|exact H]).
    apply Forall_forall. destruct x as [a|a b]; cbn [clean_inputs encode_texts] in *; [now apply CI|]. destruct C as [Ca Cb]. apply Forall_app. split; now apply CI.
  Qed.
  Lemma turned_words t u pre cut f g md m av ot x add : matching_ok (tk_raw t) -> matching_ok (tk_normalized t) ->
    tk_normalizer t = Some f -> turns (encode_texts x) f g -> (forall s, In s (encode_texts x) -> g s = [] <-> s = []) ->
    tk_pre t = Some (pre_tokenize u pre) -> documented u pre = Some cut -> cut [] = [] -> PipelineSpec.pre_ok (pre_tokenize u pre) -> pre_returns (pre_tokenize u pre) ->
    tk_model t = Some md -> PipelineSpec.model_ok md -> model_returns md ->
    (forall s, In s (encode_texts x) -> Forall (fun l => l = []) (mt_find (tk_raw t) s)) -> (forall s, In s (encode_texts x) -> Forall (fun l => l = []) (mt_find (tk_normalized t) (g s))) ->
    added_hidden ss si t (shown m av true) -> ending_returns t (dual x) add -> ending_hides (shown m av true) t (dual x) add -> clean_inputs x -> ot <> OInvalid ->
    exists e tss, tk_encode ss si t ot x add = Ok (Some e) /\
      Forall2 (fun w ts => ts <> [] /\ md w = Ok (Some ts)) (flat_map (fun s => map encode (cut (runes (g s)))) (encode_texts x)) tss /\
      shown_all m av true (ids e) = shown_all m av true (map t_id (concat tss)).
  Proof.
    intros M1 M2 En Tn Lg Ep Doc C0 Po Pr Em Mo Mr U1 U2 Ah Er Eh C Hot. set (L := encode_texts x) in *. destruct (sparing_ok L f g Tn) as [No Nr]. set (t' := with_normalizer t (sparing L f)).
    pose proof (clean_texts x C) as Cw.
    assert (Ag : tk_encode ss si t ot x add = tk_encode ss si t' ot x add).
    { apply encode_agrees. intros w Hw. apply (sparing_agrees ss si HS HI t f L w En M1 (Cw w Hw) Hw). now apply U1. }
    destruct (encode_returns ss si HS HI t' ot x add) as (e & E); auto.
    { split; [exact M1|]. split; [exact M2|]. split; [exact No|]. split; [left; change (tk_pre t') with (tk_pre t); rewrite Ep; exact Po|]. change (tk_model t') with (tk_model t). rewrite Em. exact Mo. }
    { split; [exact Nr|]. split; [left; change (tk_pre t') with (tk_pre t); rewrite Ep; exact Pr|]. exists md. split; [exact Em|exact Mr]. }
    destruct (encode_shown ss si HS HI t' u pre cut md m av true M1 M2 No Ep Doc Em Ah ot x add e Eh C E) as (ws & tss & W & F & S0).
    assert (Ew : ws = flat_map (fun s => map encode (cut (runes (g s)))) L).
    { assert (K : forall L' l, Forall2 (text_words ss si t' cut) L' l -> incl L' L -> l = map (fun s => map encode (cut (runes (g s)))) L').
      2:{ destruct W as (l & Fl & ->). rewrite flat_map_concat_map. f_equal. exact (K L l Fl (incl_refl L)). }
      intros L' l Fl. clear W F S0.
      induction Fl as [|w y ts l H Fl IH]; intros In'; [reflexivity|]. cbn [map].
      f_equal; [|apply IH; intros q Hq; apply In'; now right]. assert (Iw : In w L) by (apply In'; now left). clear IH Fl In'. destruct H as (l' & H & ->). destruct w as [|b w'].
      { inversion H; subst. cbn [concat]. rewrite (proj2 (Lg [] Iw) eq_refl). change (runes []) with (@nil N). now rewrite C0. }
      set (w := b :: w') in *. assert (Ne : w <> []) by discriminate. change (tk_raw t') with (tk_raw t) in H. rewrite (unfound ss si (tk_raw t) w HS HI Ne (U1 w Iw)) in H.
      cbn [not_added flat_map fst snd app] in H. inversion H as [|? ? ? ? (n & k & Wn & U & Ex & Ek & Hy) H']; subst. inversion H'; subst. cbn [concat]. rewrite app_nil_r.
      unfold apply_normalizer in Ek. cbn [tk_normalizer with_normalizer t'] in Ek. change (tk_normalized t') with (tk_normalized t). unfold sparing in Ek. rewrite Ex, (proj2 (among_in L w) (conj Ne Iw)) in Ek.
      destruct (Tn n Wn U) as (k' & Ef & Tk & _); [congruence|congruence|]. rewrite Ef in Ek. injection Ek as ->. rewrite Tk, Ex. pose proof (U2 w Iw) as Uw. destruct (g w) as [|d z] eqn:Eg; [elim Ne; exact (proj1 (Lg w Iw) Eg)|].
      rewrite (unfound ss si (tk_normalized t) (d :: z) HS HI ltac:(discriminate)) by exact Uw. cbn [not_added flat_map fst snd app]. now rewrite app_nil_r. }
    exists e, tss. split; [now rewrite Ag|]. split; [now rewrite <- Ew|exact S0].
  Qed.
End Turned.

