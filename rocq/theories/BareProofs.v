(** Texts in which no added token is found are encoded as by a tokenizer without added tokens (C85). *)
From Coq Require Import String QArith.
From Verif Require Import Base BaseProofs Utf8Model Utf8Proofs NormalizedModel NormalizedSpec NormalizedProofs EncodingModel EncodingProofs BpeModel BpeTokProofs WordPieceModel
  AddedVocabModel AddedVocabSpec AddedVocabProofs AddedFindProofs DecoderModel PreTokenizerModel PreTokenizerSpec ChunkProofs PreTokenizerProofs ProcessorModel PreTokenizedModel PreTokenizedSpec PipelineModel PipelineSpec PipelineProofs PlacedNormProofs
  AddedPatternModel PretrainedModel TokensSpec TokensProofs ReturnSpec ReturnProofs RoundTripSpec RoundTripProofs WordsSpec WordsProofs TurnedProofs WordLevelSpec.
Open Scope Z_scope.
Open Scope list_scope.

Definition unadded (t : tokenizer) (f : option (ns -> res ns)) : tokenizer :=
  Tkz (re_matching []) (re_matching []) f (tk_pre t) (tk_model t) (tk_processor t) (tk_trunc t) (tk_padding t).
Lemma bare_ok : matching_ok (re_matching []).
Proof. intros s _. split; [|constructor]. cbn. repeat constructor. Qed.

Section Bare.
  Variable ss si : list io_pair -> list io_pair.
  Hypothesis HS : sorts start_key ss.
  Hypothesis HI : sorts id_key si.

  Lemma alike_encodes t f ot x add : (forall s, In s (encode_texts x) -> extract_and_normalize ss si t s = extract_and_normalize ss si (unadded t f) s) ->
    tk_encode ss si t ot x add = tk_encode ss si (unadded t f) ot x add.
  Proof.
    intros H. assert (T : forall ty wi s, In s (encode_texts x) -> encode_text ss si t ty wi ot s = encode_text ss si (unadded t f) ty wi ot s).
    { intros ty wi s Hs. unfold encode_text. rewrite (H s Hs). reflexivity. }
    assert (W : forall ty l i, incl l (encode_texts x) -> encode_words ss si t ty ot i l = encode_words ss si (unadded t f) ty ot i l).
    { intros ty. induction l as [|s l IH]; intros i I; [reflexivity|]. cbn [encode_words]. rewrite T by (apply I; now left). rewrite IH by (intros y Hy; apply I; now right). reflexivity. }
    assert (Q : forall ty a, incl (input_texts a) (encode_texts x) -> encode_sequence ss si t ty ot a = encode_sequence ss si (unadded t f) ty ot a).
    { intros ty [s|l] I; unfold encode_sequence; cbn [input_texts] in I; [rewrite T by (apply I; now left)|rewrite W by exact I]; reflexivity. }
    destruct x as [a|a b]; cbn [tk_encode encode_texts] in *.
    - rewrite Q by apply incl_refl. reflexivity.
    - rewrite Q by apply incl_appl, incl_refl. rewrite (Q 1 b) by apply incl_appr, incl_refl. reflexivity.
  Qed.
  Lemma nothing_found found : Forall (fun l => l = []) found -> si (ss (io_pairs found)) = [].
  Proof.
    intros F. assert (E : io_pairs found = []) by (unfold io_pairs; generalize 0%nat; induction F as [|l ls -> F IH]; intros k; [reflexivity|]; cbn; apply IH).
    assert (S1 : ss [] = []) by (destruct (HS []) as [P _]; now apply Permutation_nil in P). assert (S2 : si [] = []) by (destruct (HI []) as [P _]; now apply Permutation_nil in P).
    now rewrite E, S1, S2.
  Qed.
  Lemma split_bare set n : Forall (fun l => l = []) (mt_find set (ns_norm n)) -> split_with_indices ss si set n = split_with_indices ss si (re_matching []) n.
  Proof.
    intros F. unfold split_with_indices, AddedVocabModel.find_matches. destruct (zlen (ns_norm n) =? 0); [reflexivity|]. rewrite (nothing_found _ F), (nothing_found (mt_find (re_matching []) (ns_norm n))) by constructor. reflexivity.
  Qed.
  Lemma bare_pieces s p : clean s -> pt_split (fun _ n => split_with_indices ss si (re_matching []) n) (pt_new s) = Ok p ->
    Forall (fun sp => ns_norm (sp_ns sp) = s /\ ns_norm (sp_ns sp) <> []) (pt_splits p).
  Proof.
    intros C Ep. destruct s as [|c s'].
      - pose proof (new_in_place [] C) as Pl. unfold pt_split, pt_new, pt_from_ns in Ep. cbn [pt_splits pt_orig split_pieces sp_toks sp_ns] in Ep. destruct (indices_empty ss si _ (re_matching []) (new_ns []) Pl eq_refl) as (sps & Ei & Fe).
        rewrite Ei in Ep. cbn [bind] in Ep. fold nonempty in Ep, Fe. rewrite Fe in Ep. injection Ep as <-. constructor.
      - set (s := c :: s') in *. assert (Ne : s <> []) by discriminate. pose proof (new_in_place s C) as Pl. destruct (indices_labels ss si HS HI s (re_matching []) (new_ns s) bare_ok Pl Ne) as (sps & Ei & N1 & Fl).
        change (ns_norm (new_ns s)) with s in Fl. rewrite (unfound ss si _ s HS HI Ne) in Fl by constructor. inversion Fl as [|x sp l sps' [T K] Fl2]; subst. inversion Fl2; subst. cbn [fst snd] in *.
        unfold pt_split, pt_new, pt_from_ns in Ep. cbn [pt_splits pt_orig split_pieces sp_toks sp_ns] in Ep. rewrite Ei in Ep. cbn [bind] in Ep. fold nonempty in Ep. rewrite (PipelineProofs.filter_true _ _ N1) in Ep. injection Ep as <-. cbn [pt_splits app].
        unfold sp_text in T. constructor; [|constructor]. rewrite T. auto.
  Qed.
  Lemma bare_agrees t f g L s : tk_normalizer t = Some f -> turns L f g -> matching_ok (tk_raw t) -> clean s -> In s L -> Forall (fun l => l = []) (mt_find (tk_raw t) s) -> Forall (fun l => l = []) (mt_find (tk_normalized t) (g s)) ->
    extract_and_normalize ss si t s = extract_and_normalize ss si (unadded t (Some (sparing L f))) s.
  Proof.
    intros Ef Tn M C P F1 F2. rewrite (sparing_agrees ss si HS HI t f L s Ef M C P F1). unfold extract_and_normalize. cbn [unadded with_normalizer tk_raw tk_normalized tk_normalizer].
    assert (E1 : pt_split (fun _ n => split_with_indices ss si (tk_raw t) n) (pt_new s) = pt_split (fun _ n => split_with_indices ss si (re_matching []) n) (pt_new s)).
    { unfold pt_split, pt_new, pt_from_ns. cbn [pt_splits pt_orig split_pieces sp_toks sp_ns]. rewrite split_bare by exact F1. reflexivity. }
    rewrite E1. destruct (raw_apart ss si HS HI (re_matching []) s bare_ok C) as (p & Ep & _ & [G _] & U). rewrite Ep. cbn [bind]. unfold pt_split.
    pose proof (bare_pieces s p C Ep) as X.
    assert (K : forall l i, Forall (fun sp => wf (sp_ns sp)) l -> Forall (fun sp => untouched (sp_ns sp)) l -> Forall (fun sp => ns_norm (sp_ns sp) = s /\ ns_norm (sp_ns sp) <> []) l ->
      split_pieces (fun _ n => do m <- apply_normalizer (Some (sparing L f)) n; split_with_indices ss si (tk_normalized t) m) i l = split_pieces (fun _ n => do m <- apply_normalizer (Some (sparing L f)) n; split_with_indices ss si (re_matching []) m) i l).
    { induction l as [|sp l IH]; intros i Hw Hu Hs; [reflexivity|]. apply Forall_cons_iff in Hw as [W1 Hw], Hu as [U1 Hu], Hs as [[S1 S2] Hs]. cbn [split_pieces]. rewrite IH by assumption. destruct (sp_toks sp); [reflexivity|].
      unfold apply_normalizer, sparing. rewrite (proj2 (among_in L (ns_norm (sp_ns sp)))) by (rewrite S1 in *; auto). destruct (Tn (sp_ns sp) W1 U1 S2) as (m & Em & Tm & _); [now rewrite S1|]. rewrite Em. cbn [bind]. rewrite split_bare by (rewrite Tm, S1; exact F2). reflexivity. }
    rewrite K; [reflexivity| |exact U|exact X]. eapply Forall_impl; [|exact G]. intros sp H. apply H.
  Qed.

  Lemma bare_plain t s : tk_normalizer t = None -> clean s -> Forall (fun l => l = []) (mt_find (tk_raw t) s) -> Forall (fun l => l = []) (mt_find (tk_normalized t) s) ->
    extract_and_normalize ss si t s = extract_and_normalize ss si (unadded t None) s.
  Proof.
    intros Ef C F1 F2. unfold extract_and_normalize. rewrite Ef. cbn [unadded tk_raw tk_normalized tk_normalizer].
    assert (E1 : pt_split (fun _ n => split_with_indices ss si (tk_raw t) n) (pt_new s) = pt_split (fun _ n => split_with_indices ss si (re_matching []) n) (pt_new s)).
    { unfold pt_split, pt_new, pt_from_ns. cbn [pt_splits pt_orig split_pieces sp_toks sp_ns]. rewrite split_bare by exact F1. reflexivity. }
    rewrite E1. destruct (raw_apart ss si HS HI (re_matching []) s bare_ok C) as (p & Ep & _). rewrite Ep. cbn [bind]. unfold pt_split.
    assert (X : Forall (fun sp => ns_norm (sp_ns sp) = s) (pt_splits p)) by (eapply Forall_impl; [|exact (bare_pieces s p C Ep)]; cbn; tauto).
    assert (K : forall l i, Forall (fun sp => ns_norm (sp_ns sp) = s) l ->
      split_pieces (fun _ n => do m <- apply_normalizer None n; split_with_indices ss si (tk_normalized t) m) i l = split_pieces (fun _ n => do m <- apply_normalizer None n; split_with_indices ss si (re_matching []) m) i l).
    { induction l as [|sp l IH]; intros i Hs; [reflexivity|]. apply Forall_cons_iff in Hs as [S1 Hs]. cbn [split_pieces]. rewrite IH by assumption. destruct (sp_toks sp); [reflexivity|].
      unfold apply_normalizer. cbn [bind]. rewrite split_bare by (rewrite S1; exact F2). reflexivity. }
    rewrite K; [reflexivity|exact X].
  Qed.
  Lemma bare_encodes t ot x add : tk_normalizer t = None -> clean_inputs x ->
    (forall s, In s (encode_texts x) -> Forall (fun l => l = []) (mt_find (tk_raw t) s)) -> (forall s, In s (encode_texts x) -> Forall (fun l => l = []) (mt_find (tk_normalized t) s)) ->
    tk_encode ss si t ot x add = tk_encode ss si (unadded t None) ot x add.
  Proof. intros En C U1 U2. apply alike_encodes. intros s Hs. apply bare_plain; auto. now apply (clean_texts x C). Qed.

  Lemma bare_hidden t f (name : Z -> option str) : added_hidden ss si (unadded t f) name.
  Proof. intros set s id w Hs Hi. exfalso. apply (found_ids ss si HS HI) in Hi; [|destruct Hs as [-> | ->]; reflexivity]. destruct Hs as [-> | ->]; destruct Hi. Qed.

  Lemma turned_cut t u pre cut f g md m av skip ot x add : matching_ok (tk_raw t) ->
    tk_normalizer t = Some f -> turns (encode_texts x) f g -> (forall s, In s (encode_texts x) -> g s = [] <-> s = []) ->
    tk_pre t = Some (pre_tokenize u pre) -> documented u pre = Some cut -> PipelineSpec.pre_ok (pre_tokenize u pre) -> pre_returns (pre_tokenize u pre) ->
    tk_model t = Some md -> PipelineSpec.model_ok md -> model_returns md ->
    (forall s, In s (encode_texts x) -> Forall (fun l => l = []) (mt_find (tk_raw t) s)) -> (forall s, In s (encode_texts x) -> Forall (fun l => l = []) (mt_find (tk_normalized t) (g s))) ->
    ending_returns t (dual x) add -> ending_hides (shown m av skip) t (dual x) add -> clean_inputs x -> ot <> OInvalid ->
    exists e tss, tk_encode ss si t ot x add = Ok (Some e) /\
      Forall2 (fun w ts => ts <> [] /\ md w = Ok (Some ts)) (flat_map (fun s => cut_words cut (g s)) (encode_texts x)) tss /\
      shown_all m av skip (ids e) = shown_all m av skip (map t_id (concat tss)).
  Proof.
    intros M1 En Tn Lg Ep Doc Po Pr Em Mo Mr U1 U2 Er Eh C Hot. set (L := encode_texts x) in *. destruct (sparing_ok L f g Tn) as [No Nr]. set (t' := unadded t (Some (sparing L f))).
    pose proof (clean_texts x C) as Cw.
    assert (Ag : tk_encode ss si t ot x add = tk_encode ss si t' ot x add).
    { apply alike_encodes. intros w Hw. apply (bare_agrees t f g L w En Tn M1 (Cw w Hw) Hw); [now apply U1|now apply U2]. }
    destruct (encode_returns ss si HS HI t' ot x add) as (e & E); auto.
    { split; [exact bare_ok|]. split; [exact bare_ok|]. split; [exact No|]. split; [left; change (tk_pre t') with (tk_pre t); rewrite Ep; exact Po|]. change (tk_model t') with (tk_model t). rewrite Em. exact Mo. }
    { split; [exact Nr|]. split; [left; change (tk_pre t') with (tk_pre t); rewrite Ep; exact Pr|]. exists md. split; [exact Em|exact Mr]. }
    destruct (encode_shown ss si HS HI t' u pre cut md m av skip bare_ok bare_ok No Ep Doc Em (bare_hidden t _ _) ot x add e Eh C E) as (ws & tss & W & F & S0).
    assert (Ew : ws = flat_map (fun s => cut_words cut (g s)) L).
    { assert (K : forall L' l, Forall2 (text_words ss si t' cut) L' l -> incl L' L -> l = map (fun s => cut_words cut (g s)) L').
      2:{ destruct W as (l & Fl & ->). rewrite flat_map_concat_map. f_equal. exact (K L l Fl (incl_refl L)). }
      intros L' l Fl. clear W F S0.
      induction Fl as [|w y ts l H Fl IH]; intros In'; [reflexivity|]. cbn [map].
      f_equal; [|apply IH; intros q Hq; apply In'; now right]. assert (Iw : In w L) by (apply In'; now left). clear IH Fl In'. destruct H as (l' & H & ->). destruct w as [|b w'].
      { inversion H; subst. cbn [concat]. now rewrite (proj2 (Lg [] Iw) eq_refl). }
      set (w := b :: w') in *. assert (Ne : w <> []) by discriminate. change (tk_raw t') with (re_matching []) in H. rewrite (unfound ss si (re_matching []) w HS HI Ne) in H by constructor.
      cbn [not_added flat_map fst snd app] in H. inversion H as [|? ? ? ? (n & k & Wn & U & Ex & Ek & Hy) H']; subst. inversion H'; subst. cbn [concat]. rewrite app_nil_r.
      unfold apply_normalizer in Ek. cbn [tk_normalizer unadded t'] in Ek. change (tk_normalized t') with (re_matching []). unfold sparing in Ek. rewrite Ex, (proj2 (among_in L w) (conj Ne Iw)) in Ek.
      destruct (Tn n Wn U) as (k' & Ef & Tk & _); [congruence|congruence|]. rewrite Ef in Ek. injection Ek as ->. rewrite Tk, Ex. destruct (g w) as [|d z] eqn:Eg; [elim Ne; exact (proj1 (Lg w Iw) Eg)|].
      rewrite (unfound ss si (re_matching []) (d :: z) HS HI ltac:(discriminate)) by constructor. cbn [not_added flat_map fst snd app cut_words]. now rewrite app_nil_r. }
    exists e, tss. split; [now rewrite Ag|]. split; [now rewrite <- Ew|exact S0].
  Qed.
End Bare.
