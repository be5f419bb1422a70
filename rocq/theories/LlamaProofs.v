(** Files for tokenizers that mark spaces by a normalizer (C88). *)
From Coq Require Import String QArith.
From Verif Require Import Base BaseProofs Utf8Model Utf8Proofs SliceModel SliceProofs PatternModel PatternSpec PatternProofs NormalizedModel NormalizedSpec NormalizedProofs NormalizedInvProofs NormalizedExactProofs NormalizedOpProofs ExpandedProofs EncodingModel EncodingProofs BpeModel BpeTokProofs
  AddedVocabModel AddedVocabSpec AddedVocabProofs DecoderModel DecoderProofs PreTokenizerModel PreTokenizerSpec ChunkProofs PreTokenizerProofs ProcessorModel PreTokenizedModel PreTokenizedSpec MetaspaceProofs PipelineModel PipelineSpec PipelineProofs PlacedProofs PlacedNormProofs
  AddedPatternModel SpmModel UnicodeNormModel PretrainedModel ConfigModel ConfigSpec ConfigProofs ConfigLoadProofs
  TokensSpec TokensProofs ReturnSpec ReturnNormProofs ReturnModelProofs ReturnProofs RoundTripSpec RoundTripProofs RoundTripBpeProofs MetaTripSpec MetaModelProofs WordsSpec WordsProofs TurnedProofs LoadedModel LoadedSpec LoadedAddedProofs LoadedProofs LoadedWordsProofs WordLevelSpec BareProofs LlamaSpec.
Open Scope Z_scope.
Open Scope list_scope.

(** ** Replacing one character *)
Definition exchange (r : N) (by_ : N) (rs : list N) : list N := map (fun c => if (c =? r)%N then by_ else c) rs.
Lemma exchange_scalar r b rs : scalar b -> Forall scalar rs -> Forall scalar (exchange r b rs).
Proof. intros Sb F. apply Forall_map. eapply Forall_impl; [|exact F]. cbn. intros c Hc. now destruct (c =? r)%N. Qed.

Lemma replaced_chunks r b L : Forall (fun x => snd x = true -> fst x = [r]) L -> Forall (fun x => snd x = false -> ~ In r (fst x)) L -> forall pre,
  concat (map (fun m : offsets_match => if snd m then encode_rune b else part (fst (fst m)) (snd (fst m)) (encode (pre ++ chars_of L))) (ranges_of (bytes pre) L)) = encode (exchange r b (chars_of L)).
Proof.
  induction L as [|[c k] L IH]; intros F1 F2 pre; [reflexivity|]. apply Forall_cons_iff in F1 as [H1 F1], F2 as [H2 F2]. cbn [fst snd] in *. specialize (IH F1 F2 (pre ++ c)).
  cbn [ranges_of map concat snd fst]. change (chars_of ((c, k) :: L)) with (c ++ chars_of L). rewrite bytes_app in IH. rewrite <- app_assoc in IH. rewrite IH. unfold exchange. rewrite map_app, (encode_app (map (fun c0 => if (c0 =? r)%N then b else c0) c)). f_equal. destruct k.
  - rewrite (H1 eq_refl). cbn [map]. rewrite N.eqb_refl, encode_cons. symmetry. apply app_nil_r.
  - rewrite !encode_app. rewrite (part_mid (encode pre) (encode c) (encode (chars_of L))) by (unfold bytes; lia). f_equal. specialize (H2 eq_refl). clear -H2.
    induction c as [|x c IH]; [reflexivity|]. cbn [map]. destruct (N.eqb_spec x r) as [->|_]; [exfalso; apply H2; now left|]. f_equal. apply IH. intros H. apply H2. now right.
Qed.
Lemma chunks_true r rs : Forall (fun x => snd x = true -> fst x = [r]) (chunks (N.eqb r) rs) /\ Forall (fun x => snd x = false -> ~ In r (fst x)) (chunks (N.eqb r) rs).
Proof.
  induction rs as [|c rs [IH1 IH2]]; [split; constructor|]. cbn [chunks]. destruct (N.eqb_spec r c) as [<-|H].
  - split; constructor; auto; cbn; intros X; discriminate X.
  - destruct (chunks (N.eqb r) rs) as [|[d [|]] L]; cbn [fst snd] in *.
    + split; constructor; cbn; auto; try discriminate. intros _ [E|[]]. congruence.
    + split; constructor; auto; cbn; try discriminate. intros _ [E|[]]. congruence.
    + apply Forall_cons_iff in IH1 as [A1 A2], IH2 as [B1 B2]. split; constructor; auto; cbn; try discriminate. intros _ [E|E]; [congruence|]. now apply (B1 eq_refl).
Qed.
Section Found.
  Variable quoted : str -> str -> list (Z * Z).
  Variable r : N.
  Hypothesis Fc : finds_char quoted r.
  Local Notation pat := (PString (encode_rune r) (quoted (encode_rune r))).
  Lemma quoted_finds rs : Forall scalar rs -> rs <> [] -> PatternModel.find_matches pat (encode rs) = Ok (ranges_of 0 (chunks (N.eqb r) rs)).
  Proof.
    intros Sc Ne. rewrite <- (find_chars_chunks (N.eqb r) rs Sc Ne). assert (L : (length (encode_rune r) =? 0)%nat = false) by (pose proof (encode_rune_nonempty r) as X; destruct (encode_rune r); [congruence|reflexivity]).
    assert (L2 : (length (encode rs) =? 0)%nat = false) by (destruct rs as [|c rs]; [congruence|]; rewrite encode_cons; pose proof (encode_rune_nonempty c) as X; destruct (encode_rune c); [congruence|reflexivity]).
    unfold PatternModel.find_matches. rewrite L, L2. do 2 f_equal. apply Fc.
  Qed.
  Lemma quoted_replaced b rs ms : Forall scalar rs -> rs <> [] -> PatternModel.find_matches pat (encode rs) = Ok ms -> replaced (encode rs) (encode_rune b) ms = encode (exchange r b rs).
  Proof.
    intros Sc Ne E. rewrite (quoted_finds rs Sc Ne) in E. injection E as <-. destruct (chunks_true r rs) as [F1 F2]. pose proof (replaced_chunks r b _ F1 F2 []) as X. rewrite chunks_chars in X. exact X.
  Qed.
  (** The decoder. *)
  Lemma token_replaced b v : Forall scalar v -> v <> [] -> replace_token pat (encode_rune b) (encode v) = Ok (encode (exchange r b v)).
  Proof.
    intros Sc Ne. unfold replace_token. rewrite (quoted_finds v Sc Ne). cbn [bind]. unfold replace_parts.
    rewrite <- (quoted_replaced b v _ Sc Ne (quoted_finds v Sc Ne)). unfold replaced.
    assert (P : partition 0 (zlen (encode v)) (ranges_of 0 (chunks (N.eqb r) v))) by (pose proof (ranges_partition (chunks (N.eqb r) v) 0) as P; rewrite chunks_chars in P; exact P).
    assert (Q : forall ms a, 0 <= a -> partition a (zlen (encode v)) ms ->
      mapR (fun m : offsets_match => if snd m then Ok (encode_rune b) else zslice (encode v) (fst (fst m)) (snd (fst m))) ms = Ok (map (fun m : offsets_match => if snd m then encode_rune b else part (fst (fst m)) (snd (fst m)) (encode v)) ms)).
    { induction ms as [|[[x y] k] ms IH]; intros a Ha Pm; [reflexivity|]. cbn [partition] in Pm. destruct Pm as (-> & Hxy & Pm). pose proof (partition_le _ _ _ Pm) as Hy. cbn [mapR map fst snd]. rewrite (IH y ltac:(lia) Pm).
      destruct k; cbn [bind]; [reflexivity|]. rewrite zslice_eq by lia. reflexivity. }
    rewrite (Q _ 0 (Z.le_refl 0) P). reflexivity.
  Qed.
  (** The normalizer. *)
  Lemma quoted_local b : scalar b -> b <> 0%N -> local_change (OReplace pat (encode_rune b)).
  Proof.
    intros Sb B0. split; [split; [|split; [exact I|]]|split].
    - intros s. rewrite Fc. exact (proj1 (chars_find_well (N.eqb r)) s).
    - intros s V. cbn [between_chars]. rewrite Fc. exact (proj2 (proj2 (chars_find_well (N.eqb r))) s V).
    - unfold PatternModel.find_matches. rewrite Fc. destruct (length (encode_rune r) =? 0)%nat; reflexivity.
    - exists [b]. split; [now constructor|]. split; [now constructor|]. rewrite encode_cons. symmetry. apply app_nil_r.
  Qed.
End Found.

Section Marks.
  Variable quoted : str -> str -> list (Z * Z).
  Variable mark : N.
  Hypothesis Sm : scalar mark.
  Hypothesis M0 : mark <> 0%N.
  Hypothesis M32 : mark <> 32%N.
  Hypothesis F32 : finds_char quoted 32.
  Hypothesis Fm : finds_char quoted mark.
  Local Notation sp_pat := (PString space_string (quoted space_string)).

  Lemma mark_clean : clean (encode_rune mark).
  Proof. exists [mark]. split; [now constructor|]. split; [now constructor|]. rewrite encode_cons. symmetry. apply app_nil_r. Qed.
  Lemma mark_spared : spares (encode_rune mark) sp_pat.
  Proof.
    intros s ms C Ne E. destruct C as (rs & Sc & NZ & Es). rewrite Es, <- encode_cons in E. change space_string with (encode_rune 32) in E.
    rewrite (quoted_finds quoted 32 F32 (mark :: rs) (Forall_cons mark Sm Sc) ltac:(discriminate)) in E. assert (X : ms = ranges_of 0 (chunks (N.eqb 32) (mark :: rs))) by congruence. subst ms. clear E.
    destruct (chunks_head (N.eqb 32) mark rs) as (c & k & L & -> & Ek). assert (k = false) by (rewrite Ek; apply N.eqb_neq; congruence). clear Ek. subst k. cbn [ranges_of]. constructor; [intros X; discriminate X|].
    destruct (partition_bounds _ _ _ (ranges_partition L (0 + bytes (mark :: c)))) as [_ B]. eapply Forall_impl; [|exact B]. intros m [H _] _. rewrite bytes_cons in H. pose proof (bytes_nonneg c). lia.
  Qed.
  Lemma space_local : local_change (OReplace sp_pat (encode_rune mark)).
  Proof. exact (quoted_local quoted 32 F32 mark Sm M0). Qed.

  Lemma marking_turns cc mn sp lower lib graphemes L : (forall s, In s L -> clean s) ->
    turns L (used (run_norm cc mn sp lower lib graphemes (llama_normalizer quoted mark))) (marking mark).
  Proof.
    intros H n Wn U Ne Hn. pose proof (H _ Hn) as C. pose proof (untouched_fresh n Wn U) as (rs & Sc & F).
    assert (Or : ordered (ns_al n)) by (destruct F as (_ & _ & -> & _); apply aligns_from_ordered).
    assert (Sn : sound n) by (split; [exact Wn|split; assumption]).
    destruct (mark_sound (encode_rune mark) sp_pat (encode_rune mark) n mark_clean (encode_rune_nonempty mark) space_local mark_spared Sn U Ne) as (m & k & E1 & T1 & W1 & E2 & (W2 & O2 & C2)).
    destruct (run_op_original (OPrepend (encode_rune mark)) n m E1) as [A1 A2]. destruct (run_op_original (OReplace sp_pat (encode_rune mark)) m k E2) as [B1 B2].
    exists k. split.
    { unfold used, llama_normalizer. cbn [run_norm]. unfold norm_sequence. cbn [map foldR run_norm]. destruct (ns_norm n) as [|b t] eqn:Eb; [congruence|]. rewrite E1. cbn [bind]. rewrite E2. reflexivity. }
    split; [|split; [congruence|split; [congruence|split; [exact W2|split; [exact O2|exact C2]]]]].
    assert (En : ns_norm n = encode rs) by apply F. assert (Tm : ns_norm m = encode (mark :: rs)) by (rewrite T1, En, encode_cons; reflexivity).
    pose proof (Forall_cons mark Sm Sc) as Sc'. pose proof (quoted_finds quoted 32 F32 (mark :: rs) Sc' ltac:(discriminate)) as Q.
    pose proof (ranges_partition (chunks (N.eqb 32) (mark :: rs)) 0) as P. rewrite chunks_chars in P.
    rewrite (replace_text sp_pat (encode_rune mark) m (ranges_of 0 (chunks (N.eqb 32) (mark :: rs))) k W1); [|apply clean_valid, mark_clean|rewrite Tm; exact Q|rewrite Tm; exact P|exact E2].
    rewrite Tm, (quoted_replaced quoted 32 F32 mark (mark :: rs) _ Sc' ltac:(discriminate) Q). unfold marking. destruct (ns_norm n) as [|b t] eqn:Eb; [congruence|]. rewrite En, runes_encode by exact Sc.
    unfold exchange. cbn [map]. destruct (N.eqb_spec mark 32) as [X|_]; [contradiction|reflexivity].
  Qed.
  Lemma marking_empty s : marking mark s = [] <-> s = [].
  Proof. unfold marking. destruct s as [|b t]; [split; auto|]. split; [|discriminate]. rewrite encode_cons. pose proof (encode_rune_nonempty mark). destruct (encode_rune mark); [congruence|discriminate]. Qed.
End Marks.

(** ** Tokenizers without a pre-tokenizer *)
Section Uncut.
  Variable ss si : list io_pair -> list io_pair.
  Hypothesis HS : sorts start_key ss.
  Hypothesis HI : sorts id_key si.

  Lemma texts_encode t t' ot x add : tk_processor t = tk_processor t' -> tk_trunc t = tk_trunc t' -> tk_padding t = tk_padding t' ->
    (forall ty wi s, In s (encode_texts x) -> encode_text ss si t ty wi ot s = encode_text ss si t' ty wi ot s) -> tk_encode ss si t ot x add = tk_encode ss si t' ot x add.
  Proof.
    intros P1 P2 P3 T.
    assert (W : forall ty l i, incl l (encode_texts x) -> encode_words ss si t ty ot i l = encode_words ss si t' ty ot i l).
    { intros ty. induction l as [|s l IH]; intros i I; [reflexivity|]. cbn [encode_words]. rewrite T by (apply I; now left). rewrite IH by (intros y Hy; apply I; now right). reflexivity. }
    assert (Q : forall ty a, incl (input_texts a) (encode_texts x) -> encode_sequence ss si t ty ot a = encode_sequence ss si t' ty ot a).
    { intros ty [s|l] I; unfold encode_sequence; cbn [input_texts] in I; [rewrite T by (apply I; now left)|rewrite W by exact I]; reflexivity. }
    destruct x as [a|a b]; cbn [tk_encode encode_texts] in *; rewrite P1, P2, P3.
    - rewrite Q by apply incl_refl. reflexivity.
    - rewrite Q by apply incl_appl, incl_refl. rewrite (Q 1 b) by apply incl_appr, incl_refl. reflexivity.
  Qed.

  (** The same model where it returns, and some tokens elsewhere. *)
  Definition backed (md : str -> res (option (list token))) (w : str) : res (option (list token)) :=
    match md w with Ok (Some (x :: l)) => Ok (Some (x :: l)) | _ => Ok (Some [Tok 0 w (0, zlen w)]) end.
  Lemma backed_same md w ts : ts <> [] -> md w = Ok (Some ts) -> backed md w = md w.
  Proof. intros Ne E. unfold backed. rewrite E. destruct ts; [congruence|reflexivity]. Qed.
  Lemma backed_ok md : PipelineSpec.model_ok md -> PipelineSpec.model_ok (backed md).
  Proof.
    intros M s toks C Ne E. assert (K : tokens_of s [Tok 0 s (0, zlen s)]).
    { assert (0 < zlen s) by (unfold zlen; destruct s; [congruence|cbn [length]; lia]). split; [constructor; [cbn; lia|constructor]|]. exact (ordered_repeat (0, zlen s) 1). }
    unfold backed in E. destruct (md s) as [[[|x l]|]| | | |] eqn:Em; try (injection E as <-; exact K). injection E as <-. exact (M s (x :: l) C Ne Em).
  Qed.
  Lemma backed_returns md : model_returns (backed md).
  Proof. intros s _ _. unfold backed. destruct (md s) as [[[|x l]|]| | | |]; eexists; (split; [reflexivity|discriminate]). Qed.

  Lemma pieces_alike (f g : ns -> res (option (list token))) l : (forall sp, In sp l -> sp_toks sp = None -> f (sp_ns sp) = g (sp_ns sp)) -> tokenize_pieces f l = tokenize_pieces g l.
  Proof.
    induction l as [|sp l IH]; intros H; [reflexivity|]. cbn [tokenize_pieces]. rewrite IH by (intros sp' H'; apply H; now right). destruct (sp_toks sp) eqn:E; [reflexivity|]. now rewrite (H sp (or_introl eq_refl) E).
  Qed.

  Lemma uncut t f g md m av skip ot x add : matching_ok (tk_raw t) ->
    tk_normalizer t = Some f -> turns (encode_texts x) f g -> (forall s, In s (encode_texts x) -> g s = [] <-> s = []) -> (forall s, In s (encode_texts x) -> valid_utf8 (g s)) ->
    tk_pre t = None -> tk_model t = Some md -> PipelineSpec.model_ok md ->
    (forall s, In s (encode_texts x) -> s <> [] -> exists ts, ts <> [] /\ md (g s) = Ok (Some ts)) ->
    (forall s, In s (encode_texts x) -> Forall (fun l => l = []) (mt_find (tk_raw t) s)) -> (forall s, In s (encode_texts x) -> Forall (fun l => l = []) (mt_find (tk_normalized t) (g s))) ->
    ending_returns t (dual x) add -> ending_hides (shown m av skip) t (dual x) add -> clean_inputs x -> ot <> OInvalid ->
    exists e tss, tk_encode ss si t ot x add = Ok (Some e) /\
      Forall2 (fun w ts => ts <> [] /\ md w = Ok (Some ts)) (flat_map (fun s => match g s with [] => [] | w => [w] end) (encode_texts x)) tss /\
      shown_all m av skip (ids e) = shown_all m av skip (map t_id (concat tss)).
  Proof.
    intros M1 En Tn Lg Vg Ep Em Mo Mr U1 U2 Er Eh C Hot. set (L := encode_texts x) in *. pose proof (clean_texts x C) as Cw.
    set (u := Uni (fun _ => false) (fun _ => false) (fun _ => false) (fun _ => [])).
    set (t' := Tkz (tk_raw t) (tk_normalized t) (tk_normalizer t) (Some (pre_tokenize u (PTSequence []))) (Some (backed md)) (tk_processor t) (tk_trunc t) (tk_padding t)).
    destruct (sparing_ok L f g Tn) as [No Nr].
    assert (Ag : tk_encode ss si t ot x add = tk_encode ss si t' ot x add).
    { apply texts_encode; try reflexivity. intros ty wi s Hs. unfold encode_text.
      assert (Ex : extract_and_normalize ss si t' s = extract_and_normalize ss si t s) by reflexivity. rewrite Ex.
      destruct (extract_and_normalize ss si t s) as [p| | | |] eqn:E1; [|reflexivity..]. cbn [bind]. rewrite Ep. cbn [tk_pre t' pre_tokenize bind].
      unfold do_tokenize. rewrite Em. cbn [tk_model t']. unfold pt_tokenize. rewrite (pieces_alike (fun n => md (ns_norm n)) (fun n => backed md (ns_norm n))); [reflexivity|].
      rewrite (bare_agrees ss si HS HI t f g L s En Tn M1 (Cw s Hs) Hs (U1 s Hs) (U2 s Hs)) in E1.
      destruct (extract_parts ss si HS HI (unadded t (Some (sparing L f))) s p bare_ok bare_ok No (Cw s Hs) E1) as [(l & FL & OL) _].
      intros sp Hsp Hn. assert (Ho : In (sp_text sp) (open_texts (pt_splits p))) by (unfold open_texts; apply in_map, filter_In; split; [exact Hsp|unfold open, has_toks; now rewrite Hn]).
      change (ns_norm (sp_ns sp)) with (sp_text sp). destruct s as [|b s']; [inversion FL; subst; rewrite OL in Ho; destruct Ho|]. set (s := b :: s') in *. assert (Ne : s <> []) by discriminate.
      change (tk_raw (unadded t (Some (sparing L f)))) with (re_matching []) in FL. rewrite (unfound ss si (re_matching []) s HS HI Ne) in FL by constructor. cbn [not_added flat_map fst snd app] in FL.
      inversion FL as [|? ? ? ? (n & k & Wn & U & Et & Ek & Hy) H']; subst. inversion H'; subst. cbn [concat] in OL. rewrite app_nil_r in OL. unfold apply_normalizer in Ek. cbn [tk_normalizer unadded] in Ek. unfold sparing in Ek.
      rewrite Et, (proj2 (among_in L s) (conj Ne Hs)) in Ek. destruct (Tn n Wn U) as (k' & Ef & Tk & _); [rewrite Et; exact Ne|rewrite Et; exact Hs|]. rewrite Ef in Ek. injection Ek as ->. rewrite Tk, Et in OL. change (tk_normalized (unadded t (Some (sparing L f)))) with (re_matching []) in OL.
      destruct (g s) as [|d z] eqn:Eg; [elim Ne; exact (proj1 (Lg s Hs) Eg)|]. rewrite (unfound ss si (re_matching []) (d :: z) HS HI ltac:(discriminate)) in OL by constructor. cbn [not_added flat_map fst snd app] in OL.
      rewrite OL in Ho. destruct Ho as [<-|[]]. destruct (Mr s Hs Ne) as (ts & Nt & Ets). rewrite Eg in Ets. symmetry. exact (backed_same md _ ts Nt Ets). }
    destruct (turned_cut ss si HS HI t' u (PTSequence []) (fun rs => [rs]) f g (backed md) m av skip ot x add) as (e & tss & Ee & F & Sh); auto.
    - intros p p' Lp [= <-]. now split.
    - intros p Lp Tp. exists p. now split.
    - now apply backed_ok.
    - apply backed_returns.
    - exists e, tss. split; [now rewrite Ag|]. split; [|exact Sh]. fold L in F.
      assert (Ew : flat_map (fun s => cut_words (fun rs => [rs]) (g s)) L = flat_map (fun s => match g s with [] => [] | w => [w] end) L).
      { assert (K : forall l, incl l L -> flat_map (fun s => cut_words (fun rs => [rs]) (g s)) l = flat_map (fun s => match g s with [] => [] | w => [w] end) l).
        { induction l as [|s l IH]; intros I; [reflexivity|]. cbn [flat_map]. rewrite IH by (intros y Hy; apply I; now right). f_equal. pose proof (Vg s (I s (or_introl eq_refl))) as V. unfold cut_words. destruct (g s) as [|d z] eqn:Eg; [reflexivity|]. cbn [map].
          rewrite runes_valid_id by exact V. reflexivity. }
        apply K, incl_refl. }
      rewrite Ew in F. assert (Wd : forall w, In w (flat_map (fun s => match g s with [] => [] | w => [w] end) L) -> exists ts, ts <> [] /\ md w = Ok (Some ts)).
      { intros w Hw. apply in_flat_map in Hw as (s & Hs & Hw). destruct (g s) as [|d z] eqn:Eg; [destruct Hw|]. destruct Hw as [<-|[]]. rewrite <- Eg. apply Mr; [exact Hs|]. intros ->. rewrite (proj2 (Lg [] Hs) eq_refl) in Eg. discriminate. }
      revert F Wd. generalize (flat_map (fun s => match g s with [] => [] | w => [w] end) L) as ws. clear. intros ws F Wd. induction F as [|w ts ws tss [Nt E] F IH]; [constructor|]. constructor; [|apply IH; intros w' Hw; apply Wd; now right].
      split; [exact Nt|]. destruct (Wd w (or_introl eq_refl)) as (ts' & Nt' & E'). rewrite (backed_same md w ts' Nt' E') in E. exact E.
  Qed.
End Uncut.

(** ** The decoder *)
Section Back.
  Variable quoted : str -> str -> list (Z * Z).
  Variable mark : N.
  Hypothesis Sm : scalar mark.
  Hypothesis M32 : mark <> 32%N.
  Hypothesis Fm : finds_char quoted mark.

  Definition back (v : str) : str := encode (blanks mark (runes v)).
  Lemma back_encode rs : Forall scalar rs -> back (encode rs) = encode (blanks mark rs).
  Proof. intros Sc. unfold back. now rewrite runes_encode. Qed.
  Lemma back_concat vs : Forall valid_utf8 vs -> concat (map back vs) = back (concat vs).
  Proof.
    intros F. assert (K : exists rss, vs = map encode rss /\ Forall (Forall scalar) rss).
    { induction F as [|v vs (rs & Sc & ->) F (rss & -> & K)]; [now exists []|]. exists (rs :: rss). split; [reflexivity|now constructor]. }
    destruct K as (rss & -> & K). assert (E : concat (map encode rss) = encode (concat rss)) by (clear; induction rss as [|r l IH]; [reflexivity|]; cbn [map concat]; now rewrite encode_app, IH).
    assert (Sc : Forall scalar (concat rss)) by (clear -K; induction K as [|r l H K IH]; [constructor|]; cbn [concat]; apply Forall_app; now split). rewrite E, (back_encode _ Sc). clear E Sc F.
    induction K as [|r l H K IH]; [reflexivity|]. cbn [map concat]. rewrite (back_encode r H), IH. unfold blanks. now rewrite map_app, encode_app.
  Qed.
  Definition no_byte (v : str) : bool := match token_byte (back v) with Ok None => true | _ => false end.
  Lemma fallback_same vs : Forall (fun v => no_byte v = true) vs -> bf_chain [] (map back vs) = Ok (map back vs).
  Proof.
    induction 1 as [|v vs H F IH]; [reflexivity|]. cbn [map bf_chain]. unfold no_byte in H. destruct (token_byte (back v)) as [[b|]| | | |] eqn:E; try discriminate H. cbn [bind]. rewrite IH. reflexivity.
  Qed.
  Lemma stripped s : strip_token space_string 1 0 (32%N :: s) = Ok s.
  Proof.
    assert (E : explode (32%N :: s) = space_string :: explode s) by (rewrite explode_cons by discriminate; reflexivity).
    assert (E1 : strip_start space_string (Z.to_nat 1) 0 (space_string :: explode s) = Ok 1%nat) by reflexivity.
    assert (E2 : strip_stop space_string (Z.to_nat 0) (space_string :: explode s) = Ok 0%nat) by reflexivity.
    unfold strip_token. rewrite E, E1. cbn [bind]. rewrite E2. cbn [bind]. rewrite zslice_eq by (unfold zlen; cbn [length]; lia). cbn [bind].
    replace (part (Z.of_nat 1) (zlen (space_string :: explode s) - Z.of_nat 0) (space_string :: explode s)) with (explode s); [now rewrite explode_concat|].
    unfold part. change (Z.to_nat (Z.of_nat 1)) with 1%nat. cbn [skipn]. symmetry. replace (Z.to_nat _) with (length (explode s)) by (unfold zlen; cbn [length]; lia). now apply firstn_all.
  Qed.
  Lemma llama_decodes fallback vs : Forall (fun v => v <> [] /\ valid_utf8 v /\ (fallback = true -> no_byte v = true)) vs ->
    decode ByNew (llama_decoder quoted mark fallback) vs = match back (concat vs) with [] => Panic | t => strip_token space_string 1 0 t end.
  Proof.
    intros F. assert (Vv : Forall valid_utf8 vs) by (eapply Forall_impl; [|exact F]; cbn; tauto).
    assert (E1 : mapR (replace_token (PString (encode_rune mark) (quoted (encode_rune mark))) space_string) vs = Ok (map back vs)).
    { clear Vv. induction F as [|v vs (Ne & (rs & Sc & ->) & _) F IH]; [reflexivity|]. cbn [mapR map]. change space_string with (encode_rune 32) at 1. rewrite (token_replaced quoted mark Fm 32 rs Sc) by (intros ->; now apply Ne).
      cbn [bind]. rewrite IH. cbn [bind]. rewrite (back_encode rs Sc). reflexivity. }
    assert (E2 : forall rest, decode_chain (DSequence ((if fallback then [DByteFallback] else []) ++ rest)) (map back vs) = decode_chain (DSequence rest) (map back vs)).
    { intros rest. destruct fallback; [|reflexivity]. cbn [app]. change (decode_chain (DSequence (DByteFallback :: rest)) (map back vs)) with (do t2 <- bf_chain [] (map back vs); decode_chain (DSequence rest) t2).
      rewrite fallback_same; [reflexivity|]. eapply Forall_impl; [|exact F]. cbn. intros v (_ & _ & H). now apply H. }
    unfold decode, llama_decoder. set (rest := (if fallback then [DByteFallback] else []) ++ [DFuse; DStrip space_string 1 0]) in *.
    change (decode_chain (DSequence (DReplace (PString (encode_rune mark) (quoted (encode_rune mark))) space_string :: rest)) vs) with
      (do t2 <- mapR (replace_token (PString (encode_rune mark) (quoted (encode_rune mark))) space_string) vs; decode_chain (DSequence rest) t2).
    rewrite E1. cbn [bind]. unfold rest. rewrite E2. cbn [decode_chain bind mapR]. rewrite (back_concat vs Vv). destruct (back (concat vs)) as [|b t]; [reflexivity|].
    destruct (strip_token space_string 1 0 (b :: t)) as [x| | | |]; try reflexivity. cbn [bind concat]. now rewrite app_nil_r.
  Qed.
  Lemma back_marking s : valid_utf8 s -> s <> [] -> back (marking mark s) = led_by_space mark s.
  Proof.
    intros (rs & Sc & ->) Ne. unfold marking, led_by_space. destruct (encode rs) as [|b t] eqn:E; [congruence|]. rewrite <- E, runes_encode by exact Sc.
    rewrite back_encode by (constructor; [exact Sm|exact (exchange_scalar 32 mark rs Sm Sc)]). unfold blanks. cbn [map]. rewrite N.eqb_refl, encode_cons. change (encode_rune 32) with [32%N]. cbn [app]. do 2 f_equal. rewrite map_map. apply map_ext. intros c.
    destruct (N.eqb_spec c 32) as [->|H]; [|reflexivity]. rewrite N.eqb_refl. destruct (N.eqb_spec 32 mark); [congruence|reflexivity].
  Qed.
End Back.

(** ** No token looks like the name of a byte *)
Lemma blanks_short mark rs : (length (encode (blanks mark rs)) <= length (encode rs))%nat.
Proof.
  induction rs as [|c rs IH]; [apply le_n|]. change (blanks mark (c :: rs)) with ((if (c =? mark)%N then 32%N else c) :: blanks mark rs). rewrite !encode_cons, !app_length. apply Nat.add_le_mono; [|exact IH].
  destruct (c =? mark)%N; [|apply le_n]. change (encode_rune 32) with [32%N]. pose proof (encode_rune_nonempty c). destruct (encode_rune c); [congruence|cbn [length]; lia].
Qed.
Lemma rune_short c : (length (encode_rune c) <= 4)%nat.
Proof. unfold encode_rune. repeat (match goal with |- context [if ?b then _ else _] => destruct b end); cbn [length]; lia. Qed.
Lemma token_byte_none t : (forall a b, t <> key "<0x" ++ [a; b; 62%N]) -> token_byte t = Ok None.
Proof.
  intros H. unfold token_byte. repeat (match goal with |- match ?x with _ => _ end = _ => destruct x; try reflexivity end). all: elim (H _ _ eq_refl).
Qed.
Lemma no_byte_made mark ms v : makes_no_byte mark ms -> valid_utf8 v -> can_make ms v -> no_byte mark v = true.
Proof.
  intros Mb (rs & Sc & ->) Cm. unfold no_byte. rewrite (back_encode mark rs Sc), token_byte_none; [reflexivity|]. intros a b E. destruct Cm as [(c & Ec)|(x & y & Hm & Ec)].
  - pose proof (blanks_short mark rs) as H. rewrite E, Ec in H. pose proof (rune_short c). cbn in H. lia.
  - exact (Mb x y rs a b Hm Sc (eq_sym Ec) E).
Qed.

Section File.
  Variable ss si : list io_pair -> list io_pair.
  Hypothesis HS : sorts start_key ss.
  Hypothesis HI : sorts id_key si.
  Variable order : vocab -> vocab.
  Hypothesis HO : forall v, Permutation (order v) v.
  Variable to32 : Q -> Q.
  Variable lower : str -> str.
  Variable base64 : str -> res str.
  Variable compile : str -> option (str -> list (Z * Z)).
  Variable quoted : str -> str -> list (Z * Z).
  Variable u : unicode.
  Variables is_word cc mn sp : N -> bool.
  Variable lib : norm_lib.
  Variable graphemes : str -> list str.
  Context {S : Type}.
  Variable of_q : Q -> S.
  Variable lt : S -> S -> bool.
  Variables bot zero : S.
  Variable plus : S -> S -> S.
  Variable bonus : nat -> S.
  Variable penal : S -> S.
  Variable dropping : bpe -> Q -> str -> res (list token).
  Hypothesis Mo : forall b, PipelineSpec.model_ok (always (bpe_tokenize b)).
  Local Notation put := (assemble u is_word cc mn sp lower lib graphemes of_q lt bot zero plus bonus penal dropping).

  Lemma llama_loaded v ms mark fallback po pa c : llama_file lower base64 compile quoted v ms mark fallback po pa c ->
    exists l a, from_reader order to32 lower base64 compile quoted (Some c) = Ok l /\ put l = Ok a /\ tk_processor (as_tok a) = po /\ tk_padding (as_tok a) = pa /\
      (forall ot x add, clean_inputs x -> ot <> OInvalid ->
        Forall (fun s => unwritten (c_added c) s /\ unwritten (c_added c) (marking mark s) /\ Forall (fun r => r = 32%N \/ vget (encode_rune r) v <> None) (runes s)) (encode_texts x) ->
        ends_with (special_ids (fun s => vget s v) (zlen v) (c_added c)) (dual x) add po pa ->
        exists e, tk_encode ss si (as_tok a) ot x add = Ok (Some e) /\
          as_decode a (ids e) true = match concat (map (led_by_space mark) (encode_texts x)) with [] => Panic | _ :: t => Ok t end).
  Proof.
    intros (mo & no & de & unk & suffix & C1 & C2 & C3 & C4 & C5 & Bs & Ino & Id & Ipo & Ipa & Nu & Sm & M0 & M32 & M3 & Vm & Fm & F32 & Nb & Ap & Si).
    destruct (bpe_loaded order to32 mo (Some de) v ms unk suffix Bs) as (t & Em & Et). pose proof Bs as (_ & _ & _ & _ & Sp & _). set (ad := c_added c) in *. set (b := Bpe v (build_vocab_r (order v)) t unk None suffix) in *.
    assert (Fa : Forall (fun t => tc_content t <> [] /\ valid_utf8 (tc_content t)) ad) by (eapply Forall_impl; [|exact Ap]; cbn; tauto). set (m := vocab_model v (build_vocab_r (order v))). pose proof (numbered_base v _ Nu (HO v)) as B. fold m in B.
    destruct (added_reached m B ad Fa) as (av & Ea & R). set (nf := norm_fun cc mn sp lower lib graphemes (Some (llama_normalizer quoted mark))).
    destruct (looked_plain is_word nf m ad av false R Si) as (l1 & E1 & F1). destruct (looked_plain is_word nf m ad av true R Si) as (l2 & E2 & F2).
    eexists. eexists. split; [|split].
    - unfold from_reader. rewrite C1, C2, C3, C4, C5, Em. cbn [bind].
      unfold create_normalizer, create_pretokenizer, create_processor, create_decoder, create_truncation, create_padding.
      cbn [ConfigModel.section]. rewrite (norm_ok base64 compile quoted _ _ Ino). cbn [bind].
      rewrite (section_ok _ _ _ _ po processor_ok Ipo). cbn [bind]. rewrite (decoder_ok lower compile quoted _ _ Id). cbn [bind].
      rewrite (section_ok _ _ _ _ pa pad_ok Ipa). reflexivity.
    - unfold assemble. cbn [l_model l_norm l_calls l_pre l_post l_trunc l_pad l_dec lookups b b_vocab b_vocab_r option_map]. fold m. fold ad. fold nf. rewrite Ea. cbn [bind]. rewrite E1. cbn [bind]. rewrite E2. reflexivity.
    - split; [reflexivity|]. split; [reflexivity|]. intros ot x add C Hot W En. cbn [as_tok]. set (tk := Tkz _ _ _ _ _ _ _ _).
      assert (K1 : ending_returns tk (dual x) add).
      { split; [|split]; [|exact I|]; cbn; [destruct po; [apply En|constructor]|]. unfold returning_padding. destruct pa; [apply En|exact I]. }
      assert (K2 : ending_hides (shown m av true) tk (dual x) add).
      { split; [|split; [reflexivity|]]; cbn.
        + destruct po as [p|]; [|exact I]. apply (hides_mono (except (special_ids (fun s => vget s v) (zlen v) ad))); [|apply En]. intros i. apply (except_hidden m B ad av R).
        + destruct pa as [d|]; [|exact I]. apply (hidden_ids m B ad av R). apply En. }
      rewrite Forall_forall in W. pose proof (clean_texts x C) as Cw. assert (Vx : forall s, In s (encode_texts x) -> valid_utf8 s) by (intros s Hs; apply clean_valid, Cw, Hs).
      set (name := fun id => match shown m av true id with Some s => if negb fallback || no_byte mark s || negb (utf8_valid s) then Some s else None | None => None end).
      assert (Gv : forall s, In s (encode_texts x) -> valid_utf8 (marking mark s)).
      { intros s Hs. destruct (Vx s Hs) as (rs & Sc & ->). unfold marking. destruct (encode rs) as [|d z] eqn:Ed; [exists []; now split|]. rewrite <- Ed, runes_encode by exact Sc. eexists. split; [|reflexivity]. constructor; [exact Sm|exact (exchange_scalar 32 mark rs Sm Sc)]. }
      assert (Sw : forall s, In s (encode_texts x) -> s <> [] -> spells_whole (always (bpe_tokenize b)) name (marking mark s)).
      { intros s Hs Ne. apply (bpe_spells_whole b).
        - exact (bpe_literal order HO v ms t unk suffix Nu Et).
        - exact (Gv s Hs).
        - intros X. apply Ne. now apply (marking_empty mark s).
        - destruct (W s Hs) as (_ & _ & Wr). destruct (Vx s Hs) as (rs & Sc & Es). unfold marking. destruct s as [|d z] eqn:Ed; [congruence|]. rewrite Es, (runes_encode rs Sc) in Wr |- *. rewrite runes_encode by (constructor; [exact Sm|exact (exchange_scalar 32 mark rs Sm Sc)]).
          constructor; [exact Vm|]. apply Forall_map. eapply Forall_impl; [|exact Wr]. cbn. intros r [->|Hr]; [exact Vm|]. now destruct (r =? 32)%N.
        - intros s' id H1 H2. unfold name, m. rewrite (bpe_names order HO v ms t unk suffix ad Nu Et Sp Ap av R s' id H1 H2). destruct fallback; [|reflexivity]. cbn [negb orb].
          destruct (utf8_valid s') eqn:Ev; [|now rewrite orb_true_r]. rewrite (no_byte_made mark ms s'); [reflexivity|now apply Nb| |exact (makes_can v _ ms t unk suffix s' id Nu Et Sp H1 H2)].
          unfold utf8_valid in Ev. apply str_eqb_eq in Ev. rewrite <- Ev. exists (runes s'). split; [apply runes_scalar|reflexivity]. }
      destruct (uncut ss si HS HI tk (used (run_norm cc mn sp lower lib graphemes (llama_normalizer quoted mark))) (marking mark) (always (bpe_tokenize b)) m av true ot x add) as (e & tss & Ee & F & Sh).
      + exact (looked_ok _ _ Fa av l1 F1).
      + reflexivity.
      + apply marking_turns; auto.
      + intros s _. apply marking_empty.
      + exact Gv.
      + reflexivity.
      + reflexivity.
      + apply Mo.
      + intros s Hs Ne. destruct (Sw s Hs Ne) as (ts & Es & Nt & _). now exists ts.
      + intros s Hs. exact (looked_absent _ _ Fa av l1 s F1 (proj1 (W s Hs))).
      + intros s Hs. exact (looked_absent _ _ Fa av l2 _ F2 (proj1 (proj2 (W s Hs)))).
      + exact K1.
      + exact K2.
      + exact C.
      + exact Hot.
      + exists e. split; [exact Ee|]. unfold as_decode. cbn [as_lookups as_added as_decoder option_map]. unfold decode_ids. rewrite tokens_of_shown. fold m. rewrite Sh.
        assert (Ts : Forall (fun k => name (t_id k) = Some (t_value k) /\ t_value k <> [] /\ valid_utf8 (t_value k)) (concat tss) /\ back mark (concat (map t_value (concat tss))) = concat (map (led_by_space mark) (encode_texts x))).
        { assert (I : incl (encode_texts x) (encode_texts x)) by apply incl_refl. revert I F. generalize (encode_texts x) at 1 3 4 as L. clear -Vx Gv Sw Sm M32. intros L. revert tss. induction L as [|s L IH]; intros tss I F.
          - inversion F; subst. split; [constructor|reflexivity].
          - cbn [flat_map] in F. assert (Hs : In s (encode_texts x)) by (apply I; now left). destruct s as [|d z].
            + cbn [marking app] in F. destruct (IH tss (fun y Hy => I y (or_intror Hy)) F) as [Q1 Q2]. split; [exact Q1|]. rewrite Q2. reflexivity.
            + destruct (marking mark (d :: z)) as [|d' z'] eqn:Eg; [apply (proj1 (marking_empty mark _)) in Eg; discriminate|]. cbn [app] in F. rewrite <- Eg in F. inversion F as [|w ts ws tss' [_ Ew] F']; subst.
              destruct (IH tss' (fun y Hy => I y (or_intror Hy)) F') as [Q1 Q2]. destruct (Sw (d :: z) Hs ltac:(discriminate)) as (ts' & Es & _ & Ec & Ft). pose proof (eq_trans (eq_sym Ew) Es) as X. assert (ts' = ts) by congruence. subst ts'. clear X.
              split; [cbn [concat]; apply Forall_app; now split|]. cbn [concat map]. rewrite map_app, concat_app. assert (Vs : forall l, Forall (fun k => name (t_id k) = Some (t_value k) /\ t_value k <> [] /\ valid_utf8 (t_value k)) l -> Forall valid_utf8 (map t_value l)).
              { intros l Fl. apply Forall_map. eapply Forall_impl; [|exact Fl]. cbn. tauto. }
              rewrite <- Q2, <- (back_marking mark Sm (d :: z) (Vx _ Hs) ltac:(discriminate)), <- Ec. rewrite <- (back_concat mark (map t_value ts)) by now apply Vs. rewrite <- (back_concat mark (map t_value (concat tss'))) by now apply Vs.
              transitivity (back mark (concat (map t_value ts ++ map t_value (concat tss')))); [f_equal; now rewrite concat_app|].
              rewrite <- (back_concat mark (map t_value ts ++ map t_value (concat tss'))) by (apply Forall_app; split; now apply Vs). rewrite map_app, concat_app. reflexivity. }
        destruct Ts as [Ts Tb].
        assert (Ns : shown_all m av true (map t_id (concat tss)) = map t_value (concat tss)).
        { apply shown_named. eapply Forall_impl; [|exact Ts]. cbn. intros k (H & _). unfold name in H. destruct (shown m av true (t_id k)) as [s|]; [|discriminate]. destruct (negb fallback || no_byte mark s || negb (utf8_valid s)); [exact H|discriminate]. }
        rewrite Ns. rewrite (llama_decodes quoted mark Fm fallback (map t_value (concat tss))).
        * rewrite Tb. destruct (concat (map (led_by_space mark) (encode_texts x))) as [|d z] eqn:Ed; [reflexivity|].
          assert (d = 32%N). { clear -Ed. induction (encode_texts x) as [|s L IH]; [discriminate|]. cbn [map concat] in Ed. destruct s; [now apply IH|]. cbn [led_by_space app] in Ed. congruence. }
          subst d. exact (stripped mark M32 z).
        * apply Forall_map. eapply Forall_impl; [|exact Ts]. cbn. intros k (H & Nk & Vk). split; [exact Nk|]. split; [exact Vk|]. intros ->. unfold name in H. destruct (shown m av true (t_id k)) as [s|]; [|discriminate]. cbn [negb orb] in H.
          destruct (no_byte mark s) eqn:Es; cbn [orb] in H; [injection H as <-; exact Es|]. destruct (utf8_valid s) eqn:Ev; cbn [negb] in H; [discriminate|]. assert (X : s = t_value k) by congruence. rewrite X in Ev. destruct Vk as (rs & Sc & Ek). unfold utf8_valid in Ev. rewrite Ek, runes_encode, str_eqb_refl in Ev by exact Sc. discriminate.
  Qed.
End File.
