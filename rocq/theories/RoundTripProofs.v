(** Decoding an encoded text gives the text: byte-level tokenizers (C72). *)
From Verif Require Import Base BaseProofs Utf8Model Utf8Proofs NormalizedModel NormalizedSpec NormalizedExactProofs NormalizedOpProofs EncodingModel EncodingSpec EncodingProofs
  BpeModel BpeSaveModel AddedVocabModel AddedVocabSpec DecoderModel DecoderProofs PreTokenizedModel PreTokenizedSpec PreTokenizedProofs PreTokenizerModel PreTokenizerSpec PreTokenizerProofs
  ProcessorModel ExpandedProofs PipelineModel PipelineSpec PipelineProofs PlacedProofs TokensSpec TokensProofs ReturnSpec ReturnEndProofs ReturnProofs RoundTripSpec RoundTripEndProofs.
Open Scope Z_scope.

Lemma tokens_of_shown m av skip l : tokens_of_ids m av skip l = shown_all m av skip l.
Proof.
  induction l as [|i l IH]; [reflexivity|]. cbn [tokens_of_ids shown_all flat_map]. unfold shown_all in IH. rewrite IH. unfold shown. destruct (av_id_to_token m av i) as [t|]; [|reflexivity].
  destruct skip, (is_special av t); reflexivity.
Qed.
Lemma shown_app m av skip a b : shown_all m av skip (a ++ b) = shown_all m av skip a ++ shown_all m av skip b.
Proof. apply flat_map_app. Qed.
Lemma shown_hidden m av skip l : Forall (fun i => shown m av skip i = None) l -> shown_all m av skip l = [].
Proof. unfold shown_all. induction 1 as [|i l H F IH]; [reflexivity|]. cbn [flat_map]. now rewrite H, IH. Qed.
Lemma shown_named m av skip toks : Forall (fun t => shown m av skip (t_id t) = Some (t_value t)) toks -> shown_all m av skip (map t_id toks) = map t_value toks.
Proof. unfold shown_all. induction 1 as [|t l H F IH]; [reflexivity|]. cbn [map flat_map]. now rewrite H, IH. Qed.

(** ** Pieces that are no added tokens *)
Definition open (sp : split) : bool := negb (has_toks sp).
Definition open_texts (l : list split) : list str := map sp_text (filter open l).
Lemma open_app a b : open_texts (a ++ b) = open_texts a ++ open_texts b.
Proof. unfold open_texts. now rewrite filter_app, map_app. Qed.
Lemma open_concat ls : open_texts (concat ls) = concat (map open_texts ls).
Proof. induction ls as [|l ls IH]; [reflexivity|]. cbn [concat map]. now rewrite open_app, IH. Qed.
Lemma open_all l : Forall (fun sp => sp_toks sp = None) l -> open_texts l = map sp_text l.
Proof. unfold open_texts. induction 1 as [|sp l H F IH]; [reflexivity|]. cbn [filter map]. unfold open at 1, has_toks at 1. rewrite H. cbn [negb map]. now rewrite IH. Qed.
Lemma labelled_open l sps : Forall2 labelled l sps -> open_texts sps = not_added l.
Proof.
  induction 1 as [|x sp l sps [T K] F IH]; [reflexivity|]. unfold open_texts, not_added in *. cbn [filter flat_map]. unfold open at 1, has_toks at 1. rewrite K. destruct (fst x); cbn [negb app map]; [exact IH|].
  now rewrite T, IH.
Qed.

(** ** The byte-level pre-tokenizer *)
Lemma with_space_spaced prefix s : s <> [] -> with_space prefix s = spaced prefix s.
Proof.
  intros Ne. destruct s as [|b s]; [congruence|]. unfold with_space, spaced. cbn [starts_with]. destruct prefix; [|reflexivity]. cbn [andb].
  rewrite (N.eqb_sym SP b). unfold SP. destruct (b =? 32)%N; reflexivity.
Qed.
Lemma byte_split_text u prefix orig i n new : (prefix = true -> blank_ok u) -> in_place orig n -> ns_norm n <> [] -> untouched n ->
  byte_split u prefix i n = Ok new -> Forall (fun sp => sp_toks sp = None) new /\ filter nonempty new = new /\ concat (map sp_text new) = spaced prefix (ns_norm n).
Proof.
  intros U (W & O & (cs & Sc' & NZ & En) & _) Ne Un E. destruct (untouched_fresh n W Un) as (rs & Sc & Fr).
  assert (cs = rs). { apply encode_inj; [assumption|assumption|]. rewrite <- En. apply Fr. } subst cs.
  assert (Nr : rs <> []) by (intros ->; apply Ne; rewrite En; reflexivity).
  destruct (byte_split_fresh u prefix i rs n Sc NZ Nr (fun H _ => U H) Fr W O) as (gs & l & E' & Cg & Ng & Fg). rewrite E' in E. injection E as <-.
  split; [|split].
  - clear -Fg. induction Fg as [|g sp gs l (H & _) F IH]; constructor; assumption.
  - apply (groups_nonempty gs l Fg Ng). rewrite Cg. apply lead_written.
  - rewrite (groups_text _ _ Fg), Cg, <- with_space_spaced by assumption. rewrite En. destruct rs as [|c rest]; [congruence|]. inversion Sc; subst. now apply lead_text.
Qed.
Lemma byte_pieces_text u prefix p p1 : (prefix = true -> blank_ok u) -> laid p -> fresh p -> pt_split (byte_split u prefix) p = Ok p1 ->
  concat (open_texts (pt_splits p1)) = concat (map (spaced prefix) (open_texts (pt_splits p))).
Proof.
  intros U [G _] Un. unfold fresh in Un. unfold pt_split. destruct (split_pieces _ 0 (pt_splits p)) as [l'| | | |] eqn:E; cbn [bind]; try discriminate.
  intros [= <-]. cbn [pt_splits]. destruct (split_pieces_news _ _ _ _ E) as (news & -> & F). clear E.
  induction F as [|sp new l news H F IH]; [reflexivity|]. inversion G as [|? ? (P & T & N) G']; subst. inversion Un; subst. cbn [concat]. rewrite open_app, concat_app, IH by assumption.
  change (sp :: l) with ([sp] ++ l). rewrite open_app, map_app, concat_app. f_equal. destruct (sp_toks sp) as [t|] eqn:Et.
  - subst new. unfold open_texts. cbn [filter]. unfold open, has_toks. rewrite Et. reflexivity.
  - destruct H as (i & new0 & H & ->). destruct (byte_split_text u prefix (pt_orig p) i (sp_ns sp) new0 U P N ltac:(assumption) H) as (X1 & X2 & X3). fold nonempty. rewrite X2, (open_all _ X1), X3.
    unfold open_texts. cbn [filter]. unfold open, has_toks. rewrite Et. cbn [negb map concat]. now rewrite app_nil_r.
Qed.
Lemma normalize_texts l : forall l', Forall byte_ready l -> normalize_pieces byte_normalize l = Ok l' -> map sp_text l' = map bl_render (open_texts l).
Proof.
  induction l as [|sp l IH]; intros l' R E; cbn [normalize_pieces] in E; [injection E as <-; reflexivity|]. inversion R as [|? ? R1 R2]; subst. unfold byte_ready in R1.
  unfold open_texts. cbn [filter]. unfold open at 1, has_toks at 1. destruct (sp_toks sp) as [ts|] eqn:Et; cbn [negb map]; [now apply IH|].
  destruct R1 as (g & (_ & X & W & O) & Ng & Wg & Zg). destruct (normalize_expanded g (sp_ns sp) W O X Ng Wg Zg) as (m & Em & M1 & _).
  rewrite Em in E. cbn [bind] in E. destruct (normalize_pieces byte_normalize l) as [r| | | |]; cbn [bind] in E; try discriminate E. injection E as <-. cbn [map].
  rewrite (IH r R2 eq_refl). f_equal. unfold sp_text. cbn [sp_ns]. rewrite M1. f_equal. symmetry. apply X.
Qed.
(** The words given to the model are rendered bytes; put together they are the text. *)
Lemma byte_words u prefix p p' : (prefix = true -> blank_ok u) -> laid p -> fresh p -> pre_tokenize u (PTByteLevel prefix) p = Ok p' ->
  exists gs, Forall (fun g => g <> [] /\ valid_utf8 g) gs /\ concat gs = concat (map (spaced prefix) (open_texts (pt_splits p))) /\
    map sp_text (pt_splits p') = map bl_render gs /\ Forall (fun sp => sp_toks sp = None) (pt_splits p').
Proof.
  intros U L Un E. pose proof (bytes_plain u prefix p p' E) as Pl. cbn [pre_tokenize] in E. apply bind_Ok_inv in E as (p1 & E1 & E).
  destruct (split_laid _ p p1 (byte_refiner u prefix) L E1) as [[G1 O1] Eo]. pose proof (split_ready u prefix p p1 U L Un E1) as R. unfold pt_normalize in E.
  apply bind_Ok_inv in E as (l' & E2 & E). injection E as <-. cbn [pt_splits] in *. exists (open_texts (pt_splits p1)). split; [|split; [exact (byte_pieces_text u prefix p p1 U L Un E1)|split; [exact (normalize_texts _ _ R E2)|exact Pl]]].
  clear -G1. unfold open_texts. apply Forall_map, forall_filter. eapply Forall_impl; [|exact G1]. intros sp ((_ & _ & (cs & Sc & _ & Ec) & _) & _ & N). split; [exact N|].
  unfold sp_text. rewrite Ec. now exists cs.
Qed.

Lemma valid_bytes s : valid_utf8 s -> Forall (fun b => (b < 256)%N) s.
Proof. intros (rs & _ & ->). apply encode_bytes. Qed.
Lemma valid_concat l : Forall valid_utf8 l -> valid_utf8 (concat l).
Proof. induction 1 as [|s l V F IH]; [now exists []|]. cbn [concat]. now apply valid_utf8_app. Qed.

Section Sorted.
  Variable ss si : list io_pair -> list io_pair.
  Hypothesis HS : sorts start_key ss.
  Hypothesis HI : sorts id_key si.

  (** Without a normalizer the open pieces are the plain parts. *)
  Lemma extract_open t s p : matching_ok (tk_raw t) -> matching_ok (tk_normalized t) -> tk_normalizer t = None -> clean s ->
    extract_and_normalize ss si t s = Ok p -> open_texts (pt_splits p) = plain_parts ss si t s.
  Proof.
    intros M1 M2 N C E. pose proof (new_in_place s C) as P. unfold extract_and_normalize in E. destruct (raw_apart ss si HS HI (tk_raw t) s M1 C) as (p1 & E1 & O1 & [G _] & U1). rewrite E1 in E. cbn [bind] in E.
    destruct s as [|c s'].
    - unfold pt_split, pt_new, pt_from_ns in E1. cbn [pt_splits pt_orig split_pieces sp_toks sp_ns] in E1. destruct (indices_empty ss si _ (tk_raw t) (new_ns []) P eq_refl) as (sps & Ei & F).
      rewrite Ei in E1. cbn [bind] in E1. fold nonempty in E1. fold nonempty in F. rewrite F in E1. injection E1 as <-. cbn in E. injection E as <-. reflexivity.
    - set (s := c :: s') in *. assert (Ne : s <> []) by discriminate. destruct (indices_labels ss si HS HI s (tk_raw t) (new_ns s) M1 P Ne) as (sps & Ei & N1 & F1).
      unfold pt_split, pt_new, pt_from_ns in E1. cbn [pt_splits pt_orig split_pieces sp_toks sp_ns] in E1. rewrite Ei in E1. cbn [bind] in E1. fold nonempty in E1.
      rewrite (PipelineProofs.filter_true _ _ N1), app_nil_r in E1. injection E1 as <-. cbn [pt_splits pt_orig] in *. change (ns_norm (new_ns s)) with s in F1.
      unfold pt_split in E. cbn [pt_splits pt_orig] in E. destruct (split_pieces _ 0 sps) as [l'| | | |] eqn:El; cbn [bind] in E; try discriminate. injection E as <-. cbn [pt_splits].
      destruct (split_pieces_news _ _ _ _ El) as (news & -> & F2). clear El Ei. change (plain_parts ss si t s) with (flat_map (fun w => not_added (cut_added ss si (tk_normalized t) w)) (not_added (cut_added ss si (tk_raw t) s))).
      rewrite open_concat. revert G N1 F1. generalize (cut_added ss si (tk_raw t) s) as L. clear -F2 M2 N HS HI.
      induction F2 as [|sp new sps news H F2 IH]; intros L G N1 F1; inversion F1 as [|x ? L' ? [Tx Kx] F1']; subst; [reflexivity|].
      inversion G as [|? ? [P T] G']; subst. inversion N1 as [|? ? Ns N1']; subst. cbn [map concat]. rewrite (IH L' G' N1' F1'). clear IH F1 F1' F2 G G' N1 N1'.
      assert (Xn : not_added (x :: L') = match fst x with Some _ => [] | None => [snd x] end ++ not_added L') by reflexivity. rewrite Xn, flat_map_app. f_equal. rewrite Kx in H. destruct (fst x) as [id|].
      + subst new. unfold open_texts. cbn [filter]. unfold open, has_toks. rewrite Kx. reflexivity.
      + destruct H as (i & new0 & H & ->). unfold apply_normalizer in H. rewrite N in H. cbn [bind] in H. cbn [flat_map]. rewrite app_nil_r.
        assert (Nx : ns_norm (sp_ns sp) <> []) by (unfold nonempty in Ns; destruct (ns_norm (sp_ns sp)); [discriminate|congruence]).
        destruct (indices_labels ss si HS HI _ (tk_normalized t) (sp_ns sp) M2 P Nx) as (sps' & E' & N' & F'). assert (sps' = new0) by congruence. subst. fold nonempty.
        rewrite (PipelineProofs.filter_true _ _ N'). rewrite (labelled_open _ _ F'). unfold sp_text in Tx. now rewrite Tx.
  Qed.

  Section Any.
    Variables (t : tokenizer) (f : str -> res (option (list token))) (pre : pretok -> res pretok) (seen : str -> str) (m : base_model) (av : added_vocab) (skip : bool).
    Hypothesis M1 : matching_ok (tk_raw t).
    Hypothesis M2 : matching_ok (tk_normalized t).
    Hypothesis No : tk_normalizer t = None.
    Hypothesis Pre : tk_pre t = Some pre.
    (** The words given to the model are rendered bytes, what is seen of the text. *)
    Hypothesis Pk : pre_fresh_ok pre.
    Hypothesis Pr : pre_fresh_returns pre.
    Hypothesis Pw : forall p p', laid p -> fresh p -> pre p = Ok p' ->
      exists gs, Forall (fun g => g <> [] /\ valid_utf8 g) gs /\ concat gs = concat (map seen (open_texts (pt_splits p))) /\
        map sp_text (pt_splits p') = map bl_render gs /\ Forall (fun sp => sp_toks sp = None) (pt_splits p').
    Hypothesis Fm : tk_model t = Some f.
    Hypothesis Mo : model_ok f.
    Hypothesis Sp : forall bs, bs <> [] -> Forall (fun b => (b < 256)%N) bs -> spells f (shown m av skip) (bl_render bs).
    (** Something known of the tokens of rendered words. *)
    Variable Q : str -> Prop.
    Hypothesis Qt : forall bs toks, bs <> [] -> Forall (fun b => (b < 256)%N) bs -> f (bl_render bs) = Ok (Some toks) -> Forall (fun t => Q (t_value t)) toks.

    Lemma any_components : components_ok t.
    Proof.
      split; [exact M1|]. split; [exact M2|]. rewrite No, Pre, Fm. split; [exact I|]. split; [|exact Mo]. right. split; [reflexivity|]. exact Pk.
    Qed.

    (** What a text decodes to. *)
    Definition seen_text (s : str) : str := concat (map seen (plain_parts ss si t s)).

    Lemma any_raw_decodes ty ot s : clean s -> ot <> OInvalid ->
      exists e, encode_sequence ss si t ty ot (Raw s) = Ok e /\ concat (shown_all m av skip (ids e)) = bl_render (seen_text s) /\ valid_utf8 (seen_text s) /\
        Forall Q (shown_all m av skip (ids e)).
    Proof.
      intros C Hot. assert (N : with_default normalizer_ok (tk_normalizer t)) by (now rewrite No).
      assert (R : with_default normalizer_returns (tk_normalizer t)) by (now rewrite No).
      destruct (extract_returns ss si HS HI t s M1 M2 N R C) as (p & E1 & T1). destruct (extract_laid ss si HS HI t s p M1 M2 N C E1) as (L1 & O1 & U1). specialize (U1 No).
      destruct (Pr p L1 U1 T1) as (p' & E2 & T2). destruct (Pw p p' L1 U1 E2) as (gs & G1 & G2 & G3 & G4).
      rewrite (extract_open t s p M1 M2 No C E1) in G2. fold (seen_text s) in G2.
      assert (B : valid_utf8 (seen_text s)).
      { rewrite <- G2. apply valid_concat. eapply Forall_impl; [|exact G1]. now intros g [_ H]. }
      assert (E : exists e0, encode_text ss si t ty (-1) ot s = Ok e0).
      { apply (text_returns_on ss si HS HI (fun w => exists bs, bs <> [] /\ Forall (fun b => (b < 256)%N) bs /\ w = bl_render bs) t ty (-1) ot s p p' f any_components C Hot E1); [now rewrite Pre|exact T2| |exact Fm|].
        - apply Forall_forall. intros sp Hsp _. apply (in_map sp_text) in Hsp. rewrite G3 in Hsp. apply in_map_iff in Hsp as (g & <- & Hg). rewrite Forall_forall in G1. destruct (G1 g Hg). eauto using valid_bytes.
        - intros w (bs & Nb & Bb & ->). destruct (Sp bs Nb Bb) as (toks & X1 & X2 & _). eauto. }
      destruct E as (e0 & E0). destruct (raw_ok ss si t ty ot s e0 E0) as (e & E). exists e. split; [exact E|].
      destruct (raw_tokens ss si _ _ _ _ _ E) as (q & q' & toks & Q1 & Q2 & F & (R1 & _) & _). assert (q = p) by congruence. subst q. rewrite Pre in Q2. assert (q' = p') by congruence. subst q'.
      rewrite R1. assert (K : Forall (fun t => shown m av skip (t_id t) = Some (t_value t)) (concat toks) /\ concat (map t_value (concat toks)) = bl_render (concat gs) /\ Forall (fun t => Q (t_value t)) (concat toks)).
      { clear -F G1 G3 G4 Sp Qt Fm. revert gs G1 G3 G4. induction F as [|sp ts l toks [_ X] F IH]; intros gs G1 G3 G4.
        - destruct gs; [|discriminate]. split; [constructor|]. split; [reflexivity|constructor].
        - destruct gs as [|g gs]; [discriminate|]. cbn [map] in G3. injection G3 as G3 G3'. inversion G1 as [|? ? [Ng Vg] G1']; subst. pose proof (valid_bytes _ Vg) as Bg. inversion G4 as [|? ? Hs G4']; subst. rewrite Hs in X. destruct X as (f' & Ef & X).
          assert (f' = f) by congruence. subst f'. rewrite G3 in X. destruct (Sp g Ng Bg) as (ts' & Y1 & _ & Y3 & Y4). assert (ts' = ts) by congruence. subst ts'. destruct (IH gs G1' G3' G4') as (I1 & I2 & I3).
          cbn [concat]. split; [now apply Forall_app|]. split; [|apply Forall_app; split; [exact (Qt g ts Ng Bg X)|exact I3]]. rewrite map_app, concat_app, bl_render_app, Y3, I2. reflexivity. }
      destruct K as (K1 & K2 & K3). rewrite (shown_named _ _ _ _ K1), K2, G2. split; [reflexivity|]. split; [exact B|]. now apply Forall_map.
    Qed.

    Lemma any_input_decodes ty ot x : clean_input x -> ot <> OInvalid ->
      exists e, encode_sequence ss si t ty ot x = Ok e /\ concat (shown_all m av skip (ids e)) = bl_render (concat (map seen_text (input_texts x))) /\
        valid_utf8 (concat (map seen_text (input_texts x))) /\ Forall Q (shown_all m av skip (ids e)).
    Proof.
      intros C Hot. destruct x as [s|l].
      - destruct (any_raw_decodes ty ot s C Hot) as (e & E & D & B & A). exists e. cbn [input_texts map concat]. rewrite app_nil_r. auto.
      - cbn [clean_input] in C. destruct (words_ok ss si t ty ot l) as (e & E).
        { eapply Forall_impl; [|exact C]. intros s Cs. destruct (any_raw_decodes ty ot s Cs Hot) as (e & E & _). eauto. }
        exists e. split; [exact E|]. destruct (words_tokens ss si _ _ _ _ _ E) as (es & F & I & _). rewrite I. cbn [input_texts]. clear -F C Hot HS HI M1 M2 No Pre Pk Pr Pw Fm Mo Sp Qt.
        induction F as [|w e l es Hw F IH]; [split; [reflexivity|split; [now exists []|constructor]]|]. inversion C as [|? ? C1 C2]; subst. destruct (IH C2) as (I1 & I2 & I3).
        destruct (any_raw_decodes ty ot w C1 Hot) as (e' & E' & D & B & A). assert (e' = e) by congruence. subst e'. cbn [map concat]. rewrite shown_app, concat_app, bl_render_app, D, I1. split; [reflexivity|].
        split; [now apply valid_utf8_app|]. apply Forall_app. split; assumption.
    Qed.

    Lemma any_encode_decodes ot x add : ending_returns t (dual x) add -> ending_hides (shown m av skip) t (dual x) add -> clean_inputs x -> ot <> OInvalid ->
      exists e, tk_encode ss si t ot x add = Ok (Some e) /\ concat (shown_all m av skip (ids e)) = bl_render (concat (map seen_text (encode_texts x))) /\
        valid_utf8 (concat (map seen_text (encode_texts x))) /\ Forall Q (shown_all m av skip (ids e)).
    Proof.
      intros (R1 & R2 & R3) Hh C Hot.
      assert (Pl : forall ty a e, encode_sequence ss si t ty ot a = Ok e -> plain e).
      { intros ty a e E. destruct (sequence_plain ss si _ _ _ _ _ E). split; [exact (sequence_parallel ss si _ _ _ _ _ E)|auto]. }
      destruct x as [a|a b]; cbn [tk_encode clean_inputs dual encode_texts] in *.
      - destruct (any_input_decodes 0 ot a C Hot) as (e & E & D & B & A). rewrite E. cbn [bind].
        destruct (post_returns (tk_processor t) (tk_trunc t) (tk_padding t) e None add) as (r & Er); auto; [exact (Pl _ _ _ E)|discriminate|]. exists r. split; [exact Er|].
        rewrite (post_seen m av skip t e None add r Hh Er). cbn [pair_ids]. change (shown_all m av skip []) with (@nil str). rewrite app_nil_r. auto.
      - destruct C as [Ca Cb]. destruct (any_input_decodes 0 ot a Ca Hot) as (e & E & D & B & A). destruct (any_input_decodes 1 ot b Cb Hot) as (e' & E' & D' & B' & A'). rewrite E. cbn [bind]. rewrite E'. cbn [bind].
        destruct (post_returns (tk_processor t) (tk_trunc t) (tk_padding t) e (Some e') add) as (r & Er); auto; [exact (Pl _ _ _ E)|intros p [= <-]; exact (Pl _ _ _ E')|]. exists r. split; [exact Er|].
        rewrite (post_seen m av skip t e (Some e') add r Hh Er). cbn [pair_ids]. rewrite concat_app, D, D', map_app, concat_app, bl_render_app. split; [reflexivity|].
        split; [now apply valid_utf8_app|]. apply Forall_app. split; assumption.
    Qed.
  End Any.

  Section AnyTrip.
    Variables (t : tokenizer) (f : str -> res (option (list token))) (pre : pretok -> res pretok) (seen : str -> str) (m : base_model) (av : added_vocab) (skip : bool).
    Hypothesis M1 : matching_ok (tk_raw t).
    Hypothesis M2 : matching_ok (tk_normalized t).
    Hypothesis No : tk_normalizer t = None.
    Hypothesis Pre : tk_pre t = Some pre.
    Hypothesis Pk : pre_fresh_ok pre.
    Hypothesis Pr : pre_fresh_returns pre.
    Hypothesis Pw : forall p p', laid p -> fresh p -> pre p = Ok p' ->
      exists gs, Forall (fun g => g <> [] /\ valid_utf8 g) gs /\ concat gs = concat (map seen (open_texts (pt_splits p))) /\
        map sp_text (pt_splits p') = map bl_render gs /\ Forall (fun sp => sp_toks sp = None) (pt_splits p').
    Hypothesis Fm : tk_model t = Some f.
    Hypothesis Mo : model_ok f.
    Hypothesis Sp : forall bs, bs <> [] -> Forall (fun b => (b < 256)%N) bs -> spells f (shown m av skip) (bl_render bs).

    Lemma any_round_trip mk ot x add : ending_returns t (dual x) add -> ending_hides (shown m av skip) t (dual x) add -> clean_inputs x -> ot <> OInvalid ->
      exists e, tk_encode ss si t ot x add = Ok (Some e) /\ decode_ids m av (Some (decode mk DByteLevel)) (ids e) skip = Ok (concat (map (seen_text t seen) (encode_texts x))).
    Proof.
      intros R H C Hot. destruct (any_encode_decodes t f pre seen m av skip M1 M2 No Pre Pk Pr Pw Fm Mo Sp (fun _ => True) (fun _ _ _ _ _ => proj2 (Forall_forall _ _) (fun _ _ => I)) ot x add R H C Hot) as (e & E & D & B & _). apply valid_bytes in B. exists e. split; [exact E|]. unfold decode_ids. rewrite tokens_of_shown.
      cbn [decode]. unfold bl_chain. rewrite D. now rewrite bl_decode_render.
    Qed.
  End AnyTrip.

  (** The byte-level pre-tokenizer alone. *)
  Section Tok.
    Variables (t : tokenizer) (f : str -> res (option (list token))) (u : unicode) (prefix : bool) (m : base_model) (av : added_vocab) (skip : bool).
    Hypothesis M1 : matching_ok (tk_raw t).
    Hypothesis M2 : matching_ok (tk_normalized t).
    Hypothesis No : tk_normalizer t = None.
    Hypothesis Pre : tk_pre t = Some (pre_tokenize u (PTByteLevel prefix)).
    Hypothesis U : prefix = true -> blank_ok u.
    Hypothesis Fm : tk_model t = Some f.
    Hypothesis Mo : model_ok f.
    Hypothesis Sp : forall bs, bs <> [] -> Forall (fun b => (b < 256)%N) bs -> spells f (shown m av skip) (bl_render bs).
    Variable Q : str -> Prop.
    Hypothesis Qt : forall bs toks, bs <> [] -> Forall (fun b => (b < 256)%N) bs -> f (bl_render bs) = Ok (Some toks) -> Forall (fun t => Q (t_value t)) toks.
    Definition kept : str -> str := seen_text t (spaced prefix).
    Lemma input_decodes ty ot x : clean_input x -> ot <> OInvalid ->
      exists e, encode_sequence ss si t ty ot x = Ok e /\ concat (shown_all m av skip (ids e)) = bl_render (concat (map kept (input_texts x))) /\
        valid_utf8 (concat (map kept (input_texts x))) /\ Forall Q (shown_all m av skip (ids e)).
    Proof.
      exact (any_input_decodes t f _ _ m av skip M1 M2 No Pre (byte_level_ok u prefix U) (byte_level_returns u prefix U) (fun p p' => byte_words u prefix p p' U) Fm Mo Sp Q Qt ty ot x).
    Qed.
    Lemma encode_decodes ot x add : ending_returns t (dual x) add -> ending_hides (shown m av skip) t (dual x) add -> clean_inputs x -> ot <> OInvalid ->
      exists e, tk_encode ss si t ot x add = Ok (Some e) /\ concat (shown_all m av skip (ids e)) = bl_render (concat (map kept (encode_texts x))) /\
        valid_utf8 (concat (map kept (encode_texts x))) /\ Forall Q (shown_all m av skip (ids e)).
    Proof.
      exact (any_encode_decodes t f _ _ m av skip M1 M2 No Pre (byte_level_ok u prefix U) (byte_level_returns u prefix U) (fun p p' => byte_words u prefix p p' U) Fm Mo Sp Q Qt ot x add).
    Qed.
  End Tok.

  Section Trip.
    Variables (t : tokenizer) (f : str -> res (option (list token))) (u : unicode) (prefix : bool) (m : base_model) (av : added_vocab) (skip : bool).
    Hypothesis M1 : matching_ok (tk_raw t).
    Hypothesis M2 : matching_ok (tk_normalized t).
    Hypothesis No : tk_normalizer t = None.
    Hypothesis Pre : tk_pre t = Some (pre_tokenize u (PTByteLevel prefix)).
    Hypothesis U : prefix = true -> blank_ok u.
    Hypothesis Fm : tk_model t = Some f.
    Hypothesis Mo : model_ok f.
    Hypothesis Sp : forall bs, bs <> [] -> Forall (fun b => (b < 256)%N) bs -> spells f (shown m av skip) (bl_render bs).

    Lemma round_trip mk ot x add : ending_returns t (dual x) add -> ending_hides (shown m av skip) t (dual x) add -> clean_inputs x -> ot <> OInvalid ->
      exists e, tk_encode ss si t ot x add = Ok (Some e) /\ decode_ids m av (Some (decode mk DByteLevel)) (ids e) skip = Ok (concat (map (kept t prefix) (encode_texts x))).
    Proof.
      intros R H C Hot. destruct (encode_decodes t f u prefix m av skip M1 M2 No Pre U Fm Mo Sp (fun _ => True) (fun _ _ _ _ _ => proj2 (Forall_forall _ _) (fun _ _ => I)) ot x add R H C Hot) as (e & E & D & B & _). apply valid_bytes in B. exists e. split; [exact E|]. unfold decode_ids. rewrite tokens_of_shown.
      cbn [decode]. unfold bl_chain. rewrite D. now rewrite bl_decode_render.
    Qed.
  End Trip.
End Sorted.

(** ** Texts without added tokens *)
Lemma unfound ss si set s : sorts start_key ss -> sorts id_key si -> s <> [] -> Forall (fun l => l = []) (mt_find set s) -> cut_added ss si set s = [(None, s)].
Proof.
  intros HS HI Ne F. unfold cut_added, AddedVocabModel.find_matches. assert (L : 0 < zlen s) by (destruct s; [congruence|unfold zlen; cbn; lia]).
  assert (E0 : (zlen s =? 0) = false) by (apply Z.eqb_neq; lia). rewrite E0.
  assert (E : io_pairs (mt_find set s) = []).
  { unfold io_pairs. generalize 0%nat. induction F as [|l ls -> F IH]; intros k; [reflexivity|]. cbn. apply IH. }
  assert (S1 : ss [] = []) by (destruct (HS []) as [P _]; now apply Permutation_nil in P).
  assert (S2 : si [] = []) by (destruct (HI []) as [P _]; now apply Permutation_nil in P).
  rewrite E, S1, S2. cbn [length select fill]. destruct (Z.eqb_spec 0 (zlen s)); [lia|]. cbn [map fst snd]. now rewrite part_all.
Qed.
Lemma unfound_parts ss si t s : sorts start_key ss -> sorts id_key si ->
  Forall (fun l => l = []) (mt_find (tk_raw t) s) -> Forall (fun l => l = []) (mt_find (tk_normalized t) s) -> concat (map (spaced false) (plain_parts ss si t s)) = s /\
  forall prefix, concat (map (spaced prefix) (plain_parts ss si t s)) = spaced prefix s.
Proof.
  intros HS HI F1 F2. destruct s as [|c s]; [split; reflexivity|]. set (w := c :: s) in *. assert (Ne : w <> []) by discriminate.
  assert (E : plain_parts ss si t w = [w]).
  { change (plain_parts ss si t w) with (flat_map (fun w => not_added (cut_added ss si (tk_normalized t) w)) (not_added (cut_added ss si (tk_raw t) w))).
    rewrite (unfound ss si _ w HS HI Ne F1). cbn [not_added flat_map fst snd app]. rewrite (unfound ss si _ w HS HI Ne F2). reflexivity. }
  rewrite E. cbn [map concat]. split; [|intros prefix]; apply app_nil_r.
Qed.
