(** What the ids of a WordPiece tokenizer decode to (C74). *)
From Verif Require Import Base BaseProofs Utf8Model Utf8Proofs NormalizedModel NormalizedSpec NormalizedExactProofs NormalizedOpProofs EncodingModel EncodingSpec EncodingProofs
  BpeModel BpeSaveModel WordPieceModel WordPieceSpec WordPieceProofs AddedVocabModel AddedVocabSpec AddedFindProofs DecoderModel DecoderProofs PreTokenizedModel PreTokenizedSpec PreTokenizedProofs
  PreTokenizerModel PreTokenizerSpec PreTokenizerProofs ProcessorModel ExpandedProofs PipelineModel PipelineSpec PipelineProofs PlacedProofs TokensSpec TokensProofs
  ReturnSpec RoundTripSpec RoundTripEndProofs RoundTripProofs WordsSpec.
Open Scope Z_scope.

(** ** Cutting pieces, whatever text they come from *)
Definition some_sit (p : pretok) : Prop := Forall (fun sp => has_toks sp = false -> exists o, sits o (sp_ns sp)) (pt_splits p).
Lemma in_place_sits orig n : in_place orig n -> sits (repeat 0%N (Z.to_nat (ns_shift n)) ++ ns_orig n) n.
Proof.
  intros (W & O & (rs & Sc & _ & Ec) & S0 & _). split; [exact W|]. split; [exact O|]. split; [now exists rs|]. split; [exact S0|].
  assert (Lz : zlen (repeat 0%N (Z.to_nat (ns_shift n)) ++ ns_orig n) = ns_shift n + zlen (ns_orig n)) by (unfold zlen; rewrite app_length, repeat_length; lia).
  split; [lia|]. unfold part. replace (ns_shift n + zlen (ns_orig n) - ns_shift n) with (zlen (ns_orig n)) by lia. unfold zlen. rewrite Nat2Z.id.
  rewrite skipn_app, repeat_length, Nat.sub_diag. rewrite skipn_all2 by (rewrite repeat_length; lia). cbn [app skipn]. now rewrite firstn_all.
Qed.
Lemma laid_some p : laid p -> some_sit p.
Proof. intros [G _]. eapply Forall_impl; [|exact G]. intros sp (P & _) _. eexists. exact (in_place_sits _ _ P). Qed.

Lemma cutter_some f g p : cutter f g -> some_sit p -> exists p', pt_split f p = Ok p' /\ some_sit p' /\ repieced g p p'.
Proof.
  intros C A. unfold some_sit in A. unfold pt_split.
  assert (G : forall l i, Forall (fun sp => has_toks sp = false -> exists o, sits o (sp_ns sp)) l ->
    exists news, split_pieces f i l = Ok (concat news) /\ Forall2 (recut g) l news /\
      Forall (fun sp => has_toks sp = false -> exists o, sits o (sp_ns sp)) (concat news)).
  { intros l. induction l as [|sp l IH]; intros i F; [exists []; repeat split; constructor|].
    inversion F as [|? ? Hs F']; subst. destruct (IH (S i) F') as (news & En & Fn & Sn). cbn [split_pieces].
    unfold has_toks in Hs. destruct (sp_toks sp) as [t|] eqn:Et.
    - rewrite En. cbn [bind]. exists ([sp] :: news). split; [reflexivity|]. split.
      + constructor; [|exact Fn]. unfold recut, has_toks. now rewrite Et.
      + cbn. constructor; [|exact Sn]. unfold has_toks. rewrite Et. discriminate.
    - destruct (Hs eq_refl) as (o & Ho). destruct (C o i (sp_ns sp) Ho) as (ps & Ef & Mt & Ms & _). rewrite Ef. cbn [bind]. rewrite En. cbn [bind].
      assert (Ek : filter (fun x : split => match ns_norm (sp_ns x) with [] => false | _ => true end) (untokenized ps) = untokenized (filter full ps)).
      { clear. unfold untokenized. induction ps as [|m ps IH]; [reflexivity|]. cbn. unfold full at 1. destruct (ns_norm m); cbn; now rewrite IH. }
      rewrite Ek. exists (untokenized (filter full ps) :: news). split; [reflexivity|]. split.
      + constructor; [|exact Fn]. unfold recut, has_toks. rewrite Et. split.
        * unfold untokenized. rewrite map_map. unfold sp_text. cbn. exact Mt.
        * unfold untokenized. apply Forall_map, Forall_forall. reflexivity.
      + cbn. apply Forall_app. split; [|exact Sn]. unfold untokenized. apply Forall_map. cbn. eapply Forall_impl; [|exact Ms]. eauto. }
  destruct (G (pt_splits p) 0%nat A) as (news & En & Fn & Sn). rewrite En. cbn [bind]. eexists. split; [reflexivity|].
  split; [exact Sn|]. split; [reflexivity|]. exists news. auto.
Qed.
Lemma documented_some u t : forall f p, documented u t = Some f -> some_sit p ->
  exists p', pre_tokenize u t p = Ok p' /\ some_sit p' /\ repieced f p p'.
Proof.
  induction t as [t N|ts IH] using pre_tokenizer_ind'; intros f p D A.
  - destruct t as [| | |b|i|d|q b i| |r g s|x|ts]; try discriminate D; [..|now destruct (N ts)].
    + injection D as <-. apply cutter_some; [apply cutter_bert|exact A].
    + injection D as <-. apply cutter_some; [apply cutter_whitespace|exact A].
    + injection D as <-. apply cutter_some; [apply (cutter_fn is_white Removed)|exact A].
    + injection D as <-. apply cutter_some; [apply cutter_fn|exact A].
    + injection D as <-. apply cutter_some; [apply cutter_fn|exact A].
    + injection D as <-. apply cutter_some; [apply cutter_rune|exact A].
    + destruct q as [c| | |g| |]; try discriminate D; destruct i; try discriminate D; injection D as <-.
      * apply cutter_some; [apply (cutter_fn (fun x => (x =? c)%N) b)|exact A].
      * apply cutter_some; [apply cutter_fn|exact A].
    + injection D as <-. apply cutter_some; [apply cutter_script|exact A].
  - revert f p D A. induction ts as [|t ts IHts]; intros f p D A.
    + injection D as <-. exists p. split; [reflexivity|]. split; [exact A|]. split; [reflexivity|].
      exists (map (fun sp => [sp]) (pt_splits p)). split.
      * induction (pt_splits p) as [|sp l IHl]; [reflexivity|]. cbn. now rewrite <- IHl.
      * unfold some_sit in A. revert A. induction (pt_splits p) as [|sp l IHl]; intros A; [constructor|]. inversion A as [|? ? Hs A']; subst.
        constructor; [|now apply IHl]. unfold recut. destruct (has_toks sp) eqn:Ht; [reflexivity|]. split; [|repeat constructor; assumption].
        cbn. f_equal. destruct (Hs eq_refl) as (o & _ & _ & (rs & Sc & E) & _). unfold sp_text. now rewrite E, runes_encode.
    + inversion IH as [|? ? Ht Hts]; subst. cbn [documented] in D. destruct (documented u t) as [g|] eqn:Eg; [|discriminate].
      match type of D with match ?e with _ => _ end = _ => destruct e as [h|] eqn:Eh; [|discriminate] end.
      injection D as <-. destruct (Ht g p eq_refl A) as (p1 & E1 & A1 & R1). destruct (IHts Hts h p1 Eh A1) as (p2 & E2 & A2 & R2).
      exists p2. split; [|split; [exact A2|]].
      * cbn [pre_tokenize]. rewrite E1. exact E2.
      * eapply repieced_seq; [|exact R1|exact R2]. exact (documented_keeps u t g Eg).
Qed.
Lemma recut_open f p p' : repieced f p p' -> open_texts (pt_splits p') = flat_map (fun y => map encode (f (runes y))) (open_texts (pt_splits p)) /\
  incl (filter has_toks (pt_splits p')) (filter has_toks (pt_splits p)).
Proof.
  intros (_ & news & E & F). rewrite E. clear E. induction F as [|sp new l news R F [IH1 IH2]]; [split; [reflexivity|easy]|]. cbn [concat]. rewrite open_app, filter_app, IH1.
  change (sp :: l) with ([sp] ++ l). rewrite open_app, filter_app, flat_map_app.
  unfold recut in R. destruct (has_toks sp) eqn:Ht.
  - subst new. assert (O : open_texts [sp] = []) by (unfold open_texts; cbn [filter]; unfold open; now rewrite Ht). rewrite O. split; [reflexivity|].
    cbn [filter]. rewrite Ht. intros x [Hx|Hx]; [now left|right; auto].
  - destruct R as [R1 R2]. assert (O : open_texts [sp] = [sp_text sp]) by (unfold open_texts; cbn [filter]; unfold open; now rewrite Ht). rewrite O. cbn [flat_map]. rewrite app_nil_r. split.
    + f_equal. rewrite open_all; [exact R1|]. eapply Forall_impl; [|exact R2]. intros x. unfold has_toks. destruct (sp_toks x); congruence.
    + assert (X : filter has_toks new = []) by (clear -R2; induction R2 as [|x l H F IH]; [reflexivity|]; cbn [filter]; now rewrite H). rewrite X. cbn [filter]. rewrite Ht. exact IH2.
Qed.

Section Sorted.
  Variable ss si : list io_pair -> list io_pair.
  Hypothesis HS : sorts start_key ss.
  Hypothesis HI : sorts id_key si.

  (** The open pieces after normalizing; added tokens have ids of tokens looked for. *)
  Lemma extract_parts t s p : matching_ok (tk_raw t) -> matching_ok (tk_normalized t) -> with_default normalizer_ok (tk_normalizer t) -> clean s ->
    extract_and_normalize ss si t s = Ok p ->
    (exists l, Forall2 (fun w ys => exists n m, wf n /\ untouched n /\ ns_norm n = w /\ apply_normalizer (tk_normalizer t) n = Ok m /\
        ys = match ns_norm m with [] => [] | x => not_added (cut_added ss si (tk_normalized t) x) end)
      (match s with [] => [] | _ => not_added (cut_added ss si (tk_raw t) s) end) l /\ open_texts (pt_splits p) = concat l) /\
    Forall (fun sp => forall ts, sp_toks sp = Some ts -> exists set x id w, (set = tk_raw t \/ set = tk_normalized t) /\ In (Some id, w) (cut_added ss si set x) /\ map t_id ts = [id]) (pt_splits p).
  Proof.
    intros M1 M2 N C E. pose proof (new_in_place s C) as P. unfold extract_and_normalize in E. destruct (raw_apart ss si HS HI (tk_raw t) s M1 C) as (p1 & E1 & O1 & [G _] & U1). rewrite E1 in E. cbn [bind] in E.
    destruct s as [|c s'].
    - unfold pt_split, pt_new, pt_from_ns in E1. cbn [pt_splits pt_orig split_pieces sp_toks sp_ns] in E1. destruct (indices_empty ss si _ (tk_raw t) (new_ns []) P eq_refl) as (sps & Ei & F).
      rewrite Ei in E1. cbn [bind] in E1. fold nonempty in E1. fold nonempty in F. rewrite F in E1. injection E1 as <-. cbn in E. injection E as <-. split; [|constructor]. exists []. split; [constructor|reflexivity].
    - set (s := c :: s') in *. assert (Ne : s <> []) by discriminate. destruct (indices_labels ss si HS HI s (tk_raw t) (new_ns s) M1 P Ne) as (sps & Ei & N1 & F1).
      unfold pt_split, pt_new, pt_from_ns in E1. cbn [pt_splits pt_orig split_pieces sp_toks sp_ns] in E1. rewrite Ei in E1. cbn [bind] in E1. fold nonempty in E1.
      rewrite (PipelineProofs.filter_true _ _ N1), app_nil_r in E1. injection E1 as <-. cbn [pt_splits pt_orig] in *. change (ns_norm (new_ns s)) with s in F1.
      unfold pt_split in E. cbn [pt_splits pt_orig] in E. destruct (split_pieces _ 0 sps) as [l'| | | |] eqn:El; cbn [bind] in E; try discriminate. injection E as <-. cbn [pt_splits].
      destruct (split_pieces_news _ _ _ _ El) as (news & -> & F2). clear El Ei. change (match s with [] => [] | _ => not_added (cut_added ss si (tk_raw t) s) end) with (not_added (cut_added ss si (tk_raw t) s)).
      assert (Hin : forall x, In x (cut_added ss si (tk_raw t) s) -> In x (cut_added ss si (tk_raw t) s)) by auto.
      revert G N1 F1 U1 Hin. generalize (cut_added ss si (tk_raw t) s) at 1 2 4 as L. clear -F2 M2 N HS HI.
      induction F2 as [|sp new sps news H F2 IH]; intros L G N1 F1 U1 Hin; inversion F1 as [|x ? L' ? [Tx Kx] F1']; subst.
      + split; [|constructor]. exists []. split; [constructor|reflexivity].
      + inversion G as [|? ? [P T] G']; subst. inversion N1 as [|? ? Ns N1']; subst. inversion U1 as [|? ? Us U1']; subst.
        destruct (IH L' G' N1' F1' U1') as [(l & FL & OL) A]; [intros y Hy; apply Hin; now right|]. clear IH F1 F1' F2 G G' N1 N1' U1 U1'. cbn [concat]. rewrite open_app, OL.
        assert (Xn : not_added (x :: L') = match fst x with Some _ => [] | None => [snd x] end ++ not_added L') by reflexivity. rewrite Xn. rewrite Kx in H. destruct x as [[id|] w]; cbn [fst snd] in *.
        * subst new. split.
          -- exists l. split; [exact FL|]. unfold open_texts at 1. cbn [filter]. unfold open, has_toks. rewrite Kx. reflexivity.
          -- cbn [app]. constructor; [|exact A]. intros ts Ets. rewrite Kx in Ets. injection Ets as <-. exists (tk_raw t), s, id, w. split; [now left|]. split; [apply Hin; now left|reflexivity].
        * destruct H as (i & new0 & H & ->). apply bind_Ok_inv in H as (m & Em & H).
          destruct (apply_ok t _ _ m N P Us Em) as (Pm & _ & _).
          assert (Q : open_texts (filter nonempty new0) = match ns_norm m with [] => [] | y => not_added (cut_added ss si (tk_normalized t) y) end /\
            Forall (fun sp => forall ts, sp_toks sp = Some ts -> exists set x id w, (set = tk_raw t \/ set = tk_normalized t) /\ In (Some id, w) (cut_added ss si set x) /\ map t_id ts = [id]) (filter nonempty new0)).
          { destruct (ns_norm m) as [|b y] eqn:En.
            - destruct (indices_empty ss si s (tk_normalized t) m Pm En) as (sps' & E' & F'). assert (sps' = new0) by congruence. subst. fold nonempty in F'. rewrite F'. split; [reflexivity|constructor].
            - rewrite <- En. destruct (indices_labels ss si HS HI s (tk_normalized t) m M2 Pm ltac:(congruence)) as (sps' & E' & N' & F'). assert (sps' = new0) by congruence. subst.
              rewrite (PipelineProofs.filter_true _ _ N'). split; [exact (labelled_open _ _ F')|]. clear -F'.
              assert (G : forall L, incl L (cut_added ss si (tk_normalized t) (ns_norm m)) -> Forall2 labelled L new0 ->
                Forall (fun sp => forall ts, sp_toks sp = Some ts -> exists set x id w, (set = tk_raw t \/ set = tk_normalized t) /\ In (Some id, w) (cut_added ss si set x) /\ map t_id ts = [id]) new0).
              { clear F'. intros L I F. induction F as [|x sp L new0 [T K] F IH]; [constructor|]. constructor; [|apply IH; intros y Hy; apply I; now right].
                intros ts Ets. rewrite K in Ets. destruct x as [[id|] w]; cbn [fst snd] in Ets; [|discriminate]. injection Ets as <-. exists (tk_normalized t), (ns_norm m), id, w.
                split; [now right|]. split; [apply I; now left|reflexivity]. }
              exact (G _ (incl_refl _) F'). }
          fold nonempty. destruct Q as [Q1 Q2]. split.
          -- exists ((match ns_norm m with [] => [] | y => not_added (cut_added ss si (tk_normalized t) y) end) :: l). split.
             ++ cbn [app]. constructor; [|exact FL]. exists (sp_ns sp), m. split; [apply P|]. split; [exact Us|]. split; [exact Tx|]. split; [exact Em|reflexivity].
             ++ cbn [concat]. f_equal. exact Q1.
          -- apply Forall_app. split; [exact Q2|exact A].
  Qed.

  Section Tok.
    Variables (t : tokenizer) (u : unicode) (pre : pre_tokenizer) (cut : list N -> list (list N)) (f : str -> res (option (list token))) (m : base_model) (av : added_vocab) (skip : bool).
    Hypothesis M1 : matching_ok (tk_raw t).
    Hypothesis M2 : matching_ok (tk_normalized t).
    Hypothesis No : with_default normalizer_ok (tk_normalizer t).
    Hypothesis Pre : tk_pre t = Some (pre_tokenize u pre).
    Hypothesis Doc : documented u pre = Some cut.
    Hypothesis Fm : tk_model t = Some f.
    Hypothesis Ah : added_hidden ss si t (shown m av skip).

    (** What is shown of a text: the tokens of its words, by their ids. *)
    Lemma raw_shown ty ot s e : clean s -> encode_sequence ss si t ty ot (Raw s) = Ok e ->
      exists ws tss, text_words ss si t cut s ws /\ Forall2 (fun w ts => ts <> [] /\ f w = Ok (Some ts)) ws tss /\ shown_all m av skip (ids e) = shown_all m av skip (map t_id (concat tss)).
    Proof.
      intros C E. destruct (raw_tokens ss si _ _ _ _ _ E) as (p & p' & toks & E1 & E2 & F & (R1 & _) & _). rewrite Pre in E2.
      destruct (extract_parts t s p M1 M2 No C E1) as [(l & FL & OL) A]. destruct (extract_laid ss si HS HI t s p M1 M2 No C E1) as (L1 & _).
      destruct (documented_some u pre cut p Doc (laid_some p L1)) as (q & E3 & _ & R). assert (q = p') by congruence. subst q. destruct (recut_open _ _ _ R) as [O I].
      assert (A' : Forall (fun sp => forall ts, sp_toks sp = Some ts -> exists id, map t_id ts = [id] /\ shown m av skip id = None) (pt_splits p')).
      { apply Forall_forall. intros sp Hsp ts Ets. assert (Hp : In sp (filter has_toks (pt_splits p))) by (apply I, filter_In; split; [exact Hsp|unfold has_toks; now rewrite Ets]).
        apply filter_In in Hp as [Hp _]. rewrite Forall_forall in A. destruct (A sp Hp ts Ets) as (set & x & id & w & Hs & Hw & Hi). exists id. split; [exact Hi|]. exact (Ah set x id w Hs Hw). }
      exists (open_texts (pt_splits p')). rewrite R1. clear R R1 E1 E2 E3 E A L1 I.
      assert (K : exists tss, Forall2 (fun w ts => ts <> [] /\ f w = Ok (Some ts)) (open_texts (pt_splits p')) tss /\ shown_all m av skip (map t_id (concat toks)) = shown_all m av skip (map t_id (concat tss))).
      { clear O. induction F as [|sp ts sps toks [Nt X] F IH]; [exists []; split; [constructor|reflexivity]|]. inversion A' as [|? ? A1 A2]; subst. destruct (IH A2) as (tss & K1 & K2).
        change (sp :: sps) with ([sp] ++ sps). rewrite open_app. cbn [concat]. rewrite map_app, shown_app, K2. destruct (sp_toks sp) as [tk|] eqn:Et.
        - subst tk. destruct (A1 ts eq_refl) as (id & Hi & Hh). rewrite Hi. exists tss. assert (Y : open_texts [sp] = []) by (unfold open_texts; cbn [filter]; unfold open, has_toks; now rewrite Et).
          rewrite Y. split; [exact K1|]. rewrite (shown_hidden m av skip [id]); [reflexivity|]. constructor; [exact Hh|constructor].
        - destruct X as (f' & Ef & X). assert (f' = f) by congruence. subst f'. assert (Y : open_texts [sp] = [sp_text sp]) by (unfold open_texts; cbn [filter]; unfold open, has_toks; now rewrite Et).
          rewrite Y. exists (ts :: tss). split; [constructor; [split; assumption|assumption]|]. cbn [concat]. now rewrite map_app, shown_app. }
      destruct K as (tss & K1 & K2). exists tss. split; [|split; [exact K1|exact K2]]. rewrite O, OL. exists (map (flat_map (fun y => map encode (cut (runes y)))) l). split.
      - clear -FL. induction FL as [|w ys ps l (n & k & H0 & H1 & H2 & H3 & ->) FL IH]; [constructor|]. cbn [map]. constructor; [|exact IH]. exists n, k. split; [exact H0|]. split; [exact H1|]. split; [exact H2|]. split; [exact H3|].
        destruct (ns_norm k); reflexivity.
      - clear. induction l as [|y l IH]; [reflexivity|]. cbn [concat map]. now rewrite flat_map_app, IH.
    Qed.

    Lemma input_shown ty ot x e : clean_input x -> encode_sequence ss si t ty ot x = Ok e ->
      exists wss tss, Forall2 (text_words ss si t cut) (input_texts x) wss /\ Forall2 (fun w ts => ts <> [] /\ f w = Ok (Some ts)) (concat wss) tss /\
        shown_all m av skip (ids e) = shown_all m av skip (map t_id (concat tss)).
    Proof.
      intros C E. destruct x as [s|l].
      - destruct (raw_shown ty ot s e C E) as (ws & tss & T & F & S0). exists [ws], tss. cbn [concat input_texts]. rewrite app_nil_r. split; [|split; assumption]. constructor; [exact T|constructor].
      - cbn [clean_input] in C. destruct (words_tokens ss si _ _ _ _ _ E) as (es & F & I & _). rewrite I. cbn [input_texts]. clear I E. induction F as [|w e' l es Hw F IH].
        + exists [], []. split; [constructor|split; [constructor|reflexivity]].
        + inversion C as [|? ? C1 C2]; subst. destruct (IH C2) as (wss & tss & X1 & X2 & X3). destruct (raw_shown ty ot w e' C1 Hw) as (ws & ts & T & F' & S0).
          exists (ws :: wss), (ts ++ tss). split; [constructor; assumption|]. cbn [concat map]. split; [now apply Forall2_app|]. now rewrite shown_app, concat_app, map_app, shown_app, S0, X3.
    Qed.

    Lemma encode_shown ot x add e : ending_hides (shown m av skip) t (dual x) add -> clean_inputs x -> tk_encode ss si t ot x add = Ok (Some e) ->
      exists ws tss, input_words ss si t cut x ws /\ Forall2 (fun w ts => ts <> [] /\ f w = Ok (Some ts)) ws tss /\ shown_all m av skip (ids e) = shown_all m av skip (map t_id (concat tss)).
    Proof.
      intros Hh C E. destruct x as [a|a b]; cbn [tk_encode clean_inputs dual encode_texts] in *.
      - apply bind_Ok_inv in E as (e1 & E1 & E). destruct (input_shown 0 ot a e1 C E1) as (wss & tss & X1 & X2 & X3). exists (concat wss), tss.
        split; [exists wss; split; [exact X1|reflexivity]|]. split; [exact X2|]. rewrite (post_seen m av skip t e1 None add e Hh E). cbn [pair_ids]. change (shown_all m av skip []) with (@nil str). now rewrite app_nil_r.
      - destruct C as [Ca Cb]. apply bind_Ok_inv in E as (e1 & E1 & E). apply bind_Ok_inv in E as (e2 & E2 & E).
        destruct (input_shown 0 ot a e1 Ca E1) as (wss & tss & X1 & X2 & X3). destruct (input_shown 1 ot b e2 Cb E2) as (wss' & tss' & Y1 & Y2 & Y3).
        exists (concat (wss ++ wss')), (tss ++ tss'). split; [exists (wss ++ wss'); split; [now apply Forall2_app|reflexivity]|]. split; [rewrite concat_app; now apply Forall2_app|].
        rewrite (post_seen m av skip t e1 (Some e2) add e Hh E). cbn [pair_ids]. now rewrite concat_app, map_app, shown_app, X3, Y3.
    Qed.
  End Tok.
End Sorted.
