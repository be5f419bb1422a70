(** The added vocabulary of a loaded tokenizer (C76). *)
From Verif Require Import Base BaseProofs Utf8Model Utf8Proofs NormalizedModel EncodingModel EncodingProofs BpeModel AddedVocabModel AddedVocabSpec AddedVocabProofs AddedPatternModel AddedPatternSpec AddedPatternProofs
  DecoderModel ProcessorModel PipelineModel PipelineSpec PretrainedModel ConfigModel RoundTripSpec LoadedSpec.
Open Scope Z_scope.

Local Notation pat := (fun t => Some (at_content t)).
Local Notation comp := (fun _ : str => true).

Lemma existsb_str s l : existsb (str_eqb s) l = true <-> In s l.
Proof.
  rewrite existsb_exists. split; [intros (x & H & E); apply str_eqb_eq in E; now subst|]. intros H. exists s. split; [exact H|apply str_eqb_refl].
Qed.
Lemma unknown_ext t2i l : forall a b, (forall s, In s a <-> In s b) -> unknown t2i a l = unknown t2i b l.
Proof.
  induction l as [|s l IH]; intros a b H; [reflexivity|]. cbn [unknown]. destruct (t2i s); [now apply IH|].
  assert (E : existsb (str_eqb s) a = existsb (str_eqb s) b) by (apply eq_true_iff_eq; rewrite !existsb_str; apply H). rewrite E.
  destruct (existsb _ b); [now apply IH|]. f_equal. apply IH. intros x. cbn [In]. now rewrite H.
Qed.
Lemma unknown_app t2i l k : forall seen, unknown t2i seen (l ++ k) = unknown t2i seen l ++ unknown t2i (seen ++ unknown t2i seen l) k.
Proof.
  induction l as [|s l IH]; intros seen; cbn [unknown app]; [now rewrite app_nil_r|]. destruct (t2i s); [apply IH|]. destruct (existsb _ seen); [apply IH|]. cbn [app]. f_equal. rewrite IH. f_equal.
  apply unknown_ext. intros x. rewrite !in_app_iff. cbn [In]. tauto.
Qed.
Lemma unknown_in t2i l x : forall seen, In x (unknown t2i seen l) -> In x l.
Proof. induction l as [|s l IH]; intros seen H; cbn [unknown] in H; [destruct H|]. destruct (t2i s); [right; eauto|]. destruct (existsb _ seen); [right; eauto|]. destruct H as [->|H]; [now left|right; eauto]. Qed.

(** ** One call *)
Lemma add_fold_keys m ts : Forall (fun t => at_content t <> []) ts -> forall av n,
  map fst (av_map (fst (fold_left (add_one m) ts (av, n)))) = map fst (av_map av) ++ unknown (bm_t2i m) (map fst (av_map av)) (map at_content ts).
Proof.
  induction 1 as [|t ts Ht F IH]; intros av n; cbn [fold_left map unknown]; [now rewrite app_nil_r|].
  unfold add_one at 2. destruct (length (at_content t) =? 0)%nat eqn:El; [apply Nat.eqb_eq, length_zero_iff_nil in El; congruence|].
  unfold av_token_to_id. destruct (aget str_eqb (at_content t) (av_map av)) as [j|] eqn:Ea.
  - rewrite IH. cbn [av_map]. f_equal. assert (K : In (at_content t) (map fst (av_map av))) by (apply (ag_in str_eqb str_eqb_eq) in Ea; apply in_map_iff; exists (at_content t, j); auto).
    destruct (bm_t2i m (at_content t)); [reflexivity|]. apply existsb_str in K. now rewrite K.
  - apply (ag_none str_eqb str_eqb_eq) in Ea. destruct (bm_t2i m (at_content t)) as [j|]; [rewrite IH; reflexivity|].
    rewrite IH. cbn [av_map]. rewrite (aset_fresh _ str_eqb_eq) by exact Ea. rewrite map_app. cbn [map fst]. destruct (existsb _ _) eqn:Ee; [apply existsb_str in Ee; contradiction|].
    rewrite <- app_assoc. cbn [app]. f_equal. f_equal. apply unknown_ext. intros x. rewrite in_app_iff. cbn [In]. tauto.
Qed.
Lemma position_aget l : forall k s (f : nat -> Z), map snd l = map f (seq k (length l)) ->
  aget str_eqb s l = option_map (fun j => f (k + j)%nat) (position s (map fst l)).
Proof.
  induction l as [|[x i] l IH]; intros k s f H; [reflexivity|]. cbn [map fst snd length seq] in H. injection H as Hi H. cbn [aget map fst position]. destruct (str_eqb s x); [cbn; now rewrite Nat.add_0_r, Hi|].
  rewrite (IH (Datatypes.S k) s f H). destruct (position s (map fst l)); [cbn; f_equal; f_equal; lia|reflexivity].
Qed.

Section Added.
  Variable m : base_model.
  Hypothesis B : base_ok m.
  Variable ad : list token_config.
  Hypothesis Fa : Forall (fun t => tc_content t <> [] /\ valid_utf8 (tc_content t)) ad.

  (** What is known of the vocabulary after some of the calls. *)
  Definition reached (keys : list str) (special : str -> Prop) (av : added_vocab) : Prop :=
    good m av /\ map fst (av_map av) = unknown (bm_t2i m) [] keys /\
    (forall t, In t (av_special av ++ av_added av) -> exists c, In c ad /\ t = added_of c) /\
    (forall t, In t (av_special av) -> special (at_content t)) /\
    (forall s, is_special av s = true <-> special s).

  Lemma reached_nil : reached [] (fun _ => False) new_added_vocab.
  Proof. split; [apply good_nil|]. split; [reflexivity|]. split; [intros t []|]. split; [intros t []|]. cbn. split; [discriminate|tauto]. Qed.

  Lemma added_nonempty (P : token_config -> bool) : Forall (fun t => at_content t <> []) (map added_of (filter P ad)).
  Proof. apply Forall_map, Forall_forall. intros c Hc. apply filter_In in Hc as [Hc _]. rewrite Forall_forall in Fa. cbn. apply (Fa c Hc). Qed.

  (** AddTokens, whatever has been noted before. *)
  Lemma step_any P av : pre m av (map added_of (filter P ad)) ->
    exists av' n, add_tokens m pat comp (map added_of (filter P ad)) av = Ok (av', n) /\ good m av' /\
      map fst (av_map av') = map fst (av_map av) ++ unknown (bm_t2i m) (map fst (av_map av)) (map tc_content (filter P ad)) /\
      av_special av' = av_special av /\ av_set av' = av_set av /\
      (forall t, In t (av_added av') -> In t (av_added av) \/ exists c, In c ad /\ t = added_of c).
  Proof.
    intros Pr. set (ts := map added_of (filter P ad)) in *. pose proof (add_tokens_known m B av ts Pr) as Hk. pose proof (add_fold_spec m ts B av 0 (proj1 Pr)) as Sp.
    pose proof (add_fold_keys m ts (added_nonempty P) av 0) as Ky.
    assert (E : exists r, add_tokens m pat comp ts av = Ok r).
    { unfold add_tokens. destruct (fold_left (add_one m) ts (av, 0)) as [av1 ign]. cbn [fst] in Hk.
      destruct (refresh_ok m pat comp av1 Hk) as (av3 & E3); [intros t _; eexists; split; reflexivity|]. rewrite E3. cbn [bind]. eauto. }
    destruct E as ([av3 n] & E). exists av3, n. split; [exact E|]. destruct (add_tokens_good m pat comp B av ts av3 n Pr E) as (G & _ & _ & Es & Eset). split; [exact G|].
    unfold add_tokens in E. destruct (fold_left (add_one m) ts (av, 0)) as [av1 ign]. cbn [fst] in Ky. apply bind_Ok_inv in E as (av2 & E2 & E). injection E as -> _.
    destruct (refresh_map m pat comp av1 av3 E2) as (R1 & _ & R3 & _). destruct Sp as (_ & _ & _ & _ & _ & _ & Hsub). split; [|split; [exact Es|split; [exact Eset|]]].
    - rewrite R1, Ky. f_equal. f_equal. unfold ts. now rewrite map_map.
    - intros t. rewrite R3. intros Ht. destruct (Hsub t Ht) as [H'|H']; [now left|right]. unfold ts in H'. apply in_map_iff in H' as (c & <- & Hc). apply filter_In in Hc as [Hc _]. eauto.
  Qed.

  Lemma step_tok P keys special av : reached keys special av ->
    exists av' n, add_tokens m pat comp (map added_of (filter P ad)) av = Ok (av', n) /\ reached (keys ++ map tc_content (filter P ad)) special av'.
  Proof.
    intros (G & K & F & S1 & S2). destruct (step_any P av (pre_tok m av _ G)) as (av' & n & E & G' & Ky & Es & Eset & A). exists av', n. split; [exact E|].
    split; [exact G'|]. split; [rewrite Ky, K, unknown_app; reflexivity|]. split; [|split].
    - intros t. rewrite Es, in_app_iff. intros [Ht|Ht]; [apply F, in_or_app; now left|]. destruct (A t Ht) as [H'|H']; [apply F, in_or_app; now right|exact H'].
    - intros t. rewrite Es. apply S1.
    - intros s. unfold is_special. rewrite Eset. apply S2.
  Qed.
  Lemma step_special P keys special av : reached keys special av ->
    exists av' n, add_special_tokens m pat comp (map added_of (filter P ad)) av = Ok (av', n) /\
      reached (keys ++ map tc_content (filter P ad)) (fun s => special s \/ In s (map tc_content (filter P ad))) av'.
  Proof.
    intros (G & K & F & S1 & S2). unfold add_special_tokens. set (ts := map added_of (filter P ad)).
    destruct (step_any P _ (pre_special m comp av ts G)) as (av' & n & E & G' & Ky & Es & Eset & A). exists av', n. split; [exact E|].
    destruct (note_special_spec comp ts av) as (N1 & _ & N3 & _ & _ & _ & N7 & N8 & _).
    assert (Hts : forall t, In t ts -> exists c, In c ad /\ P c = true /\ t = added_of c).
    { intros t Ht. unfold ts in Ht. apply in_map_iff in Ht as (c & <- & Hc). apply filter_In in Hc as [Hc HP]. eauto. }
    split; [exact G'|]. split; [rewrite Ky, N1, K, unknown_app; reflexivity|]. split; [|split].
    - intros t. rewrite Es, in_app_iff. intros [Ht|Ht].
      + destruct (N7 t Ht) as [H'|[H' _]]; [apply F, in_or_app; now left|]. destruct (Hts t H') as (c & Hc & _ & ->). eauto.
      + destruct (A t Ht) as [H'|H']; [rewrite N3 in H'; apply F, in_or_app; now right|exact H'].
    - intros t. rewrite Es. intros Ht. destruct (N7 t Ht) as [H'|[H' _]]; [left; now apply S1|right]. destruct (Hts t H') as (c & Hc & HP & ->). cbn. apply in_map, filter_In. auto.
    - intros s. unfold is_special. rewrite Eset. match goal with |- existsb _ (av_set ?a) = true <-> _ => change (is_special a s = true <-> special s \/ In s (map tc_content (filter P ad))) end. rewrite N8, S2. assert (Em : map at_content ts = map tc_content (filter P ad)) by (unfold ts; now rewrite map_map). rewrite Em.
      split; [tauto|]. intros [H|H]; [now left|right]. split; [|exact H]. apply in_map_iff in H as (c & <- & Hc). apply filter_In in Hc as [Hc _]. rewrite Forall_forall in Fa. apply (Fa c Hc).
  Qed.

  Definition special_content (s : str) : Prop := exists c, In c ad /\ tc_special c = true /\ tc_content c = s.
  Lemma filtered_nil (P : token_config -> bool) : map added_of (filter P ad) = [] -> map tc_content (filter P ad) = [].
  Proof. destruct (filter P ad); [reflexivity|discriminate]. Qed.
  Lemma added_reached : exists av, added_by m (add_calls ad) = Ok av /\ reached (listed ad) special_content av.
  Proof.
    unfold added_by, add_calls, create_added. set (sp := filter tc_special ad). set (ot := filter (fun t => negb (tc_special t)) ad).
    assert (X : exists av1, (forall cs, add_history m pat comp new_added_vocab ((match map added_of sp with [] => [] | _ => [AddSpecial (map added_of sp)] end) ++ cs) =
        do r <- add_history m pat comp av1 cs; Ok (fst r, (match map added_of sp with [] => [] | _ => [snd (match add_special_tokens m pat comp (map added_of sp) new_added_vocab with Ok x => x | _ => (av1, 0) end)] end) ++ snd r)) /\
      reached (map tc_content sp) special_content av1).
    { destruct (map added_of sp) eqn:Em.
      - exists new_added_vocab. split; [intros cs; cbn [app]; destruct (add_history _ _ _ _ cs) as [[? ?]| | | |]; reflexivity|]. unfold sp. rewrite (filtered_nil _ Em).
        destruct reached_nil as (R1 & R2 & R3 & R4 & R5). split; [exact R1|]. split; [exact R2|]. split; [exact R3|]. split; [intros t []|]. intros s. rewrite R5. split; [tauto|].
        intros (c & Hc & Hs & _). assert (In c sp) by (apply filter_In; auto). destruct sp; [assumption|discriminate Em].
      - rewrite <- Em. clear Em. destruct (step_special tc_special [] _ _ reached_nil) as (av1 & n & E & R). fold sp in E, R. exists av1. split.
        + intros cs. cbn [app add_history add_step]. rewrite E. cbn [bind fst snd]. destruct (add_history m _ _ av1 cs) as [[? ?]| | | |]; reflexivity.
        + destruct R as (R1 & R2 & R3 & R4 & R5). split; [exact R1|]. split; [exact R2|]. split; [exact R3|].
          assert (Eq : forall s, (False \/ In s (map tc_content sp)) <-> special_content s).
          { intros s. split.
            - intros [[]|H]. apply in_map_iff in H as (c & <- & Hc). apply filter_In in Hc as [Hc Hs]. exists c. auto.
            - intros (c & Hc & Hs & <-). right. apply in_map, filter_In. auto. }
          split; [intros t Ht; apply Eq; auto|intros s; rewrite R5; apply Eq]. }
    destruct X as (av1 & X & R1). rewrite X. clear X. destruct (map added_of ot) eqn:Em.
    - cbn [add_history bind fst]. exists av1. split; [reflexivity|]. unfold listed. fold ot sp. unfold ot. rewrite (filtered_nil _ Em), app_nil_r. exact R1.
    - rewrite <- Em. clear Em. destruct (step_tok (fun t => negb (tc_special t)) _ _ _ R1) as (av2 & n & E & R2). fold ot in E, R2.
      cbn [add_history add_step]. rewrite E. cbn [bind fst snd]. exists av2. split; [reflexivity|exact R2].
  Qed.

  (** ** What the vocabulary says *)
  Variable av : added_vocab.
  Hypothesis R : reached (listed ad) special_content av.

  Lemma reached_ids s : av_token_to_id m av s = file_id (bm_t2i m) (bm_size m) ad s.
  Proof.
    destruct R as ((I & _) & K & _). unfold av_token_to_id, file_id. rewrite (position_aget _ 0 s _ (inv_ids _ _ I)), K. cbn [Nat.add].
    destruct (position s _) as [k|] eqn:Ep; [|now destruct (bm_t2i m s)]. cbn [option_map]. destruct (bm_t2i m s) as [i|] eqn:Es; [|reflexivity]. exfalso.
    assert (In s (map fst (av_map av))).
    { rewrite K. clear -Ep. revert k Ep. induction (unknown _ _ _) as [|x l IH]; intros k Ep; [discriminate|]. cbn [position] in Ep. destruct (str_eqb s x) eqn:E; [apply str_eqb_eq in E; now left|].
      right. destruct (position s l); [eauto|discriminate]. }
    apply in_map_iff in H as ([t j] & <- & H). cbn [fst] in *. pose proof (inv_new _ _ I t j H). congruence.
  Qed.
  Lemma reached_names i s : av_id_to_token m av i = Some s <-> file_id (bm_t2i m) (bm_size m) ad s = Some i.
  Proof. destruct R as ((I & _) & _). rewrite <- (inverse m B av I s i). now rewrite reached_ids. Qed.

  (** Hidden ids. *)
  Lemma hidden_ids i : In i (special_ids (bm_t2i m) (bm_size m) ad) -> shown m av true i = None.
  Proof.
    intros H. unfold special_ids in H. apply in_flat_map in H as (c & Hc & H). destruct (tc_special c) eqn:Es; [|destruct H]. destruct (file_id _ _ ad (tc_content c)) as [j|] eqn:Ef; [|destruct H].
    destruct H as [->|[]]. apply reached_names in Ef. unfold shown. rewrite Ef. cbn [andb]. destruct R as (_ & _ & _ & _ & R5). assert (X : is_special av (tc_content c) = true) by (apply R5; exists c; auto). now rewrite X.
  Qed.
  Lemma except_hidden i : except (special_ids (bm_t2i m) (bm_size m) ad) i = None -> shown m av true i = None.
  Proof. unfold except. destruct (existsb _ _) eqn:E; [|discriminate]. intros _. apply existsb_exists in E as (j & Hj & E). apply Z.eqb_eq in E. subst j. now apply hidden_ids. Qed.
  (** Others are shown by their token. *)
  Lemma shown_other s i : bm_t2i m s = Some i -> ~ special_content s -> shown m av true i = Some s.
  Proof.
    intros H N. unfold shown. assert (E : av_id_to_token m av i = Some s) by (apply reached_names; unfold file_id; now rewrite H). rewrite E. destruct R as (_ & _ & _ & _ & R5).
    destruct (is_special av s) eqn:Es; [apply R5 in Es; contradiction|reflexivity].
  Qed.

  (** ** Patterns *)
  Definition of_token (x : token_re * Z) : Prop := exists c, In c ad /\ tr_text (fst x) = tc_content c /\ av_token_to_id m av (tc_content c) = Some (snd x).
  Lemma patterns_made is_word norm ts : (forall t, In t ts -> exists c, In c ad /\ t = added_of c) -> (forall t, In t ts -> AddedVocabProofs.known m av t) ->
    exists l, token_patterns is_word None (av_token_to_id m av) norm ts = Ok l /\ Forall of_token l.
  Proof.
    induction ts as [|t ts IH]; intros F K; [exists []; split; [reflexivity|constructor]|]. cbn [token_patterns].
    destruct (K t (or_introl eq_refl)) as (i & Ei). rewrite Ei. destruct (F t (or_introl eq_refl)) as (c & Hc & ->). rewrite Forall_forall in Fa. destruct (Fa c Hc) as [Ne Va].
    destruct IH as (l & El & Fl); [intros; apply F; now right|intros; apply K; now right|].
    assert (Ep : exists r, get_pattern is_word None (added_of c) = Ok r /\ tr_text r = tc_content c).
    { destruct (tc_single c) eqn:Es.
      - destruct (runes (tc_content c)) as [|r rs] eqn:Er; [destruct Va as (q & Hq & Eq); rewrite Eq, runes_encode in Er by exact Hq; subst q; rewrite Eq in Ne; exfalso; now apply Ne|].
        rewrite (get_pattern_single is_word (added_of c) r rs Es Er). eexists; split; reflexivity.
      - rewrite (get_pattern_plain is_word None (added_of c) Es). eexists; split; reflexivity. }
    destruct Ep as (r & Er & Et). rewrite Er. cbn [bind]. rewrite El. cbn [bind]. eexists. split; [reflexivity|]. destruct (Bool.eqb _ _); [constructor; [|exact Fl]; exists c; auto|exact Fl].
  Qed.
  Lemma looked_made is_word norm : exists l, looked_for is_word None m av norm = Ok (re_matching l) /\ Forall of_token l.
  Proof.
    unfold looked_for. destruct R as ((I & K1 & _) & _ & F & _). destruct (patterns_made is_word norm (av_special av ++ av_added av) F) as (l & E & Fl).
    - intros t. rewrite in_app_iff. intros [H|H]; [now apply K1|exact (inv_added _ _ I t H)].
    - rewrite E. cbn [bind]. eauto.
  Qed.
  Lemma looked_ok l : Forall of_token l -> matching_ok (re_matching l).
  Proof.
    intros Fl. apply re_matching_ok. apply (Forall_impl _ (P := of_token)); [|exact Fl]. intros x (c & Hc & E & _). rewrite Forall_forall in Fa. unfold re_ok. rewrite E. apply (Fa c Hc).
  Qed.
  Lemma absent_re r s : tr_text r <> [] -> (forall a z, s <> a ++ tr_text r ++ z) -> find_re r None s 0 0 = [].
  Proof.
    intros Ne H. destruct (find_all r Ne s) as (_ & F & _). destruct (find_re r None s 0 0) as [|mt l]; [reflexivity|]. exfalso. apply Forall_cons_iff in F as [(c & d & (H1 & H2 & H3 & H4 & _) & _) _].
    destruct (infix_split s c d) as (x & y & E & _); [assumption|unfold zlen in *; lia|assumption|]. rewrite H4 in E. exact (H x y E).
  Qed.
  Lemma looked_absent l s : Forall of_token l -> unwritten ad s -> Forall (fun l => l = []) (mt_find (re_matching l) s).
  Proof.
    intros Fl W. cbn [mt_find re_matching]. apply Forall_map. apply (Forall_impl _ (P := of_token)); [|exact Fl]. intros x (c & Hc & E & _). rewrite Forall_forall in Fa.
    apply absent_re; rewrite E; [apply (Fa c Hc)|]. intros a z. exact (W c a z Hc).
  Qed.
End Added.
