(** Special tokens of a file written in a text: what is cut at them (C76, C88). *)
From Coq Require Import String QArith.
From Verif Require Import Base BaseProofs Utf8Model Utf8Proofs SliceModel SliceProofs PatternModel PatternSpec PatternProofs NormalizedModel NormalizedSpec NormalizedProofs NormalizedInvProofs NormalizedExactProofs NormalizedOpProofs ExpandedProofs EncodingModel EncodingProofs BpeModel BpeTokProofs
  AddedVocabModel AddedVocabSpec AddedVocabProofs DecoderModel DecoderProofs PreTokenizerModel PreTokenizerSpec ChunkProofs PreTokenizerProofs ProcessorModel PreTokenizedModel PreTokenizedSpec MetaspaceProofs PipelineModel PipelineSpec PipelineProofs PlacedProofs PlacedNormProofs
  AddedPatternModel SpmModel UnicodeNormModel PretrainedModel ConfigModel ConfigSpec ConfigProofs ConfigLoadProofs
  TokensSpec TokensProofs ReturnSpec ReturnNormProofs ReturnModelProofs ReturnProofs RoundTripSpec RoundTripProofs RoundTripBpeProofs MetaTripSpec MetaModelProofs WordsSpec WordsProofs TurnedProofs LoadedModel LoadedSpec LoadedAddedProofs LoadedProofs LoadedWordsProofs WordLevelSpec BareProofs AddedPatternProofs ItemsSpec MaskedProofs.
Open Scope Z_scope.
Open Scope list_scope.

(** The parts of a text between the added tokens that are found in it as it was given. *)
Definition raw_parts (sort_start sort_id : list io_pair -> list io_pair) (t : tokenizer) (s : str) : list str :=
  match s with [] => [] | _ => not_added (cut_added sort_start sort_id (tk_raw t) s) end.

Lemma noted_special ts : forall av, Forall (fun t => at_content t <> []) ts -> NoDup (map at_content ts) -> (forall t, In t ts -> is_special av (at_content t) = false) ->
  av_special (fold_left note_special ts av) = av_special av ++ ts.
Proof.
  induction ts as [|t ts IH]; intros av F Nd H; cbn [fold_left]; [now rewrite app_nil_r|]. apply Forall_cons_iff in F as [Ft F]. cbn [map] in Nd. apply NoDup_cons_iff in Nd as [Nt Nd].
  assert (E : note_special av t = AV (av_map av) (av_map_r av) (av_added av) (av_special av ++ [t]) (at_content t :: av_set av) (av_norm av) (av_nnorm av)).
  { unfold note_special. rewrite (H t (or_introl eq_refl)). destruct (at_content t); [congruence|reflexivity]. }
  rewrite IH; [|exact F|exact Nd|].
  - rewrite E. cbn [av_special]. now rewrite <- app_assoc.
  - intros k Hk. rewrite E. unfold is_special. cbn [av_set existsb]. rewrite (proj2 (str_eqb_neq _ _)); [exact (H k (or_intror Hk))|]. intros X. apply Nt. rewrite <- X. now apply in_map.
Qed.
Lemma added_special m ts : forall st, (forall t, In t ts -> is_special (fst st) (at_content t) = true) ->
  av_special (fst (fold_left (add_one m) ts st)) = av_special (fst st) /\ av_added (fst (fold_left (add_one m) ts st)) = av_added (fst st).
Proof.
  induction ts as [|t ts IH]; intros [av n] H; cbn [fold_left]; [auto|]. cbn [fst] in *.
  assert (E : av_special (fst (add_one m (av, n) t)) = av_special av /\ av_added (fst (add_one m (av, n) t)) = av_added av /\ av_set (fst (add_one m (av, n) t)) = av_set av).
  { unfold add_one. destruct (length (at_content t) =? 0)%nat; [auto|]. destruct (av_token_to_id m av (at_content t)); [auto|]. cbn. now rewrite (H t (or_introl eq_refl)). }
  destruct E as (E1 & E2 & E3). destruct (IH (add_one m (av, n) t)) as [Q1 Q2].
  - intros k Hk. unfold is_special. rewrite E3. apply (H k). now right.
  - rewrite Q1, Q2. auto.
Qed.
Lemma special_exact m ad av : Forall (fun t => tc_content t <> []) ad -> NoDup (map tc_content ad) -> Forall (fun t => tc_special t = true) ad -> added_by m (add_calls ad) = Ok av ->
  av_special av = map added_of ad /\ av_added av = [].
Proof.
  intros Fn Nd Fs E. unfold added_by, add_calls, create_added in E.
  assert (E1 : filter tc_special ad = ad) by (clear -Fs; induction Fs as [|t l H F IH]; [reflexivity|]; cbn [filter]; now rewrite H, IH).
  assert (E2 : filter (fun t => negb (tc_special t)) ad = []) by (clear -Fs; induction Fs as [|t l H F IH]; [reflexivity|]; cbn [filter]; now rewrite H).
  rewrite E1, E2 in E. cbn [map app] in E. rewrite app_nil_r in E. destruct ad as [|d ad']; [cbn in E; injection E as <-; auto|]. set (ad := d :: ad') in *.
  change (match map added_of ad with [] => [] | _ => [AddSpecial (map added_of ad)] end) with [AddSpecial (map added_of ad)] in E.
  cbn [add_history add_step] in E. unfold add_special_tokens in E. set (ts := map added_of ad) in *. set (av0 := fold_left note_special ts new_added_vocab) in *.
  assert (Ft : Forall (fun t => at_content t <> []) ts) by (apply Forall_map; exact Fn). assert (Ec : map at_content ts = map tc_content ad) by (unfold ts; now rewrite map_map).
  assert (S0 : av_special av0 = ts) by (unfold av0; rewrite noted_special; [reflexivity|exact Ft|now rewrite Ec|reflexivity]).
  destruct (note_special_spec (fun _ : str => true) ts new_added_vocab) as (_ & _ & N3 & _ & _ & _ & _ & N8 & _). fold av0 in N3, N8.
  unfold add_tokens in E. destruct (added_special m ts (av0, 0)) as [Q1 Q2].
  { intros t Ht. cbn [fst]. apply N8. right. rewrite Forall_forall in Ft. split; [now apply Ft|now apply in_map]. }
  destruct (fold_left (add_one m) ts (av0, 0)) as [av1 ign]. cbn [fst] in Q1, Q2. destruct (refresh m _ _ av1) as [av2| | | |] eqn:Er; cbn [bind fst] in E; try discriminate. injection E as <-.
  destruct (refresh_map m _ _ av1 av2 Er) as (_ & _ & R3 & R4 & _). rewrite R3, R4, Q1, Q2, S0, N3. auto.
Qed.
Lemma patterns_special is_word n ids ad : Forall plain_special ad -> forall l, token_patterns is_word n ids false (map added_of ad) = Ok l ->
  exists L, l = map (fun x => (TRe false false (fst x) false false, snd x)) L /\ Forall2 (fun t x => fst x = tc_content t /\ ids (tc_content t) = Some (snd x)) ad L.
Proof.
  induction 1 as [|t ad (_ & H1 & H2 & H3 & H4) F IH]; intros l E; cbn [map token_patterns] in E; [injection E as <-; exists []; split; [reflexivity|constructor]|].
  change (at_content (added_of t)) with (tc_content t) in E. destruct (ids (tc_content t)) as [i|] eqn:Ei; [|discriminate]. rewrite get_pattern_plain in E by exact H1. cbn [bind] in E.
  destruct (token_patterns is_word n ids false (map added_of ad)) as [rest| | | |]; cbn [bind] in E; try discriminate. destruct (IH rest eq_refl) as (L & -> & FL). cbn [added_of at_norm at_lstrip at_rstrip at_content] in E. rewrite H2, H3, H4 in E. cbn [Bool.eqb] in E. injection E as <-.
  exists ((tc_content t, i) :: L). split; [reflexivity|]. constructor; [auto|exact FL].
Qed.
Lemma patterns_normalized is_word n ids ad : Forall plain_special ad -> forall l, token_patterns is_word n ids true (map added_of ad) = Ok l -> l = [].
Proof.
  induction 1 as [|t ad (_ & H1 & H2 & H3 & H4) F IH]; intros l E; cbn [map token_patterns] in E; [now injection E as <-|].
  destruct (ids (at_content (added_of t))) as [i|] eqn:Ei; [|discriminate]. rewrite get_pattern_plain in E by exact H1. cbn [bind] in E.
  destruct (token_patterns is_word n ids true (map added_of ad)) as [rest| | | |]; cbn [bind] in E; try discriminate. rewrite (IH rest eq_refl) in E. cbn [added_of at_norm] in E. rewrite H4 in E. now injection E as <-.
Qed.
Lemma unadded_written p ps : not_added (written_items p ps) = filter (fun s => match s with [] => false | _ => true end) (p :: map snd ps).
Proof.
  assert (Pl : forall q, not_added (plain_item q) = filter (fun s : str => match s with [] => false | _ => true end) [q]) by (now intros [|b q]).
  assert (A : forall a b, not_added (a ++ b) = not_added a ++ not_added b) by (intros; unfold not_added; apply flat_map_app).
  unfold written_items. rewrite A, Pl. change (p :: map snd ps) with ([p] ++ map snd ps). rewrite filter_app. f_equal. induction ps as [|q ps IH]; [reflexivity|]. cbn [flat_map map]. change (snd q :: map snd ps) with ([snd q] ++ map snd ps). rewrite filter_app, <- IH, <- Pl.
  rewrite <- A. reflexivity.
Qed.
Lemma specials_looked is_word nf m ad av f l0 M1 M2 : Forall plain_special ad -> NoDup (map tc_content ad) -> Forall (fun t => tc_content t <> []) ad -> added_by m (add_calls ad) = Ok av ->
  (forall s, av_token_to_id m av s = f s) -> Forall2 (fun t y => fst y = tc_content t /\ f (tc_content t) = Some (snd y)) ad l0 ->
  looked_for is_word nf m av false = Ok M1 -> looked_for is_word nf m av true = Ok M2 ->
  M1 = re_matching (map (fun x => (TRe false false (fst x) false false, snd x)) l0) /\ M2 = re_matching [] /\ map fst l0 = map tc_content ad.
Proof.
  intros Pl Nd Fn Ea Ei W L1 L2. assert (Sps : Forall (fun t => tc_special t = true) ad) by (eapply Forall_impl; [|exact Pl]; intros t H; apply H).
  destruct (special_exact _ ad av Fn Nd Sps Ea) as [S1 S2]. unfold looked_for in L1, L2. rewrite S1, S2, app_nil_r in L1, L2.
  destruct (token_patterns is_word _ _ false (map added_of ad)) as [p1| | | |] eqn:P1; cbn [bind] in L1; try discriminate. destruct (token_patterns is_word _ _ true (map added_of ad)) as [p2| | | |] eqn:P2; cbn [bind] in L2; try discriminate.
  destruct (patterns_special is_word _ _ ad Pl p1 P1) as (L & -> & FL). apply (patterns_normalized is_word _ _ ad Pl) in P2. subst p2. injection L1 as L1. injection L2 as L2.
  assert (K : forall ad' l1 l2 (f g : str -> option Z), (forall s, g s = f s) -> Forall2 (fun t y => fst y = tc_content t /\ f (tc_content t) = Some (snd y)) ad' l1 -> Forall2 (fun t y => fst y = tc_content t /\ g (tc_content t) = Some (snd y)) ad' l2 -> l2 = l1).
  { clear. intros ad' l1 l2 f g Eg W. revert l2. induction W as [|t [s i] ad' l1 [H1 H2] W IH]; intros l2 FL; inversion FL as [|? [s' i'] ? L' [H1' H2'] FL']; subst; [reflexivity|].
    cbn [fst snd] in *. rewrite (IH _ FL'). rewrite Eg in H2'. f_equal. congruence. }
  rewrite (K ad l0 L _ _ Ei W FL) in L1. split; [now symmetry|]. split; [now symmetry|].
  clear -W. induction W as [|t y ad l0 [H _] W IH]; [reflexivity|]. cbn [map]. now rewrite H, IH.
Qed.
Lemma parts_written ss si op cl t (ad : list token_config) l0 qs : sorts start_key ss -> sorts id_key si -> op <> cl ->
  tk_raw t = re_matching (map (fun x => (TRe false false (fst x) false false, snd x)) l0) -> map fst l0 = map tc_content ad -> NoDup (map tc_content ad) -> Forall (fun k => enclosed op cl (tc_content k)) ad ->
  Forall (fun q => in_order l0 (snd q)) qs -> Forall (free_of (map tc_content ad)) (flat_map between qs) ->
  flat_map (raw_parts ss si t) (map (fun q => written (fst q) (snd q)) qs) = filter (fun s => match s with [] => false | _ => true end) (flat_map between qs).
Proof.
  intros HS HI Noc L1 Em Nd Enc O Pa.
  assert (El : Forall (fun y => enclosed op cl (fst y)) l0) by (apply Forall_forall; intros y Hy; apply (in_map fst) in Hy; rewrite Em in Hy; apply in_map_iff in Hy as (k & <- & Ht); rewrite Forall_forall in Enc; now apply Enc).
  induction qs as [|[p ps] qs IH]; [reflexivity|]. apply Forall_cons_iff in O as [Oq O]. cbn [flat_map] in Pa. apply Forall_app in Pa as [Pq Pa]. cbn [map flat_map fst snd]. rewrite filter_app, (IH O Pa). f_equal. unfold between in *. cbn [fst snd] in *.
  rewrite <- unadded_written. unfold raw_parts. destruct (written p ps) as [|b z] eqn:Ew.
  - destruct p; [|discriminate Ew]. destruct ps as [|[[k i] q] ps]; [reflexivity|]. exfalso. rewrite written_cons in Ew. cbn [fst snd app] in Ew. apply app_eq_nil in Ew as [Ew _]. destruct Oq as (ns & Ln & Eo). assert (Ht : In (k, i) (map fst ((k, i, q) :: ps))) by now left.
    rewrite Eo in Ht. apply in_flat_map in Ht as ([y n] & Hy & Ht). apply repeat_spec in Ht. cbn [fst snd] in Ht. subst y. apply in_combine_l in Hy. rewrite Forall_forall in El. destruct (El _ Hy) as (b & Eb & _). cbn [fst] in Eb. congruence.
  - rewrite <- Ew, L1. rewrite (cut_enclosed op cl Noc ss si HS HI l0 p ps El); [reflexivity|now rewrite Em|exact Oq| |congruence]. eapply Forall_impl; [|exact Pq]. cbn. intros s H. now rewrite Em.
Qed.
Lemma plain_raw ss si t s : sorts start_key ss -> sorts id_key si -> tk_normalized t = re_matching [] -> Forall (fun w => w <> []) (raw_parts ss si t s) -> plain_parts ss si t s = raw_parts ss si t s.
Proof.
  intros HS HI L2. unfold plain_parts, raw_parts. destruct s as [|c s]; [reflexivity|]. rewrite L2. generalize (not_added (cut_added ss si (tk_raw t) (c :: s))). induction l as [|w l IH]; intros F; [reflexivity|]. apply Forall_cons_iff in F as [Fw F].
  cbn [flat_map]. rewrite (IH F), (unfound ss si (re_matching []) w HS HI Fw); [reflexivity|constructor].
Qed.
