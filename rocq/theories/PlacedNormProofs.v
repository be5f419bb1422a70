(** Proofs that normalizers and models meet the contracts of the pipeline. *)
From Verif Require Import Base BaseProofs Utf8Model Utf8Proofs PatternModel PatternSpec PatternProofs NormalizedModel NormalizedSpec NormalizedProofs NormalizedInvProofs
  NormalizedExactProofs NormalizedOpProofs EncodingModel BpeModel BpeSpec PreTokenizedModel PreTokenizedSpec PreTokenizedProofs
  PreTokenizerModel PreTokenizerSpec ExpandedProofs AddedVocabModel AddedVocabSpec PipelineModel PipelineSpec PipelineProofs PlacedProofs.
From Coq Require Import Sorted.
Open Scope Z_scope.

Definition kept_place (orig : str) (n m : ns) : Prop :=
  in_place orig m /\ ns_orig m = ns_orig n /\ ns_shift m = ns_shift n.
Lemma kept_by orig n m : in_place orig n -> wf m -> ordered (ns_al m) -> clean (ns_norm m) -> ns_orig m = ns_orig n -> ns_shift m = ns_shift n -> kept_place orig n m.
Proof. intros (_ & _ & _ & S0 & S1) W O C Eo Es. split; [|auto]. split; [exact W|]. split; [exact O|]. split; [exact C|]. rewrite Eo, Es. auto. Qed.
Lemma kept_refl orig n : in_place orig n -> kept_place orig n n.
Proof. intros P. split; [exact P|]. auto. Qed.

(** ** Transforming the whole text *)
Lemma target_untouched n : wf n -> untouched n -> exists on, target n (Rng 0 (zlen (ns_orig n)) OnOriginal) = Ok (Some (Rng 0 (zlen (ns_norm n)) on)).
Proof.
  intros W U. destruct (untouched_expanded n U) as (rs & Sc & E1 & E2 & E3 & E4). rewrite map_fst_same in E1. rewrite exp_text_same in E2.
  destruct rs as [|c rs].
  - rewrite E1, E2. exists OnOriginal. unfold target, convert_offset. cbn [r_on]. rewrite E1. reflexivity.
  - exists OnNormalized. rewrite target_full.
    + rewrite E4, expand_ao by discriminate. rewrite exp_text_same, E2. reflexivity.
    + unfold ns_ao_values, zlen. rewrite map_length. f_equal. apply W.
    + rewrite E1. intros X. assert (L := zlen_rune c). rewrite encode_cons in X. apply app_eq_nil in X. destruct X as [X _]. rewrite X in L. unfold zlen in L. cbn in L. lia.
Qed.
Lemma whole_transform orig n items initial m : in_place orig n -> untouched n -> valid_items items -> clean (items_text items) ->
  consumed items <= zlen (runes (ns_norm n)) -> transform n items initial = Ok m -> kept_place orig n m.
Proof.
  intros P U V C Co E. pose proof P as (W & O & Cn & S0 & S1). destruct (target_untouched n W U) as (on & T). unfold transform in E.
  assert (WL : zlen (ns_al n) = zlen (ns_norm n)) by (unfold zlen; f_equal; apply W).
  destruct (clean_valid_runes _ Cn) as (rs & Sc & NZ & En & Rn).
  apply kept_by; [exact P|exact (transform_range_wf _ _ _ _ _ W V E)| | | |].
  - apply (transform_range_ordered _ _ _ _ _ _ W O E T); cbn [r_start r_end]; rewrite Z.min_id; try rewrite part_all.
    + rewrite En. now exists rs.
    + rewrite Rn. exact NZ.
    + exact Co.
    + right. now left.
  - apply transform_range_spec in E. destruct E as (nr & s & e & T' & -> & -> & _ & _ & _ & Ho & Hs & Hn & _ & _). rewrite T in T'. injection T' as <-. cbn [r_start r_end] in Hn.
    rewrite Hn, valid_items_text by exact V. rewrite WL, Z.min_id. cbn [Z.to_nat firstn app]. rewrite skipn_all2 by (unfold zlen; lia). rewrite app_nil_r. exact C.
  - apply transform_range_spec in E. destruct E as (nr & s & e & T' & -> & -> & _ & _ & _ & Ho & Hs & _). exact Ho.
  - apply transform_range_spec in E. destruct E as (nr & s & e & T' & -> & -> & _ & _ & _ & Ho & Hs & _). exact Hs.
Qed.

(** Segments of a Unicode normalization. *)
Lemma consumed_segment g : consumed (segment_items g) <= 1.
Proof. destruct g as [|r rs]; cbn [segment_items]; [cbn; lia|]. rewrite consumed_cons, consumed_inserts. cbn. lia. Qed.
Lemma consumed_segments gs : consumed (flat_map segment_items gs) <= zlen gs.
Proof.
  induction gs as [|g gs IH]; [cbn; lia|]. cbn [flat_map]. rewrite consumed_app. pose proof (consumed_segment g). unfold zlen in *. cbn [length]. lia.
Qed.
Lemma segment_text g : items_text (segment_items g) = encode g.
Proof. destruct g as [|r rs]; [reflexivity|]. cbn [segment_items]. unfold items_text. cbn [map concat fst]. rewrite encode_cons. f_equal. exact (items_text_runes 1 rs). Qed.
Lemma clean_nil' : clean [].
Proof. exists []. repeat split; constructor. Qed.
Lemma segments_clean gs : Forall (fun g => clean (encode g)) gs -> clean (items_text (flat_map segment_items gs)).
Proof.
  induction 1 as [|g gs H F IH]; [apply clean_nil'|]. cbn [flat_map]. rewrite items_text_app, segment_text. now apply clean_app.
Qed.
Lemma segments_place orig segs n m : segments_ok segs -> in_place orig n -> untouched n ->
  transform n (flat_map segment_items (segs (ns_norm n))) 0 = Ok m -> kept_place orig n m.
Proof.
  intros S P U E. pose proof P as (_ & _ & C & _). destruct (S _ C) as [S1 S2]. refine (whole_transform orig n _ 0 m P U _ _ _ E).
  - apply valid_flat_map. apply valid_segment_items.
  - now apply segments_clean.
  - pose proof (consumed_segments (segs (ns_norm n))). lia.
Qed.
Lemma clean_sub rs rs' : incl rs' rs -> Forall scalar rs -> Forall (fun c => c <> 0%N) rs -> clean (encode rs').
Proof. intros I Sc NZ. exists rs'. rewrite Forall_forall in *. split; [auto|]. split; [|reflexivity]. rewrite Forall_forall. auto. Qed.
Lemma filter_consumed f rs : let '(items, removed) := filter_items f rs in consumed items + removed = zlen rs /\ 0 <= removed.
Proof.
  unfold filter_items. induction rs as [|r rs IH]; [cbn; lia|]. cbn [fold_right]. destruct (fold_right (filter_step f) ([], 0) rs) as [items removed]. cbn [filter_step].
  unfold zlen in *. cbn [length]. destruct (f r); [rewrite consumed_cons; replace (0 <? - removed) with false by lia; lia|lia].
Qed.
Lemma filter_place orig f n m : in_place orig n -> untouched n -> ns_filter f n = Ok m -> kept_place orig n m.
Proof.
  intros P U E. pose proof P as (_ & _ & C & _). destruct (clean_valid_runes _ C) as (rs & Sc & NZ & En & Rn). unfold ns_filter in E. rewrite Rn in E.
  pose proof (filter_items_text f rs) as T. pose proof (valid_filter_items f rs) as V. pose proof (filter_consumed f rs) as K.
  destruct (filter_items f rs) as [items removed]. cbn [fst] in *. apply (whole_transform orig n items removed m P U V); [| |exact E].
  - rewrite T. apply (clean_sub rs); [|exact Sc|exact NZ]. intros x Hx. apply filter_In in Hx. apply Hx.
  - rewrite Rn. lia.
Qed.
Lemma strip_consumed rs lead trail : (trail <= length rs)%nat -> consumed (strip_items rs lead trail) <= zlen rs.
Proof.
  intros Ht. unfold strip_items. set (L := length rs).
  assert (G : forall l i, (i + length l <= L)%nat -> consumed (flat_map (fun ir : nat * N => let '(i, r) := ir in
      if (i <? lead)%nat || (L - trail <=? i)%nat then []
      else if (S i =? L - trail)%nat then [(encode_rune r, - Z.of_nat trail)] else [(encode_rune r, 0)])
      (combine (seq i (length l)) l)) <= Z.max 0 (Z.of_nat L - Z.of_nat i) /\
    ((L - trail <= i)%nat -> consumed (flat_map (fun ir : nat * N => let '(i, r) := ir in
      if (i <? lead)%nat || (L - trail <=? i)%nat then []
      else if (S i =? L - trail)%nat then [(encode_rune r, - Z.of_nat trail)] else [(encode_rune r, 0)])
      (combine (seq i (length l)) l)) = 0)).
  { induction l as [|r l IH]; intros i Hi; [cbn; lia|]. cbn [length seq combine flat_map] in *. rewrite consumed_app. destruct (IH (S i) ltac:(lia)) as [I1 I2].
    split.
    - destruct ((i <? lead)%nat || (L - trail <=? i)%nat) eqn:E0; [cbn [consumed fold_right]; lia|].
      destruct (Nat.eqb_spec (S i) (L - trail)).
      + rewrite consumed_cons. replace (0 <? - Z.of_nat trail) with false by lia. rewrite I2 by lia. change (consumed []) with 0. lia.
      + rewrite consumed_cons. change (0 <? 0) with false. change (consumed []) with 0. lia.
    - intros H. rewrite I2 by lia. replace ((i <? lead)%nat || (L - trail <=? i)%nat) with true by lia. reflexivity. }
  destruct (G rs 0%nat ltac:(lia)) as [G1 _]. unfold zlen. fold L. unfold L in *. lia.
Qed.
Lemma strip_place orig sp l r n m : in_place orig n -> untouched n -> lrstrip sp l r n = Ok m -> kept_place orig n m.
Proof.
  intros P U E. pose proof P as (_ & _ & C & _). destruct (clean_valid_runes _ C) as (rs & Sc & NZ & En & Rn). unfold lrstrip in E. rewrite Rn in E.
  set (lead := if l then count_while sp rs else O) in *. set (trail := if r then count_while sp (rev rs) else O) in *.
  destruct ((0 <? lead)%nat || (0 <? trail)%nat); [|injection E as <-; now apply kept_refl].
  refine (whole_transform orig n _ _ m P U (valid_strip_items _ _ _) _ _ E).
  - rewrite strip_items_text. apply (clean_sub rs); [|exact Sc|exact NZ]. intros x Hx.
    rewrite <- (firstn_skipn lead rs). apply in_or_app. right. rewrite <- (firstn_skipn (length rs - trail - lead) (skipn lead rs)). apply in_or_app. now left.
  - rewrite Rn. apply strip_consumed. unfold trail. destruct r; [|lia]. rewrite <- (rev_length rs). apply count_while_le.
Qed.

(** ** Changes at any time *)
Lemma local_place orig o n m : local_change o -> in_place orig n -> run_op o n = Ok m -> kept_place orig n m.
Proof.
  intros L P E. pose proof P as (W & O & C & S0 & S1). destruct (clean_valid_runes _ C) as (rs & Sc & NZ & En & Rn).
  pose proof (run_ops_original [o] n m) as Ho. unfold run_ops in Ho. cbn [foldR] in Ho. rewrite E in Ho. cbn [bind] in Ho. destruct (Ho eq_refl) as [Ho1 Ho2].
  destruct o; cbn [local_change run_op] in *; try contradiction.
  - destruct (prepend_ok s rs n W O En Sc) as (m' & E' & T & W' & O').
    { destruct NZ; cbn; [discriminate|assumption]. }
    rewrite E in E'. injection E' as <-. apply kept_by; [exact P|exact W'|exact O'| |exact Ho1|exact Ho2]. rewrite T.
    destruct (length rs =? 0)%nat; [apply clean_nil'|]. destruct (clean_valid_runes s L) as (ss & Ss & Zs & Es & Rs). rewrite Rs, <- Es. now apply clean_app.
  - destruct (append_ok s rs n W O En Sc) as (m' & E' & T & W' & O').
    { destruct rs as [|a rs0]; [cbn; discriminate|]. rewrite Forall_forall in NZ. apply NZ. rewrite (app_removelast_last (l := a :: rs0) 1%N) at 2 by discriminate. apply in_or_app. right. now left. }
    rewrite E in E'. injection E' as <-. apply kept_by; [exact P|exact W'|exact O'| |exact Ho1|exact Ho2]. rewrite T.
    destruct (length rs =? 0)%nat; [apply clean_nil'|]. destruct (clean_valid_runes s L) as (ss & Ss & Zs & Es & Rs). rewrite Rs, <- Es. now apply clean_app.
  - injection E as <-. destruct (L _ C) as [L1 L2]. apply kept_by; [exact P| |exact O|exact L1|reflexivity|reflexivity]. now apply case_map_wf.
  - destruct L as (H & Z & Cc). destruct (ns_norm n) as [|b t] eqn:Eb.
    + unfold ns_replace in E. rewrite Eb, Z in E. cbn in E. injection E as <-. now apply kept_refl.
    + destruct (replace_rewrites orig p content n m (finds_cuts p H) Cc ltac:(congruence) P E) as (R1 & R2 & R3 & _). split; [exact R1|]. auto.
Qed.
Lemma local_changes_place orig os : forall n m, Forall local_change os -> in_place orig n -> run_ops os n = Ok m -> kept_place orig n m.
Proof.
  unfold run_ops. induction os as [|o os IH]; intros n m F P E; cbn [foldR] in E; [injection E as <-; now apply kept_refl|].
  inversion F as [|? ? F1 F2]; subst. destruct (run_op o n) as [k| | | |] eqn:Ek; cbn [bind] in E; try discriminate E.
  destruct (local_place orig o n k F1 P Ek) as (K1 & K2 & K3). destruct (IH k m F2 K1 E) as (M1 & M2 & M3). split; [exact M1|]. split; congruence.
Qed.
Lemma first_place orig o n m : first_change o -> in_place orig n -> untouched n -> run_op o n = Ok m -> kept_place orig n m.
Proof.
  intros F P U E. destruct o; cbn [first_change] in F; try (exact (local_place orig _ n m F P E)).
  - exact (segments_place orig segs n m F P U E).
  - cbn [run_op] in E. unfold nfc in E. destruct (is_nfc (ns_norm n)); [injection E as <-; now apply kept_refl|]. exact (segments_place orig segs n m F P U E).
  - exact (filter_place orig f n m P U E).
  - exact (strip_place orig sp l r n m P U E).
Qed.
Lemma changes_normalizer os : changes_ok os -> normalizer_ok (run_ops os).
Proof.
  intros H orig n m P U E. destruct os as [|o os]; [injection E as <-; now apply kept_refl|]. destruct H as [H1 H2].
  change (run_ops (o :: os) n) with (do k <- run_op o n; run_ops os k) in E. destruct (run_op o n) as [k| | | |] eqn:Ek; cbn [bind] in E; try discriminate E.
  destruct (first_place orig o n k H1 P U Ek) as (K1 & K2 & K3). destruct (local_changes_place orig os k m H2 K1 E) as (M1 & M2 & M3). split; [exact M1|]. split; congruence.
Qed.

(** ** Models *)
Lemma tiles_bounds os : forall a b, tiles a b os -> Forall (fun o => a <= fst o /\ fst o < snd o /\ snd o <= b) os /\ ordered os /\ a <= b.
Proof.
  induction os as [|[s e] os IH]; intros a b T; cbn [tiles] in T; [subst; split; [constructor|split; [apply ordered_nil|lia]]|]. destruct T as (-> & H & T). destruct (IH _ _ T) as (I1 & I2 & I3).
  split; [|split; [|lia]].
  - constructor; [cbn; lia|]. eapply Forall_impl; [|exact I1]. cbn. lia.
  - change ((a, e) :: os) with ([(a, e)] ++ os). apply ordered_app; [apply (ordered_repeat (a, e) 1)|exact I2|]. intros x y [<-|[]] Hy. rewrite Forall_forall in I1. specialize (I1 y Hy). unfold ple. cbn. lia.
Qed.
Lemma tiles_tokens s L toks : tiles 0 L (map t_off toks) -> L <= zlen s -> tokens_of s toks.
Proof.
  intros T H. destruct (tiles_bounds _ _ _ T) as (F & O & _). split; [|exact O]. rewrite Forall_map in F. eapply Forall_impl; [|exact F]. cbn. lia.
Qed.
Lemma always_model f : (forall s toks, clean s -> s <> [] -> f s = Ok toks -> exists L, tiles 0 L (map t_off toks) /\ L <= zlen s) -> model_ok (always f).
Proof.
  intros H s toks C N E. unfold always in E. destruct (f s) as [l| | | |] eqn:Ef; cbn [bind] in E; try discriminate E. injection E as <-.
  destruct (H s l C N Ef) as (L & T & B). exact (tiles_tokens s L l T B).
Qed.
Lemma runes_le s : clean s -> zlen (runes s) <= zlen s.
Proof.
  intros (rs & Sc & _ & ->). rewrite runes_encode by assumption. clear Sc. induction rs as [|c rs IH]; [cbn; lia|]. rewrite encode_cons, zlen_app.
  pose proof (zlen_rune c). unfold zlen in *. cbn [length]. lia.
Qed.

(** ** Text that ends inside a character *)
Lemma cut_runes rs b : Forall scalar rs -> (128 <= b < 256)%N -> runes (encode rs ++ [b]) = rs ++ [65533%N].
Proof.
  intros Sc Hb. unfold runes. rewrite runes_w_encode_app by assumption. rewrite map_app, map_map. cbn [fst]. rewrite map_id. f_equal.
  rewrite runes_w_cons by discriminate.
  assert (D : decode_rune [b] = (65533%N, 1%nat)).
  { cbn [decode_rune]. replace (b <? 128)%N with false by lia. unfold rune_error.
    repeat match goal with |- context [if ?c then _ else _] => destruct c end; reflexivity. }
  rewrite D. reflexivity.
Qed.
Lemma zslice_outcome {A} (l : list A) a b : (exists x, zslice l a b = Ok x) \/ zslice l a b = Panic.
Proof. unfold zslice. match goal with |- context [if ?c then _ else _] => destruct c end; eauto. Qed.
Lemma cut_slice rs b : Forall scalar rs -> (128 <= b < 256)%N -> let s := encode rs ++ [b] in
  ns_slice (new_ns s) (Rng 0 (zlen s) OnNormalized) = Panic.
Proof.
  intros Sc Hb s. assert (L : zlen s = bytes rs + 1) by (unfold s, bytes; rewrite zlen_app; reflexivity). pose proof (bytes_nonneg rs) as B0.
  assert (Al : ns_al (new_ns s) = aligns_from rs 0 ++ repeat (bytes rs, bytes rs + 3) 3).
  { cbn [new_ns ns_al]. unfold create_aligns. unfold s. rewrite cut_runes by assumption. rewrite aligns_from_app. reflexivity. }
  assert (Sub : zslice (ns_al (new_ns s)) 0 (zlen s) = Ok (aligns_from rs 0 ++ [(bytes rs, bytes rs + 3)])).
  { unfold zslice. rewrite Al, zlen_app, zlen_aligns. change (zlen (repeat (bytes rs, bytes rs + 3) 3)) with 3.
    replace ((0 <=? 0) && (0 <=? zlen s) && (zlen s <=? bytes rs + 3)) with true by lia. cbn [Z.to_nat skipn]. rewrite Z.sub_0_r, L.
    replace (Z.to_nat (bytes rs + 1)) with (length (aligns_from rs 0) + 1)%nat.
    2:{ pose proof (zlen_aligns rs 0) as X. unfold zlen in X. lia. }
    rewrite firstn_app_2. reflexivity. }
  assert (Ex : exists x, expand (aligns_from rs 0 ++ [(bytes rs, bytes rs + 3)]) = Some (x, bytes rs + 3)).
  { destruct (expand_nth (aligns_from rs 0 ++ [(bytes rs, bytes rs + 3)])) as (p & q & _ & H2 & H3); [now destruct (aligns_from rs 0)|].
    rewrite app_length in H2. cbn [length] in H2. rewrite nth_error_app2 in H2 by lia. replace (_ + 1 - 1 - _)%nat with 0%nat in H2 by lia. injection H2 as <-. eauto. }
  destruct Ex as (x & Ex).
  assert (Cv : convert_offset (new_ns s) (Rng 0 (zlen s) OnNormalized) = Ok (Some (Rng x (bytes rs + 3) OnOriginal))).
  { unfold convert_offset, into_full_range. cbn [r_on r_start r_end]. change (0 =? -1) with false. cbn iota. change (ns_norm (new_ns s)) with s.
    replace (zlen s <? zlen s) with false by lia. cbn [r_start r_end]. replace (0 =? zlen s) with false by lia.
    rewrite Sub. cbn [bind]. rewrite Ex, Al, zlen_app, zlen_aligns. change (zlen (repeat (bytes rs, bytes rs + 3) 3)) with 3.
    replace ((0 <? 0) || (bytes rs + 3 <? 0) || (zlen s <? 0) || (bytes rs + 3 <? zlen s)) with false by lia. reflexivity. }
  unfold ns_slice, validate_range, into_full_range. cbn [r_on r_start r_end]. change (0 =? -1) with false. cbn iota. change (ns_norm (new_ns s)) with s.
  replace (if zlen s <? zlen s then zlen s else zlen s) with (zlen s) by (destruct (zlen s <? zlen s); reflexivity). cbn [r_start r_end r_on].
  replace ((0 <? 0) || (zlen s <? 0) || (zlen s <? 0) || (zlen s <? zlen s)) with false by lia.
  replace (0 =? 0) with true by lia. replace (true && (zlen s =? 0)) with false by lia. rewrite Z.eqb_refl. cbn [bind negb r_on].
  rewrite Cv. cbn [bind]. cbn [r_start r_end r_on]. destruct (zslice_outcome (ns_ao_values (new_ns s)) 0 x) as [(pre & ->)| ->]; [|reflexivity]. cbn [bind].
  unfold ns_range_original. cbn [r_on]. rewrite Cv. cbn [bind r_start r_end]. unfold zslice at 1. change (ns_orig (new_ns s)) with s.
  replace ((0 <=? x) && (x <=? bytes rs + 3) && (bytes rs + 3 <=? zlen s)) with false by lia. reflexivity.
Qed.
Lemma cut_text ss si t ty wi ot rs b : sorts start_key ss -> sorts id_key si -> Forall scalar rs -> (128 <= b < 256)%N -> tk_raw t = no_matching ->
  encode_text ss si t ty wi ot (encode rs ++ [b]) = Panic.
Proof.
  intros HS HI Sc Hb Hr. set (s := encode rs ++ [b]).
  assert (F : AddedVocabModel.find_matches ss si (zlen s) [] [] = [(None, (0, zlen s))]).
  { unfold AddedVocabModel.find_matches. assert (L : 0 < zlen s) by (unfold s; rewrite zlen_app; pose proof (zlen_nonneg (encode rs)); change (zlen [b]) with 1; lia).
    replace (zlen s =? 0) with false by lia. change (io_pairs []) with (@nil io_pair).
    rewrite (proj2 (proj2 (HS [])) (SSorted_nil _)). rewrite (proj2 (proj2 (HI [])) (SSorted_nil _)). cbn [length select fill]. replace (0 =? zlen s) with false by lia. reflexivity. }
  assert (X : split_with_indices ss si no_matching (new_ns s) = Panic).
  { unfold split_with_indices. cbn [no_matching mt_ids mt_find]. change (ns_norm (new_ns s)) with s. rewrite F, mapR_cons. unfold indexed_piece at 1. cbn [fst snd].
    unfold s. rewrite cut_slice by assumption. reflexivity. }
  unfold encode_text, extract_and_normalize. rewrite Hr. unfold pt_split at 1. cbn [pt_new pt_splits split_pieces sp_toks sp_ns].
  unfold pt_new, pt_from_ns. cbn [pt_splits split_pieces sp_toks sp_ns]. rewrite X. reflexivity.
Qed.
