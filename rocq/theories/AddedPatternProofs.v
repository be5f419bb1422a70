(** Proofs about the patterns of added tokens. *)
From Verif Require Import Base BaseProofs Utf8Model Utf8Proofs NormalizedModel NormalizedSpec NormalizedProofs NormalizedInvProofs NormalizedExactProofs NormalizedOpProofs BpeSaveModel DecoderProofs
  AddedVocabModel AddedVocabSpec EncodingProofs ExpandedProofs PipelineModel PipelineSpec PipelineProofs AddedPatternModel AddedPatternSpec.
Open Scope Z_scope.

Lemma byte_at_app x s : byte_at (x ++ s) (zlen x) = hd_error s.
Proof.
  unfold byte_at. pose proof (zlen_nonneg x). destruct (Z.ltb_spec (zlen x) 0); [lia|]. unfold zlen. rewrite Nat2Z.id, nth_error_app2, Nat.sub_diag by lia. now destruct s.
Qed.
Lemma byte_at_last x b s : byte_at (x ++ b :: s) (zlen (x ++ [b]) - 1) = Some b.
Proof. rewrite zlen_app. change (zlen [b]) with 1. replace (zlen x + 1 - 1) with (zlen x) by lia. now rewrite byte_at_app. Qed.

Section Find.
  Variable r : token_re.
  Hypothesis Ne : tr_text r <> [].

  Lemma text_pos : 1 <= zlen (tr_text r).
  Proof. destruct (tr_text r); [congruence|]. unfold zlen. cbn. lia. Qed.

  (** The byte in front of position [zlen x]. *)
  Definition before (x s : str) : option N := byte_at (x ++ s) (zlen x - 1).
  Lemma before_step x b s : before (x ++ [b]) s = Some b.
  Proof. unfold before. rewrite <- app_assoc. cbn [app]. apply byte_at_last. Qed.

  Lemma text_behind x t rest : tr_text r = t -> match rev t with [] => before x (t ++ rest) | b :: _ => Some b end = byte_at (x ++ t ++ rest) (zlen x + zlen t - 1).
  Proof.
    intros E. destruct (rev t) as [|b l] eqn:Er.
    - assert (t = []) by (rewrite <- (rev_involutive t), Er; reflexivity). subst. congruence.
    - assert (T : t = rev l ++ [b]) by (rewrite <- (rev_involutive t), Er; reflexivity). rewrite T.
      rewrite <- app_assoc. cbn [app]. rewrite app_assoc. rewrite <- byte_at_last with (x := x ++ rev l) (s := rest). f_equal. rewrite !zlen_app. lia.
  Qed.

  Lemma xorb_edge a b : xorb a b = true <-> a <> b.
  Proof. destruct a, b; cbn; split; congruence. Qed.

  Lemma core_sound x s k : match_core r (before x s) s = Some k ->
    recognised r (x ++ s) (zlen x) (zlen x + Z.of_nat k) (zlen x) (zlen x + zlen (tr_text r)) /\ (length (tr_text r) <= k <= length s)%nat.
  Proof.
    unfold match_core. destruct (starts_with (tr_text r) s) eqn:Es; [|discriminate]. apply starts_with_iff in Es as (rest & ->).
    rewrite skipn_app, skipn_all, Nat.sub_diag. cbn [skipn app]. rewrite (text_behind x (tr_text r) rest eq_refl).
    destruct (_ && _) eqn:Ec; [|discriminate]. apply andb_prop in Ec as [C1 C2]. intros [= <-].
    set (t := tr_text r) in *. pose proof (zlen_nonneg x). pose proof (zlen_nonneg rest). pose proof (zlen_nonneg t).
    assert (Hd : byte_at (x ++ t ++ rest) (zlen x + zlen t) = hd_error rest).
    { rewrite app_assoc, <- zlen_app. apply byte_at_app. }
    split.
    - split; [|split; [now left|]].
      + split; [lia|]. split; [reflexivity|]. split; [rewrite !zlen_app; lia|]. split; [apply part_mid; [reflexivity|unfold t; lia]|]. split.
        * intros B. rewrite B in C1. cbn [negb orb] in C1. apply xorb_edge in C1. unfold word_edge, before in *. now rewrite byte_at_app.
        * intros B. rewrite B in C2. cbn [negb orb] in C2. apply xorb_edge in C2. unfold word_edge. now rewrite Hd.
      + unfold blank_at. rewrite Hd. destruct rest as [|b rest].
        * left. split; [unfold zlen; lia|]. intros (_ & b & E & _). discriminate.
        * cbn [hd_error]. destruct (tr_right r && re_blank b) eqn:Eb.
          -- apply andb_prop in Eb as [E1 E2]. right. split; [exact E1|]. split; [unfold zlen; lia|]. now exists b.
          -- left. split; [unfold zlen; lia|]. intros (E1 & b' & [= <-] & E2). change (blank_byte b) with (re_blank b) in E2. rewrite E1, E2 in Eb. discriminate.
    - rewrite app_length. destruct rest as [|b rest]; cbn [length]; [lia|]. destruct (tr_right r && re_blank b); lia.
  Qed.

  Lemma core_complete x s d : stands r (x ++ s) (zlen x) d -> exists k, match_core r (before x s) s = Some k.
  Proof.
    intros (_ & -> & L & P & B1 & B2). pose proof (zlen_nonneg x). pose proof (zlen_nonneg (tr_text r)). rewrite zlen_app in L.
    assert (Es : exists rest, s = tr_text r ++ rest).
    { exists (skipn (length (tr_text r)) s). rewrite <- (firstn_skipn (length (tr_text r)) s) at 1. f_equal. rewrite <- P at 2.
      unfold part. unfold zlen. rewrite Nat2Z.id, skipn_app, skipn_all, Nat.sub_diag. cbn [skipn app].
      replace (Z.to_nat _) with (length (tr_text r)) by lia. reflexivity. }
    destruct Es as (rest & ->). unfold match_core. assert (Es : starts_with (tr_text r) (tr_text r ++ rest) = true) by (apply starts_with_iff; now exists rest). rewrite Es.
    rewrite skipn_app, skipn_all, Nat.sub_diag. cbn [skipn app]. rewrite (text_behind x (tr_text r) rest eq_refl).
    assert (Hd : byte_at (x ++ tr_text r ++ rest) (zlen x + zlen (tr_text r)) = hd_error rest).
    { rewrite app_assoc, <- zlen_app. apply byte_at_app. }
    assert (C1 : negb (tr_bl r) || xorb (word_opt (before x (tr_text r ++ rest))) (word_opt (hd_error (tr_text r ++ rest))) = true).
    { destruct (tr_bl r); [|reflexivity]. cbn [negb orb]. apply xorb_edge. specialize (B1 eq_refl). unfold word_edge in B1. rewrite byte_at_app in B1. exact B1. }
    assert (C2 : negb (tr_br r) || xorb (word_opt (byte_at (x ++ tr_text r ++ rest) (zlen x + zlen (tr_text r) - 1))) (word_opt (hd_error rest)) = true).
    { destruct (tr_br r); [|reflexivity]. cbn [negb orb]. apply xorb_edge. specialize (B2 eq_refl). unfold word_edge in B2. rewrite Hd in B2. exact B2. }
    rewrite C1, C2. cbn [andb]. eauto.
  Qed.

  Lemma at_sound x s k : match_at r (before x s) s = Some k ->
    (exists c d, recognised r (x ++ s) (zlen x) (zlen x + Z.of_nat k) c d) /\ (1 <= k <= length s)%nat.
  Proof.
    unfold match_at. destruct s as [|b s]; [discriminate|]. pose proof text_pos as TP.
    assert (G : match_core r (before x (b :: s)) (b :: s) = Some k ->
      (exists c d, recognised r (x ++ b :: s) (zlen x) (zlen x + Z.of_nat k) c d) /\ (1 <= k <= length (b :: s))%nat).
    { intros H. apply core_sound in H. destruct H as [H L]. split; [eauto|]. unfold zlen in TP. lia. }
    destruct (tr_left r && re_blank b) eqn:E; [|exact G].
    destruct (match_core r (Some b) s) as [k'|] eqn:Ec; [|exact G]. intros [= <-].
    rewrite <- (before_step x b s) in Ec. apply core_sound in Ec. destruct Ec as [(S1 & _ & S3) L]. apply andb_prop in E as [E1 E2].
    rewrite <- app_assoc in S1, S3. cbn [app] in S1, S3. split; [|cbn [length]; unfold zlen in TP; lia].
    exists (zlen (x ++ [b])), (zlen (x ++ [b]) + zlen (tr_text r)). split; [exact S1|]. split.
    - right. split; [exact E1|]. split; [rewrite zlen_app; change (zlen [b]) with 1; lia|]. exists b. split; [apply byte_at_app|exact E2].
    - assert (Z1 : zlen (x ++ [b]) = zlen x + 1) by (rewrite zlen_app; reflexivity). rewrite Z1 in *. replace (zlen x + Z.of_nat (S k')) with (zlen x + 1 + Z.of_nat k') by lia. exact S3.
  Qed.

  Lemma at_complete x s b c d : recognised r (x ++ s) (zlen x) b c d -> exists k, match_at r (before x s) s = Some k.
  Proof.
    intros (S1 & S2 & _). pose proof text_pos as TP. destruct S2 as [<-|(L & E & (w & Hw & Bw))].
    - destruct (core_complete x s d S1) as (k & Hk). destruct s as [|b0 s].
      + exfalso. destruct S1 as (_ & -> & L & _). rewrite app_nil_r in L. lia.
      + unfold match_at. destruct (if tr_left r && re_blank b0 then match_core r (Some b0) s else None); eauto.
    - rewrite byte_at_app in Hw. destruct s as [|b0 s]; [discriminate|]. injection Hw as ->. unfold match_at. change (blank_byte w) with (re_blank w) in Bw. rewrite L, Bw. cbn [andb].
      rewrite <- (before_step x w s). replace c with (zlen (x ++ [w])) in S1 by (rewrite zlen_app; change (zlen [w]) with 1; lia).
      change (x ++ w :: s) with (x ++ [w] ++ s) in S1. rewrite app_assoc in S1. destruct (core_complete _ _ _ S1) as (k & Hk). rewrite Hk. eauto.
  Qed.

  Lemma find_spec whole : forall s x skip, whole = x ++ s -> (skip <= length s)%nat ->
    let l := find_re r (before x s) s (zlen x) skip in
    ordered_from (zlen x + Z.of_nat skip) (zlen whole) l /\
    Forall (fun m => exists c d, recognised r whole (fst m) (snd m) c d) l /\
    (forall a b c d, recognised r whole a b c d -> zlen x + Z.of_nat skip <= a -> exists m, In m l /\ fst m <= a < snd m).
  Proof.
    pose proof text_pos as TP. intros s. induction s as [|b s IH]; intros x skip Hw Hs.
    - cbn [find_re]. subst whole. rewrite app_nil_r in *. cbn in Hs. split; [cbn; lia|]. split; [constructor|].
      intros a b c d (S1 & S2 & _) Ha. exfalso. destruct S1 as (_ & -> & L & _). destruct S2 as [->|(_ & -> & _)]; lia.
    - assert (Hw' : whole = (x ++ [b]) ++ s) by (rewrite <- app_assoc; exact Hw).
      assert (Z1 : zlen (x ++ [b]) = zlen x + 1) by (rewrite zlen_app; reflexivity).
      cbn [find_re]. destruct skip as [|k].
      + assert (Step : match_at r (before x (b :: s)) (b :: s) = None -> let l := find_re r (Some b) s (zlen x + 1) 0 in
          ordered_from (zlen x + Z.of_nat 0) (zlen whole) l /\ Forall (fun m => exists c d, recognised r whole (fst m) (snd m) c d) l /\
          (forall a b c d, recognised r whole a b c d -> zlen x + Z.of_nat 0 <= a -> exists m, In m l /\ fst m <= a < snd m)).
        { intros Hn. specialize (IH (x ++ [b]) 0%nat Hw' ltac:(lia)). rewrite before_step, Z1 in IH. cbn zeta in *. destruct IH as (I1 & I2 & I3). split; [|split; [exact I2|]].
          - clear -I1. destruct (find_re r (Some b) s (zlen x + 1) 0) as [|(p, q) l]; cbn in *; [lia|]. destruct I1. split; [lia|assumption].
          - intros a b' c d R Ha. destruct (Z.eq_dec a (zlen x)) as [->|Na]; [|apply (I3 _ _ _ _ R); lia].
            exfalso. rewrite Hw in R. destruct (at_complete _ _ _ _ _ R) as (k & Hk). congruence. }
        destruct (match_at r (before x (b :: s)) (b :: s)) as [[|k]|] eqn:Em; [|clear Step|exact (Step eq_refl)].
        * exfalso. apply at_sound in Em. lia.
        * apply at_sound in Em. destruct Em as ((c & d & R) & L). cbn [length] in L. specialize (IH (x ++ [b]) k Hw' ltac:(lia)). rewrite before_step, Z1 in IH. cbn zeta in *. destruct IH as (I1 & I2 & I3). split; [|split].
          -- cbn [ordered_from]. split; [lia|]. replace (zlen x + Z.of_nat (S k)) with (zlen x + 1 + Z.of_nat k) by lia. exact I1.
          -- constructor; [|exact I2]. cbn [fst snd]. rewrite <- Hw in R. eauto.
          -- intros a b' c' d' R' Ha. destruct (Z.le_gt_cases (zlen x + 1 + Z.of_nat k) a) as [G|G].
             ++ destruct (I3 _ _ _ _ R' G) as (m & Hm & Hl). exists m. split; [now right|exact Hl].
             ++ eexists. split; [now left|]. cbn [fst snd]. lia.
      + specialize (IH (x ++ [b]) k Hw' ltac:(cbn in Hs; lia)). rewrite before_step, Z1 in IH. cbn zeta in *. destruct IH as (I1 & I2 & I3).
        replace (zlen x + Z.of_nat (S k)) with (zlen x + 1 + Z.of_nat k) by lia. auto.
  Qed.

  Lemma find_all s : let l := find_re r None s 0 0 in
    ordered_from 0 (zlen s) l /\
    Forall (fun m => exists c d, recognised r s (fst m) (snd m) c d) l /\
    (forall a b c d, recognised r s a b c d -> 0 <= a -> exists m, In m l /\ fst m <= a < snd m).
  Proof. exact (find_spec s s [] 0 eq_refl ltac:(lia)). Qed.
End Find.

(** A character sequence inside a text begins and ends between characters. *)
Lemma valid_rest m y : valid_utf8 m -> valid_utf8 (m ++ y) -> valid_utf8 y.
Proof.
  intros (cs & Sc & ->) V. apply valid_utf8_iff. apply valid_utf8_iff in V. unfold runes in *. rewrite runes_w_encode_app in V by assumption.
  rewrite map_app, encode_app, map_map in V. cbn [fst] in V. rewrite map_id in V. now apply app_inv_head in V.
Qed.
Lemma valid_infix x m y : valid_utf8 (x ++ m ++ y) -> valid_utf8 m -> m <> [] -> boundary (x ++ m ++ y) (zlen x) /\ boundary (x ++ m ++ y) (zlen x + zlen m).
Proof.
  intros V Vm Hm. assert (B1 : boundary (x ++ m ++ y) (zlen x)).
  { destruct Vm as (cs & Sc & E). destruct cs as [|c cs]; [now subst|]. rewrite encode_cons in E. destruct (rune_start_head c) as (b & l & Eb & Hb). rewrite Eb in E. cbn [app] in E.
    right. right. exists b. split; [apply zlen_nonneg|]. split; [|exact Hb]. rewrite E. unfold zlen. rewrite Nat2Z.id, nth_error_app2, Nat.sub_diag by lia. reflexivity. }
  split; [exact B1|]. rewrite <- zlen_app, app_assoc. apply text_boundary.
  apply (valid_rest m); [exact Vm|]. destruct V as (rs & Sc & E). rewrite E in B1. destruct (boundary_char_pos _ _ B1 (zlen_nonneg x)) as (k & Hk & Ek).
  assert (X : x = encode (firstn k rs) /\ m ++ y = encode (skipn k rs)).
  { rewrite <- (firstn_skipn k rs), encode_app in E. unfold bytes in Ek. assert (Hl : length x = length (encode (firstn k rs))) by (unfold zlen in Ek; lia).
    clear -E Hl. revert E. generalize (encode (skipn k rs)) as z. intros z E. split.
    - apply (f_equal (firstn (length x))) in E. rewrite firstn_app, Nat.sub_diag, firstn_all in E. cbn [firstn] in E. rewrite app_nil_r in E. rewrite E, Hl, firstn_app, firstn_all, Nat.sub_diag. cbn. now rewrite app_nil_r.
    - apply (f_equal (skipn (length x))) in E. rewrite skipn_app, Nat.sub_diag, skipn_all in E. cbn [skipn app] in E. rewrite E, Hl, skipn_app, skipn_all, Nat.sub_diag. reflexivity. }
  destruct X as [_ ->]. exists (skipn k rs). split; [now apply Forall_skipn|reflexivity].
Qed.

Lemma infix_split (s : str) c d : 0 <= c -> c <= d -> d <= zlen s -> exists x y, s = x ++ part c d s ++ y /\ zlen x = c /\ zlen (part c d s) = d - c.
Proof.
  intros. exists (firstn (Z.to_nat c) s), (skipn (Z.to_nat d) s). split; [rewrite <- firstn_part_skipn by assumption; symmetry; apply firstn_skipn|]. split; [|now apply part_length].
  unfold zlen in *. rewrite firstn_length. lia.
Qed.
Lemma stands_boundary r s c d : re_ok r -> valid_utf8 s -> stands r s c d -> boundary s c /\ boundary s d.
Proof.
  intros [Ne Vt] V (H0 & Hd & L & P & _). pose proof (text_pos r Ne). destruct (infix_split s c d H0 ltac:(lia) L) as (x & y & E & Hx & Hm). rewrite P in E, Hm.
  rewrite E in V. destruct (valid_infix x _ y V Vt Ne) as [B1 B2]. rewrite <- E, Hx in B1, B2. rewrite Hd. auto.
Qed.
Lemma blank_small b : re_blank b = true -> (b < 128)%N.
Proof.
  unfold re_blank. intros H. apply existsb_exists in H as (x & Hx & E). apply N.eqb_eq in E. subst. cbn in Hx. destruct Hx as [<-|[<-|[<-|[<-|[<-|[]]]]]]; lia.
Qed.
Lemma byte_at_split s i b : byte_at s i = Some b -> 0 <= i /\ exists x y, s = x ++ [b] ++ y /\ zlen x = i.
Proof.
  unfold byte_at. destruct (Z.ltb_spec i 0); [discriminate|]. intros E. split; [lia|]. apply nth_error_split in E as (x & y & -> & L). exists x, y. split; [reflexivity|]. unfold zlen. lia.
Qed.
Lemma small_boundary s i b : valid_utf8 s -> byte_at s i = Some b -> (b < 128)%N -> boundary s i /\ boundary s (i + 1).
Proof.
  intros V E L. apply byte_at_split in E as (_ & x & y & -> & <-). apply (valid_infix x [b] y V); [|discriminate].
  exists [b]. split; [constructor; [unfold scalar; lia|constructor]|]. unfold encode. cbn [map concat]. unfold encode_rune. destruct (N.ltb_spec b 128); [reflexivity|lia].
Qed.
Lemma recognised_boundary r s a b c d : re_ok r -> valid_utf8 s -> recognised r s a b c d -> boundary s a /\ boundary s b.
Proof.
  intros K V (S1 & S2 & S3). destruct (stands_boundary r s c d K V S1) as [B1 B2]. split.
  - destruct S2 as [->|(_ & _ & w & Hw & Bw)]; [exact B1|]. exact (proj1 (small_boundary s a w V Hw (blank_small _ Bw))).
  - destruct S3 as [[-> _]|(_ & -> & w & Hw & Bw)]; [exact B2|]. exact (proj2 (small_boundary s d w V Hw (blank_small _ Bw))).
Qed.

Lemma re_matching_ok l : Forall (fun x => re_ok (fst x)) l -> matching_ok (re_matching l).
Proof.
  intros F s V. cbn [mt_find re_matching]. unfold matches_ok. split; apply Forall_map.
  - apply (Forall_impl _ (P := fun x => re_ok (fst x))); [|exact F]. intros x [Ne _]. exact (proj1 (find_all _ Ne s)).
  - apply (Forall_impl _ (P := fun x => re_ok (fst x))); [|exact F]. intros x K. destruct (find_all _ (proj1 K) s) as (_ & R & _).
    apply (Forall_impl _ (P := fun m => exists c d, recognised (fst x) s (fst m) (snd m) c d)); [|exact R]. intros m (c & d & H). exact (recognised_boundary _ _ _ _ _ _ K V H).
Qed.

(** Tokens whose pattern can be made and is not empty. *)
Lemma get_pattern_plain is_word n t : at_single t = false -> get_pattern is_word n t = Ok (TRe (at_lstrip t) false (at_content t) false (at_rstrip t)).
Proof. intros E. unfold get_pattern. now rewrite E. Qed.
Lemma get_pattern_single is_word t c cs : at_single t = true -> runes (at_content t) = c :: cs ->
  get_pattern is_word None t = Ok (TRe (at_lstrip t) (is_word c) (at_content t) (is_word (last cs c)) (at_rstrip t)).
Proof. intros E R. unfold get_pattern. rewrite E, R. reflexivity. Qed.

Lemma patterns_ok_all is_word n ids norm ts : forall l, token_patterns is_word n ids norm ts = Ok l ->
  Forall (fun t => at_content t <> [] /\ valid_utf8 (at_content t) /\
    (at_single t = true -> forall m, apply_normalizer n (new_ns (at_content t)) = Ok m -> ns_norm m <> [] /\ valid_utf8 (ns_norm m))) ts ->
  Forall (fun x => re_ok (fst x)) l.
Proof.
  induction ts as [|t ts IH]; intros l E F; cbn [token_patterns] in E; [injection E as <-; constructor|].
  destruct (ids (at_content t)) as [id|]; [|discriminate]. apply bind_Ok_inv in E as (r & Er & E). apply bind_Ok_inv in E as (rest & Ee & E). injection E as <-.
  pose proof (IH _ Ee (Forall_inv_tail F)) as IH'. destruct (Forall_inv F) as (N1 & V1 & Hs). destruct (Bool.eqb (at_norm t) norm); [|exact IH'].
  constructor; [|exact IH']. cbn [fst]. unfold get_pattern in Er. destruct (at_single t).
  - destruct (runes (at_content t)); [discriminate|]. apply bind_Ok_inv in Er as (m & Em & Er). injection Er as <-. exact (Hs eq_refl m Em).
  - injection Er as <-. now split.
Qed.

(** ** Kinds of tokens *)
Lemma plain_found w s : w <> [] -> all_found (at_range w s) s (find_re (TRe false false w false false) None s 0 0).
Proof.
  intros Ne. set (r := TRe false false w false false). destruct (find_all r Ne s) as (O & R & C). split; [exact O|]. split.
  - apply (Forall_impl _ (P := fun m => exists c d, recognised r s (fst m) (snd m) c d)); [|exact R].
    intros m (c & d & (H1 & H2 & H3 & H4 & _) & S2 & S3). destruct S2 as [->|(X & _)]; [|discriminate X]. destruct S3 as [[-> _]|(X & _)]; [|discriminate X]. repeat split; assumption.
  - intros a b (H1 & H2 & H3 & H4) Ha. apply (C a b a b); [|exact Ha]. split; [repeat split; try assumption; discriminate|]. split; [now left|left]. split; [reflexivity|]. intros [X _]; discriminate X.
Qed.
Lemma single_found bl br w s : w <> [] ->
  all_found (fun a b => at_range w s a b /\ (bl = true -> word_edge s a) /\ (br = true -> word_edge s b)) s (find_re (TRe false bl w br false) None s 0 0).
Proof.
  intros Ne. set (r := TRe false bl w br false). destruct (find_all r Ne s) as (O & R & C). split; [exact O|]. split.
  - apply (Forall_impl _ (P := fun m => exists c d, recognised r s (fst m) (snd m) c d)); [|exact R].
    intros m (c & d & (H1 & H2 & H3 & H4 & H5 & H6) & S2 & S3). destruct S2 as [->|(X & _)]; [|discriminate X]. destruct S3 as [[-> _]|(X & _)]; [|discriminate X]. repeat split; assumption.
  - intros a b ((H1 & H2 & H3 & H4) & H5 & H6) Ha. apply (C a b a b); [|exact Ha]. split; [repeat split; assumption|]. split; [now left|left]. split; [reflexivity|]. intros [X _]; discriminate X.
Qed.

Lemma part_head (w s : str) a b x l : at_range w s a b -> w = x :: l -> byte_at s a = Some x.
Proof.
  intros (H1 & H2 & H3 & H4) E. assert (L : 1 <= zlen w) by (rewrite E; unfold zlen; cbn; lia). destruct (infix_split s a b H1 ltac:(lia) H3) as (p & q & Es & Hp & _). rewrite H4, E in Es. rewrite Es, <- Hp. now rewrite byte_at_app.
Qed.
Lemma part_last (w s : str) a b x l : at_range w s a b -> w = l ++ [x] -> byte_at s (b - 1) = Some x.
Proof.
  intros (H1 & H2 & H3 & H4) E. assert (L : zlen w = zlen l + 1) by (rewrite E, zlen_app; reflexivity). pose proof (zlen_nonneg l).
  destruct (infix_split s a b H1 ltac:(lia) H3) as (p & q & Es & Hp & _). rewrite H4, E in Es. rewrite Es, <- app_assoc, app_assoc.
  replace (b - 1) with (zlen (p ++ l)) by (rewrite zlen_app; lia). now rewrite byte_at_app.
Qed.

(** Inside texts whose words are ASCII. *)
Lemma ascii_word_found w s x l y k : w = x :: l -> w = k ++ [y] -> word_byte x = true -> word_byte y = true ->
  all_found (fun a b => at_range w s a b /\ word_opt (byte_at s (a - 1)) = false /\ word_opt (byte_at s b) = false) s (find_re (TRe false true w true false) None s 0 0).
Proof.
  intros E1 E2 W1 W2. assert (Ne : w <> []) by (rewrite E1; discriminate). destruct (single_found true true w s Ne) as (O & R & C). split; [exact O|].
  assert (Q : forall a b, at_range w s a b -> (word_edge s a <-> word_opt (byte_at s (a - 1)) = false) /\ (word_edge s b <-> word_opt (byte_at s b) = false)).
  { intros a b H. pose proof (part_head w s a b x l H E1) as P1. pose proof (part_last w s a b y k H E2) as P2. unfold word_edge. change in_word with word_opt. rewrite P1, P2. cbn [word_opt]. rewrite W1, W2.
    split; (split; [destruct (word_opt _); congruence|intros ->; congruence]). }
  split.
  - apply (Forall_impl _ (P := fun m => at_range w s (fst m) (snd m) /\ (true = true -> word_edge s (fst m)) /\ (true = true -> word_edge s (snd m)))); [|exact R].
    intros m (H & A & B). destruct (Q _ _ H) as [Q1 Q2]. split; [exact H|]. split; [now apply Q1, A|now apply Q2, B].
  - intros a b (H & A & B) Ha. apply (C a b); [|exact Ha]. destruct (Q _ _ H) as [Q1 Q2]. split; [exact H|]. split; intros _; [now apply Q1|now apply Q2].
Qed.

(** A text that begins with another character of [is_word] is only found behind a letter. *)
Lemma other_start_glued w s x l lf rg br : w = x :: l -> word_byte x = false ->
  Forall (fun m => exists c, (c = fst m \/ c = fst m + 1) /\ word_opt (byte_at s (c - 1)) = true) (find_re (TRe lf true w br rg) None s 0 0).
Proof.
  intros E W. assert (Ne : w <> []) by (rewrite E; discriminate). set (r := TRe lf true w br rg). destruct (find_all r Ne s) as (_ & R & _).
  apply (Forall_impl _ (P := fun m => exists c d, recognised r s (fst m) (snd m) c d)); [|exact R].
  intros m (c & d & (H1 & H2 & H3 & H4 & H5 & _) & S2 & _). exists c. split; [destruct S2 as [->|(_ & -> & _)]; lia|].
  specialize (H5 eq_refl). unfold word_edge in H5. change in_word with word_opt in H5. rewrite (part_head w s c d x l) in H5; [|repeat split; assumption|exact E]. change (word_opt (Some x)) with (word_byte x) in H5. rewrite W in H5. now apply Bool.not_false_is_true.
Qed.

(** White space: one on each side at most. *)
Lemma blanks_left w s x l b1 b2 rest lf bl br rg : w = x :: l -> re_blank x = false -> s = b1 :: b2 :: rest -> re_blank b1 = true -> re_blank b2 = true ->
  Forall (fun m => 0 < fst m) (find_re (TRe lf bl w br rg) None s 0 0).
Proof.
  intros E Hx Hs B1 B2. assert (Ne : w <> []) by (rewrite E; discriminate). set (r := TRe lf bl w br rg). destruct (find_all r Ne s) as (O & R & _).
  apply (Forall_impl _ (P := fun m => exists c d, recognised r s (fst m) (snd m) c d)); [|exact R].
  intros m (c & d & (H1 & H2 & H3 & H4 & _) & S2 & _). pose proof (part_head w s c d x l ltac:(repeat split; assumption) E) as P.
  assert (G : 2 <= c).
  { destruct (Z.eq_dec c 0) as [->|]; [rewrite Hs in P; cbn in P; congruence|]. destruct (Z.eq_dec c 1) as [->|]; [rewrite Hs in P; change (byte_at (b1 :: b2 :: rest) 1) with (Some b2) in P; congruence|]. lia. }
  destruct S2 as [->|(_ & -> & _)]; lia.
Qed.

(** A text with a byte that does not occur is not found. *)
Lemma missing_byte r s b : tr_text r <> [] -> In b (tr_text r) -> ~ In b s -> find_re r None s 0 0 = [].
Proof.
  intros Ne Hb Hn. destruct (find_all r Ne s) as (_ & R & _). destruct (find_re r None s 0 0) as [|m l]; [reflexivity|]. exfalso. apply Forall_inv in R. destruct R as (c & d & (_ & _ & _ & P & _) & _).
  apply Hn. apply (part_In s c d). now rewrite P.
Qed.

Lemma word_byte_small b : word_byte b = true -> (b < 128)%N.
Proof. unfold word_byte. intros H. repeat (apply orb_prop in H as [H|H]); repeat (apply andb_prop in H as [? H]); try apply N.leb_le in H; try apply N.eqb_eq in H; lia. Qed.
Lemma encode_small b : (b < 128)%N -> encode_rune b = [b].
Proof. intros H. unfold encode_rune. destruct (N.ltb_spec b 128); [reflexivity|lia]. Qed.
Lemma last_snoc (c : N) cs : exists l, c :: cs = l ++ [last cs c].
Proof. exists (removelast (c :: cs)). rewrite (app_removelast_last c (l := c :: cs)) at 1 by discriminate. f_equal. f_equal. destruct cs; reflexivity. Qed.
Lemma word_ends c cs : word_byte c = true -> word_byte (last cs c) = true ->
  (exists l, encode (c :: cs) = c :: l) /\ exists k, encode (c :: cs) = k ++ [last cs c].
Proof.
  intros W1 W2. split.
  - exists (encode cs). rewrite encode_cons, encode_small by now apply word_byte_small. reflexivity.
  - destruct (last_snoc c cs) as (l & E). exists (encode l). rewrite E at 1. rewrite encode_app. f_equal. unfold encode. cbn [map concat]. rewrite encode_small by now apply word_byte_small. reflexivity.
Qed.
Lemma high_bytes c : (128 <= c)%N -> Forall (fun b => (128 <= b)%N) (encode_rune c).
Proof.
  intros H. unfold encode_rune. destruct (N.ltb_spec c 128); [lia|]. destruct (N.ltb_spec c 2048); [repeat constructor; lia|].
  destruct (negb (scalarb c)); [repeat constructor; lia|]. destruct (N.ltb_spec c 65536); repeat constructor; lia.
Qed.

Lemma behind_letter u w x l y k : (128 <= u)%N -> w = x :: l -> w = k ++ [y] -> word_byte x = true -> word_byte y = true ->
  In (zlen (encode_rune u), zlen (encode_rune u ++ w)) (find_re (TRe false true w true false) None (encode_rune u ++ w) 0 0).
Proof.
  intros Hu E1 E2 W1 W2. destruct (ascii_word_found w (encode_rune u ++ w) x l y k E1 E2 W1 W2) as (O & R & C).
  set (s := encode_rune u ++ w) in *. set (a := zlen (encode_rune u)). assert (Hs : zlen s = a + zlen w) by apply zlen_app. assert (Ha : 0 <= a) by apply zlen_nonneg.
  assert (Lw : 1 <= zlen w) by (rewrite E1; unfold zlen; cbn; lia).
  assert (Hit : at_range w s a (zlen s)).
  { repeat split; try lia. unfold s, a. replace (encode_rune u ++ w) with (encode_rune u ++ w ++ []) by now rewrite app_nil_r. apply part_mid; [reflexivity|]. rewrite !zlen_app, app_nil_r || rewrite !zlen_app. change (zlen (@nil N)) with 0. lia. }
  assert (High : forall i, 0 <= i < a -> exists b, byte_at s i = Some b /\ (128 <= b)%N).
  { intros i Hi. unfold byte_at. destruct (Z.ltb_spec i 0); [lia|]. unfold s, a, zlen in *. rewrite nth_error_app1 by lia. destruct (nth_error (encode_rune u) (Z.to_nat i)) as [b|] eqn:Eb.
    - exists b. split; [reflexivity|]. pose proof (high_bytes u Hu) as F. rewrite Forall_forall in F. apply F. eapply nth_error_In. exact Eb.
    - apply nth_error_None in Eb. lia. }
  destruct (C a (zlen s)) as (m & Hm & Hl); [|lia|].
  - split; [exact Hit|]. split.
    + pose proof (zlen_rune u). destruct (High (a - 1)) as (b & Eb & Hb); [unfold a; lia|]. rewrite Eb. cbn [word_opt]. destruct (word_byte b) eqn:E; [apply word_byte_small in E; lia|reflexivity].
    + unfold byte_at. destruct (Z.ltb_spec (zlen s) 0); [lia|]. unfold zlen. rewrite Nat2Z.id. rewrite (proj2 (nth_error_None s (length s))); [reflexivity|lia].
  - rewrite Forall_forall in R. destruct (R m Hm) as [H _]. pose proof (part_head w s _ _ x l H E1) as P. destruct H as (H1 & H2 & H3 & H4).
    assert (G : fst m = a).
    { destruct (Z.eq_dec (fst m) a); [assumption|]. destruct (High (fst m)) as (b & Eb & Hb); [lia|]. rewrite Eb in P. injection P as ->. apply word_byte_small in W1. lia. }
    destruct m as [p q]. cbn [fst snd] in *. subst p. replace q with (zlen s) in Hm by lia. exact Hm.
Qed.

Lemma alone_lost w x l br : w = x :: l -> word_byte x = false -> find_re (TRe false true w br false) None w 0 0 = [].
Proof.
  intros E W. assert (Ne : w <> []) by (rewrite E; discriminate). destruct (single_found true br w w Ne) as (_ & R & _). destruct (find_re _ None w 0 0) as [|m ms]; [reflexivity|]. exfalso.
  apply Forall_inv in R. destruct R as (H & A & _). specialize (A eq_refl). unfold word_edge in A. change in_word with word_opt in A. rewrite (part_head w w _ _ x l H E) in A. destruct H as (H1 & H2 & H3 & _).
  assert (Z0 : fst m = 0) by lia. rewrite Z0 in A. change (word_opt (Some x)) with (word_byte x) in A. rewrite W in A. apply A. reflexivity.
Qed.
