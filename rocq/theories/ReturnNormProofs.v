(** Proofs that some normalizers return on text as it was given. *)
From Verif Require Import Base BaseProofs Utf8Model Utf8Proofs SliceModel SliceProofs PatternModel PatternSpec PatternProofs NormalizedModel NormalizedSpec NormalizedProofs NormalizedInvProofs
  NormalizedExactProofs NormalizedOpProofs EncodingModel PreTokenizedModel PreTokenizedSpec PreTokenizedProofs PreTokenizerModel
  ExpandedProofs ChunkProofs PipelineModel PipelineSpec PipelineProofs PlacedProofs PlacedNormProofs ReturnSpec.
Open Scope Z_scope.
Notation t_off := NormalizedModel.t_off.

(** ** Removing leading characters *)
Lemma apply_sign_le y d : 0 <= y -> 0 <= d -> apply_sign y (- d) <= y.
Proof. intros H D. unfold apply_sign. destruct (y + - d <? 0) eqn:E; lia. Qed.
Lemma apply_sign_nonneg y d : 0 <= apply_sign y d.
Proof. unfold apply_sign. destruct (y + d <? 0) eqn:E; lia. Qed.

Definition cells_upto (B : Z) (ao : list nat) (cells : list (Z * Z)) : Prop := Forall (fun a => 0 <= snd (cell cells a) <= B) ao.
Lemma cell_upd_cases cells a v b : cell (upd cells a v) b = v \/ cell (upd cells a v) b = cell cells b.
Proof.
  destruct (Nat.lt_ge_cases a (length cells)) as [H|H].
  - rewrite cell_upd by exact H. destruct (a =? b)%nat; auto.
  - right. unfold cell. f_equal. revert a H. induction cells as [|x cells IH]; intros a H; [destruct a; reflexivity|]. destruct a; [cbn in H; lia|]. cbn. f_equal. apply IH. cbn in H. lia.
Qed.
Lemma clear_cell_upto B ao d a st : 0 <= d -> In a ao -> cells_upto B ao (snd st) -> fst st <= B ->
  cells_upto B ao (snd (clear_cell d st a)) /\ fst st <= fst (clear_cell d st a) <= B.
Proof.
  intros D Ha C F. destruct st as [ess cells]. cbn [fst snd] in *. unfold clear_cell. destruct (cell cells a) as [x y] eqn:E. cbn [fst snd].
  pose proof C as C'. unfold cells_upto in *. rewrite Forall_forall in *. pose proof (C a Ha) as Ca. rewrite E in Ca. cbn [snd] in Ca. split.
  - intros b Hb. destruct (cell_upd_cases cells a (if apply_sign y (- d) <? x then apply_sign y (- d) else x, apply_sign y (- d)) b) as [->| ->].
    + cbn [snd]. pose proof (apply_sign_le y d ltac:(lia) D). pose proof (apply_sign_nonneg y (- d)). lia.
    + now apply C'.
  - destruct (Z.ltb_spec ess y); lia.
Qed.
Lemma clear_cells_upto B ao d addrs : 0 <= d -> incl addrs ao -> forall st, cells_upto B ao (snd st) -> fst st <= B ->
  cells_upto B ao (snd (fold_left (clear_cell d) addrs st)) /\ fst st <= fst (fold_left (clear_cell d) addrs st) <= B.
Proof.
  intros D. induction addrs as [|a addrs IH]; intros I st C F; cbn [fold_left]; [split; [exact C|lia]|].
  destruct (clear_cell_upto B ao d a st D (I a (or_introl eq_refl)) C F) as [C1 F1].
  destruct (IH (fun x Hx => I x (or_intror Hx)) (clear_cell d st a) C1 ltac:(lia)) as [C2 F2]. split; [exact C2|lia].
Qed.
Lemma expand_some l total lo hi : ordered l -> Forall (inside total) l -> expand l = Some (lo, hi) -> 0 <= lo /\ lo <= hi /\ hi <= total.
Proof. intros O F. now apply expand_ordered. Qed.
Lemma clear_chars_ok al ao B cs : ordered al -> Forall (inside (zlen ao)) al -> forall off osh st, 0 <= off -> 0 <= osh -> off + bytes cs <= zlen al ->
  cells_upto B ao (snd st) -> fst st <= B ->
  exists st', clear_chars al ao cs off osh st = Ok st' /\ fst st <= fst st' <= B.
Proof.
  intros O F. induction cs as [|c cs IH]; intros off osh st H0 H1 H2 C Fs; [exists st; split; [reflexivity|lia]|]. cbn [clear_chars]. rewrite bytes_cons in H2.
  pose proof (zlen_rune c) as Lc. pose proof (bytes_nonneg cs) as Lb. set (w := zlen (encode_rune c)) in *. rewrite zslice_eq by lia. cbn [bind].
  destruct (expand (part off (off + w) al)) as [[lo hi]|] eqn:E.
  - destruct (expand_ordered (part off (off + w) al) (zlen ao) (ordered_part _ _ _ O)) with (lo := lo) (hi := hi) as (X1 & X2 & X3); [|exact E|].
    { apply Forall_forall. intros x Hx. apply part_In in Hx. rewrite Forall_forall in F. now apply F. }
    rewrite zslice_eq by lia. cbn [bind].
    destruct (clear_cells_upto B ao (osh + w) (part lo hi ao) ltac:(lia) (fun x Hx => part_In _ _ _ _ Hx) st C Fs) as [C1 F1].
    destruct (IH (off + w) (osh + w) (fold_left (clear_cell (osh + w)) (part lo hi ao) st) ltac:(lia) ltac:(lia) ltac:(lia) C1 ltac:(lia)) as (st' & E' & F').
    exists st'. split; [exact E'|lia].
  - exfalso. destruct (part off (off + w) al) eqn:Ep; [|discriminate E]. apply (f_equal zlen) in Ep. rewrite part_length in Ep by lia. unfold zlen in Ep at 1. cbn in Ep. lia.
Qed.

(** The main loop when nothing is removed in it. *)
Lemma zero_item_ok al st s total_len : Forall (inside total_len) al -> al <> [] -> zlen (t_ao st) = total_len -> 0 <= t_off st ->
  exists st', t_item al st (s, 0) = Ok st'.
Proof.
  intros F Ne L Off. unfold t_item. change (0 <? 0) with false. cbn iota. assert (Pa : 0 < zlen al) by (destruct al; [congruence|unfold zlen; cbn; lia]).
  assert (A : exists align, (if zlen al <=? t_off st then zindex al (zlen al - 1) else zindex al (t_off st)) = Ok align).
  { destruct (Z.leb_spec (zlen al) (t_off st)); [destruct (zindex_eq al (zlen al - 1)) as (x & E & _); [lia|eauto]|destruct (zindex_eq al (t_off st)) as (x & E & _); [lia|eauto]]. }
  destruct A as (align & Ea). rewrite Ea. cbn [bind]. change (0 <=? 0) with true. cbn iota. destruct (next_rune (t_runes st)) as [rc rs1]. change (Z.to_nat (- 0)) with 0%nat. cbn [take_removed].
  change (0 <? 0) with false. cbn [andb bind].
  assert (I : inside total_len align).
  { rewrite Forall_forall in F. apply F. destruct (zlen al <=? t_off st); apply zindex_In in Ea; exact Ea. }
  unfold inside in I. rewrite zslice_eq by lia. cbn [bind]. match goal with |- context [match expand ?v with _ => _ end] => destruct (expand v) as [[olo ohi]|] end.
  - destruct (realloc _ _ _ _ _) as [ao1 cells1]. change (0 <? 0) with false. cbn [bind]. eexists. reflexivity.
  - change (0 <? 0) with false. cbn [bind]. eexists. reflexivity.
Qed.
Lemma zero_items_ok al items : forall st k, Forall (inside (Z.of_nat k)) al -> al <> [] -> tinv k st -> 0 <= t_off st -> Forall (fun it => snd it = 0) items ->
  exists st', foldR (t_item al) items st = Ok st'.
Proof.
  induction items as [|[s c] items IH]; intros st k F Ne T Off Z; [eexists; reflexivity|]. inversion Z as [|? ? Z1 Z2]; subst. cbn [snd] in Z1. subst c. cbn [foldR].
  destruct (zero_item_ok al st s (Z.of_nat k) F Ne) as (st1 & E1); [unfold zlen; f_equal; apply T|exact Off|]. rewrite E1. cbn [bind].
  pose proof E1 as E2. apply t_item_spec in E2. destruct E2 as (align & _ & _ & _ & Sz & _ & _ & Tk). apply (IH st1 k F Ne); [now apply Tk| |exact Z2].
  unfold item_sizes in Sz. change (0 <=? 0) with true in Sz. cbn iota in Sz. destruct (next_rune (t_runes st)) as [rc rs1]. change (Z.to_nat (- 0)) with 0%nat in Sz. cbn [take_removed] in Sz.
  destruct Sz as (_ & O1 & _). rewrite O1. destruct (rc =? 0)%N; [lia|]. pose proof (zlen_nonneg (encode_rune rc)). lia.
Qed.

Lemma untouched_upto n : wf n -> untouched n -> cells_upto (zlen (ns_norm n)) (ns_ao n) (ns_cells n).
Proof.
  intros W (rs & Sc & E1 & E2 & E3 & E4). unfold cells_upto. assert (G : Forall (fun v => 0 <= snd v <= zlen (ns_norm n)) (ns_ao_values n)).
  { rewrite E4, E2. pose proof (aligns_from_inside rs 0) as Ai. eapply Forall_impl; [|exact Ai]. cbn beta. intros v. lia. }
  unfold ns_ao_values in G. rewrite Forall_map in G. exact G.
Qed.

Lemma encode_empty_inv rs : encode rs = [] -> rs = [].
Proof. destruct rs as [|c r]; [reflexivity|]. rewrite encode_cons. intros X. apply app_eq_nil in X. destruct X as [X _]. pose proof (zlen_rune c) as L. rewrite X in L. unfold zlen in L. cbn in L. lia. Qed.
Lemma drop_leading_ok orig n items initial : in_place orig n -> untouched n -> ns_norm n <> [] -> Forall (fun it => snd it = 0) items ->
  0 <= initial <= zlen (runes (ns_norm n)) -> exists m, transform n items initial = Ok m.
Proof.
  intros P U Ne Z Hi. pose proof P as (W & O & C & _). destruct (target_untouched n W U) as (on & T). pose proof (untouched_upto n W U) as Up.
  assert (WL : zlen (ns_al n) = zlen (ns_norm n)) by (unfold zlen; f_equal; apply W). destruct (clean_valid_runes _ C) as (rs & Sc & NZ & En & Rn).
  assert (Nal : ns_al n <> []) by (intros X; apply Ne; rewrite X in WL; destruct (ns_norm n); [reflexivity|unfold zlen in WL; cbn in WL; lia]).
  destruct W as (W1 & W2 & W3 & W4).
  unfold transform, transform_range. fold (target n (Rng 0 (zlen (ns_orig n)) OnOriginal)). rewrite T. cbn [bind r_start r_end]. rewrite WL, Z.ltb_irrefl.
  pose proof (zlen_nonneg (ns_norm n)) as L0. rewrite zslice_eq by lia. cbn [bind]. rewrite part_all. replace (zlen (runes (ns_norm n)) <? initial) with false by lia.
  assert (Bg : 0 <= bytes (firstn (Z.to_nat initial) (runes (ns_norm n))) <= zlen (ns_norm n)).
  { split; [apply bytes_nonneg|]. rewrite Rn, En. rewrite <- (firstn_skipn (Z.to_nat initial) rs) at 2. rewrite encode_app, zlen_app. fold (bytes (firstn (Z.to_nat initial) rs)). 
    pose proof (zlen_nonneg (encode (skipn (Z.to_nat initial) rs))). lia. }
  assert (Lao : zlen (ns_ao n) = zlen (ns_orig n)) by (unfold zlen; f_equal; exact W3).
  destruct (clear_chars_ok (ns_al n) (ns_ao n) (zlen (ns_norm n)) (firstn (Z.to_nat initial) (runes (ns_norm n))) O) with (off := 0) (osh := 0) (st := (zlen (ns_norm n), ns_cells n)) as ([ess cells0] & Ec & Fe).
  { rewrite Lao. exact W2. }
  { lia. } { lia. } { lia. } { exact Up. } { cbn. lia. }
  rewrite Ec. cbn [bind fst] in *. rewrite bytes_fold.
  match goal with |- context [foldR _ items ?st0] => destruct (zero_items_ok (ns_al n) items st0 (length (ns_orig n))) as [st Est]; cbn [t_off] end.
  { exact W2. } { exact Nal. }
  { split; [exact W3|]. cbn [t_ao t_cells]. pose proof (clear_chars_length _ _ _ _ _ _ _ Ec) as Lc. cbn [snd] in Lc. rewrite Lc. exact W4. }
  { lia. } { exact Z. }
  rewrite Est. cbn [bind]. apply t_loop_spec in Est. destruct Est as (_ & _ & Ti).
  assert (T0 : tinv (length (ns_orig n)) st).
  { apply Ti. split; [exact W3|]. cbn [t_ao t_cells]. pose proof (clear_chars_length _ _ _ _ _ _ _ Ec) as Lc. cbn [snd] in Lc. rewrite Lc. exact W4. }
  destruct (end_shift_ok (ns_al n) ess (t_shift st) (t_ao st) (t_cells st) (zlen (ns_orig n)) O W2) as [[ao' cells'] Ee].
  { unfold zlen. f_equal. apply T0. }
  { lia. }
  rewrite Ee. cbn [bind]. eexists. reflexivity.
Qed.

(** ** Stripping one side *)
Lemma strip_left_items rs lead : Forall (fun it => snd it = 0) (strip_items rs lead 0).
Proof.
  unfold strip_items. apply Forall_flat_map. apply Forall_forall. intros [i r] _. destruct ((i <? lead)%nat || (length rs - 0 <=? i)%nat); [constructor|].
  destruct (S i =? length rs - 0)%nat; (constructor; [reflexivity|constructor]).
Qed.
Lemma strip_left_returns sp : normalizer_returns (lrstrip sp true false).
Proof.
  intros orig n P U. unfold lrstrip. destruct (ns_norm n) as [|b t] eqn:Eb; [change (runes []) with (@nil N); cbn; eauto|]. rewrite <- Eb. change (0 <? 0)%nat with false. rewrite orb_false_r.
  destruct (0 <? count_while sp (runes (ns_norm n)))%nat eqn:E; [|eauto]. apply (drop_leading_ok orig n _ _ P U); [congruence|apply strip_left_items|].
  pose proof (count_while_le sp (runes (ns_norm n))). unfold zlen. lia.
Qed.
Lemma whole_ok orig n items : in_place orig n -> untouched n -> consumed items <= zlen (runes (ns_norm n)) -> exists m, transform n items 0 = Ok m.
Proof.
  intros P U Co. pose proof P as (W & O & C & _). destruct (target_untouched n W U) as (on & T). destruct (clean_valid_runes _ C) as (rs & Sc & NZ & En & Rn).
  unfold transform. apply (transform_range_ok n _ items _ W O T); cbn [r_start r_end]; rewrite Z.min_id; try rewrite part_all.
  - pose proof (zlen_nonneg (ns_norm n)). lia.
  - rewrite En. now exists rs.
  - now rewrite Rn.
  - exact Co.
Qed.
Lemma strip_right_returns sp : normalizer_returns (lrstrip sp false true).
Proof.
  intros orig n P U. unfold lrstrip. change (0 <? 0)%nat with false. rewrite orb_false_l. destruct (0 <? count_while sp (rev (runes (ns_norm n))))%nat eqn:E; [|eauto].
  change (Z.of_nat 0) with 0. apply (whole_ok orig n _ P U). apply strip_consumed. rewrite <- (rev_length (runes (ns_norm n))). apply count_while_le.
Qed.
Lemma segments_return segs n orig : segments_ok segs -> in_place orig n -> untouched n -> exists m, transform n (flat_map segment_items (segs (ns_norm n))) 0 = Ok m.
Proof.
  intros S P U. pose proof P as (_ & _ & C & _). destruct (S _ C) as [S1 S2]. apply (whole_ok orig n _ P U). pose proof (consumed_segments (segs (ns_norm n))). lia.
Qed.

(** ** Replacing *)
Definition upto (b : Z) (l : list (Z * Z)) : Prop := Forall (fun v => 0 <= snd v <= b) l.
Lemma clear_cell_frame d st a b : b <> a -> (a < length (snd st))%nat -> cell (snd (clear_cell d st a)) b = cell (snd st) b.
Proof.
  intros H L. destruct st as [ess cells]. unfold clear_cell. cbn [snd] in *. destruct (cell cells a) as [x y]. cbn [snd]. rewrite cell_upd by exact L.
  destruct (Nat.eqb_spec a b); [congruence|reflexivity].
Qed.
Lemma clear_cell_len d st a : length (snd (clear_cell d st a)) = length (snd st).
Proof. destruct st as [ess cells]. unfold clear_cell. cbn [snd]. destruct (cell cells a). cbn [snd]. apply upd_length. Qed.
Lemma clear_cell_low d st a b K : 0 <= d -> (a < length (snd st))%nat -> 0 <= snd (cell (snd st) b) <= K -> 0 <= snd (cell (snd (clear_cell d st a)) b) <= K.
Proof.
  intros D L H. destruct (Nat.eq_dec b a) as [->|Nb]; [|now rewrite clear_cell_frame]. destruct st as [ess cells]. unfold clear_cell. cbn [snd] in *. destruct (cell cells a) as [x y] eqn:E. cbn [snd] in *.
  rewrite cell_upd, Nat.eqb_refl by exact L. cbn [snd]. pose proof (apply_sign_le y d ltac:(lia) D). pose proof (apply_sign_nonneg y (- d)). lia.
Qed.
Lemma clear_cell_hit d st a K : 0 <= K -> (a < length (snd st))%nat -> 0 <= snd (cell (snd st) a) <= K + d -> 0 <= snd (cell (snd (clear_cell d st a)) a) <= K.
Proof.
  intros HK L H. destruct st as [ess cells]. unfold clear_cell. cbn [snd] in *. destruct (cell cells a) as [x y] eqn:E. cbn [snd] in *.
  rewrite cell_upd, Nat.eqb_refl by exact L. cbn [snd]. unfold apply_sign. destruct (Z.ltb_spec (y + - d) 0); lia.
Qed.
Lemma clear_fold d addrs : forall st K, 0 <= d -> 0 <= K -> Forall (fun a => (a < length (snd st))%nat) addrs ->
  Forall (fun a => 0 <= snd (cell (snd st) a) <= K + d) addrs -> K + d <= fst st ->
  let st' := fold_left (clear_cell d) addrs st in
  fst st' = fst st /\ length (snd st') = length (snd st) /\ (forall b, ~ In b addrs -> cell (snd st') b = cell (snd st) b) /\
  (forall b, 0 <= snd (cell (snd st) b) <= K -> 0 <= snd (cell (snd st') b) <= K) /\ Forall (fun a => 0 <= snd (cell (snd st') a) <= K) addrs.
Proof.
  induction addrs as [|a addrs IH]; intros st K D HK L V E; cbn [fold_left]; [cbn zeta; repeat split; auto; tauto|].
  apply Forall_cons_iff in L. destruct L as [L1 L2]. apply Forall_cons_iff in V. destruct V as [V1 V2].
  assert (F1 : fst (clear_cell d st a) = fst st).
  { destruct st as [ess cells]. unfold clear_cell. cbn [fst snd] in *. destruct (cell cells a) as [x y]. cbn [fst snd] in *. destruct (Z.ltb_spec ess y); lia. }
  destruct (IH (clear_cell d st a) K D HK) as (I1 & I2 & I3 & I4 & I5).
  { rewrite clear_cell_len. exact L2. }
  { rewrite Forall_forall in *. intros b Hb. apply clear_cell_low; auto. }
  { now rewrite F1. }
  cbn zeta. split; [now rewrite I1|]. split; [now rewrite I2, clear_cell_len|]. split; [|split].
  - intros b Hb. cbn [In] in Hb. rewrite I3 by tauto. apply clear_cell_frame; [intros ->; tauto|exact L1].
  - intros b Hb. apply I4. now apply clear_cell_low.
  - constructor; [|exact I5]. apply I4. now apply clear_cell_hit.
Qed.

Lemma zlen_split {A} (l : list A) k : 0 <= k <= zlen l -> exists a b, l = a ++ b /\ zlen a = k.
Proof. intros H. exists (firstn (Z.to_nat k) l), (skipn (Z.to_nat k) l). split; [now rewrite firstn_skipn|now apply zlen_firstn]. Qed.
Lemma map_app_split {A B} (f : A -> B) l x y : map f l = x ++ y -> exists a b, l = a ++ b /\ map f a = x /\ map f b = y.
Proof. intros H. apply map_eq_app in H. destruct H as (a & b & -> & <- & <-). now exists a, b. Qed.
Lemma snd_aligns_cons c rest p : map snd (aligns_from (c :: rest) p) = repeat (p + zlen (encode_rune c)) (length (encode_rune c)) ++ map snd (aligns_from rest (p + zlen (encode_rune c))).
Proof. cbn [aligns_from]. rewrite map_app, map_repeat'. reflexivity. Qed.
Lemma zlen_map {A B} (f : A -> B) l : zlen (map f l) = zlen l.
Proof. unfold zlen. now rewrite map_length. Qed.
Lemma clear_run mid : forall A P R rest s off cells ess,
  zlen A = off -> 0 <= s <= off -> off + bytes mid <= ess ->
  Forall (fun a => (a < length cells)%nat) (P ++ R) -> upto s (map (cell cells) P) -> map snd (map (cell cells) R) = map snd (aligns_from (mid ++ rest) off) ->
  exists cells' Q R', R = Q ++ R' /\ zlen Q = bytes mid /\
    clear_chars (A ++ aligns_from (mid ++ rest) (zlen P)) (P ++ R) mid off (off - s) (ess, cells) = Ok (ess, cells') /\ length cells' = length cells /\
    upto s (map (cell cells') (P ++ Q)) /\ map snd (map (cell cells') R') = map snd (aligns_from rest (off + bytes mid)).
Proof.
  induction mid as [|c mid IH]; intros A P R rest s off cells ess HA Hs He L U V.
  - exists cells, [], R. cbn [clear_chars app]. rewrite app_nil_r, Z.add_0_r. repeat split; auto.
  - cbn [app] in V. rewrite snd_aligns_cons in V. rewrite bytes_cons in *. pose proof (zlen_rune c) as Lc. set (w := zlen (encode_rune c)) in *.
    assert (Nc : length (encode_rune c) = Z.to_nat w) by (unfold w, zlen; lia). pose proof (bytes_nonneg mid) as Bm.
    apply map_app_split in V. destruct V as (Vq & Vr & Vs & V1 & V2). apply map_app_split in Vs. destruct Vs as (Qc & R1 & -> & Mq & Mr). subst Vq Vr.
    assert (LQ : zlen Qc = w). { transitivity (zlen (map snd (map (cell cells) Qc))); [now rewrite !zlen_map|]. rewrite V1, zlen_repeat. unfold w, zlen. reflexivity. }
    assert (VQ : Forall (fun a => snd (cell cells a) = off + w) Qc).
    { rewrite map_map in V1. apply Forall_forall. intros a Ha. apply (in_map (fun x => snd (cell cells x))) in Ha. rewrite V1 in Ha. now apply repeat_spec in Ha. }
    assert (VR : Forall (fun a => off + w < snd (cell cells a)) R1).
    { rewrite map_map in V2. apply Forall_forall. intros a Ha. apply (in_map (fun x => snd (cell cells x))) in Ha. rewrite V2 in Ha. clear - Ha Lc. fold w in Ha.
      revert Ha. generalize (off + w). generalize (mid ++ rest). intros rs. assert (G : forall p q z, q <= p -> In z (map snd (aligns_from rs p)) -> q < z).
      { induction rs as [|d rs IH]; intros p q z Hq Hz; [contradiction|]. rewrite snd_aligns_cons in Hz. pose proof (zlen_rune d). apply in_app_or in Hz. destruct Hz as [Hz|Hz].
        - apply repeat_spec in Hz. lia.
        - apply (IH (p + zlen (encode_rune d))); [lia|exact Hz]. }
      intros z Hz. apply (G z z); [lia|exact Hz]. }
    cbn [app aligns_from clear_chars]. fold w. change (Z.of_nat (length (encode_rune c))) with w.
    pose proof (zlen_nonneg P) as LP.
    assert (LA : zlen (A ++ repeat (zlen P, zlen P + w) (length (encode_rune c)) ++ aligns_from (mid ++ rest) (zlen P + w)) = off + w + bytes (mid ++ rest)).
    { rewrite !zlen_app, zlen_repeat, zlen_aligns. unfold w, zlen in *. lia. }
    pose proof (bytes_nonneg (mid ++ rest)) as Bmr.
    rewrite zslice_eq by lia. cbn [bind]. rewrite (part_mid A _ _ off (off + w) HA) by (rewrite zlen_repeat; unfold w, zlen; lia).
    assert (Ex : expand (repeat (zlen P, zlen P + w) (length (encode_rune c))) = Some (zlen P, zlen P + w)).
    { destruct (length (encode_rune c)) as [|k] eqn:Ek; [lia|]. unfold expand. cbn [repeat]. change (?x :: repeat ?x k) with (repeat x (S k)). rewrite last_repeat. reflexivity. }
    rewrite Ex. rewrite zslice_eq by (rewrite ?zlen_app; pose proof (zlen_nonneg R1); lia). cbn [bind]. rewrite (part_mid P Qc R1 (zlen P) (zlen P + w) eq_refl) by lia.
    replace (off - s + w) with (off + w - s) by lia.
    assert (LQb : Forall (fun a => (a < length cells)%nat) Qc) by (rewrite !Forall_app in L; apply L).
    destruct (clear_fold (off + w - s) Qc (ess, cells) s) as (C1 & C2 & C3 & C4 & C5); cbn [fst snd]; [lia|lia|exact LQb| |lia|].
    { eapply Forall_impl; [|exact VQ]. cbn beta. intros a ->. lia. }
    cbn [fst snd] in *. set (st1 := fold_left (clear_cell (off + w - s)) Qc (ess, cells)) in *. destruct st1 as [ess1 cells1] eqn:Est1. cbn [fst snd] in *. subst ess1.
    destruct (IH (A ++ repeat (zlen P, zlen P + w) (length (encode_rune c))) (P ++ Qc) R1 rest s (off + w) cells1 ess) as (cells' & Q & R' & E1 & E2 & E3 & E4 & E5 & E6).
    { rewrite zlen_app, zlen_repeat. unfold w, zlen in *. lia. }
    { lia. } { lia. }
    { rewrite C2, <- app_assoc. exact L. }
    { unfold upto in *. rewrite map_app. apply Forall_app. rewrite !Forall_map in *. split; [|exact C5]. eapply Forall_impl; [|exact U]. cbn beta. intros a Ha. now apply C4. }
    { rewrite <- V2. fold w. f_equal. apply map_ext_in. intros a Ha. apply C3. intros X. rewrite Forall_forall in VQ, VR. specialize (VQ a X). specialize (VR a Ha). lia. }
    exists cells', (Qc ++ Q), R'. split; [rewrite E1; now rewrite app_assoc|]. split; [rewrite zlen_app; lia|].
    rewrite <- !app_assoc in E3. rewrite zlen_app, LQ in E3. split; [exact E3|]. split; [lia|]. rewrite <- app_assoc in E5. split; [exact E5|]. rewrite E6. do 2 f_equal. lia.
Qed.

Lemma upto_le a b l : a <= b -> upto a l -> upto b l.
Proof. intros H F. eapply Forall_impl; [|exact F]. cbn. lia. Qed.
Lemma insert_upto al lo hi cs : forall st L1 Rv b, 1 <= t_off st -> zindex al (t_off st - 1) = Ok (lo, hi) -> 0 <= lo -> lo <= hi -> hi <= zlen L1 ->
  vals st = L1 ++ Rv -> upto b L1 -> Forall (fun a => (a < length (t_cells st))%nat) (t_ao st) ->
  exists st' L1', foldR (t_item al) (map (fun c => (encode_rune c, 1)) cs) st = Ok st' /\ t_shift st' = t_shift st + bytes cs /\ vals st' = L1' ++ Rv /\ zlen L1' = zlen L1 /\
    upto (b + bytes cs) L1' /\ Forall (fun a => (a < length (t_cells st'))%nat) (t_ao st').
Proof.
  induction cs as [|c cs IH]; intros st L1 Rv b Ho Ez H0 H1 H2 Ev U F.
  - exists st, L1. change (bytes []) with 0. rewrite !Z.add_0_r. repeat split; auto.
  - cbn [map foldR]. set (w := zlen (encode_rune c)). assert (Hw : 1 <= w) by apply zlen_rune.
    assert (Lv : zlen (vals st) = zlen (t_ao st)) by (unfold vals; apply zlen_map).
    assert (La : hi <= zlen (t_ao st)) by (rewrite <- Lv, Ev, zlen_app; pose proof (zlen_nonneg Rv); lia).
    assert (E1 : exists st1 L2, t_item al st (encode_rune c, 1) = Ok st1 /\ t_off st1 = t_off st /\ t_shift st1 = t_shift st + w /\ vals st1 = L2 ++ Rv /\ zlen L2 = zlen L1 /\ upto (b + w) L2 /\
      Forall (fun a => (a < length (t_cells st1))%nat) (t_ao st1)).
    { unfold t_item. change (0 <? 1) with true. cbn iota. replace (t_off st <? 1) with false by lia. rewrite Ez. cbn [bind].
      change (1 <=? 0) with false. cbn iota beta. change (Z.to_nat (- (1))) with 0%nat. cbn [take_removed N.eqb]. change (0 <? 0) with false. cbn [andb bind fst snd].
      rewrite zslice_eq by lia. cbn [bind]. destruct (expand _) as [[olo ohi]|].
      - destruct (realloc (t_ao st) (t_cells st) lo hi _) as [ao1 cells1] eqn:Er. pose proof (realloc_values _ _ _ _ _ _ _ Er F) as Rvv. cbn [bind].
        exists (TS ao1 cells1 (t_runes st) (t_off st + 0 + 0) (t_shift st + (w - 0) - 0) (t_al st ++ repeat (lo, hi) (length (encode_rune c))) (t_text st ++ encode (runes (encode_rune c)))),
          (firstn (Z.to_nat lo) L1 ++ map (fun v => (fst v, snd v + w)) (part lo hi L1) ++ skipn (Z.to_nat hi) L1).
        split; [reflexivity|]. cbn [t_off t_shift t_ao t_cells]. split; [lia|]. split; [lia|].
        assert (Pt : map (cell (t_cells st)) (part lo hi (t_ao st)) = part lo hi L1).
        { rewrite map_part. fold (vals st). rewrite Ev. unfold part. rewrite skipn_app, firstn_app. rewrite skipn_length. unfold zlen in *. 
          replace (Z.to_nat (hi - lo) - (length L1 - Z.to_nat lo))%nat with 0%nat by lia. now rewrite firstn_O, app_nil_r. }
        split; [|split; [|split]].
        + unfold vals. cbn [t_cells t_ao]. rewrite Rvv. fold (vals st). rewrite Pt, Ev. rewrite firstn_app, skipn_app. unfold zlen in *.
          replace (Z.to_nat lo - length L1)%nat with 0%nat by lia. replace (Z.to_nat hi - length L1)%nat with 0%nat by lia. rewrite firstn_O, app_nil_r. cbn [skipn].
          rewrite <- !app_assoc. reflexivity.
        + rewrite !zlen_app, zlen_map, part_length by lia. unfold zlen in *. rewrite firstn_length, skipn_length. lia.
        + pose proof (upto_le b (b + w) L1 ltac:(lia) U) as U2. unfold upto in *. rewrite !Forall_app, Forall_map. split; [|split].
          * now apply Forall_firstn.
          * apply Forall_forall; intros v Hv. rewrite Forall_forall in U. apply part_In in Hv. specialize (U v Hv). cbn [snd]. lia.
          * now apply Forall_skipn.
        + unfold realloc in Er. injection Er as <- <-. rewrite app_length. rewrite !Forall_app. split; [|split].
          * apply Forall_firstn. eapply Forall_impl; [|exact F]. cbn. intros; lia.
          * apply Forall_forall. intros a Ha. apply in_seq in Ha. lia.
          * apply Forall_skipn. eapply Forall_impl; [|exact F]. cbn. intros; lia.
      - cbn [bind]. exists (TS (t_ao st) (t_cells st) (t_runes st) (t_off st + 0 + 0) (t_shift st + (w - 0) - 0) (t_al st ++ repeat (lo, hi) (length (encode_rune c))) (t_text st ++ encode (runes (encode_rune c)))), L1.
        split; [reflexivity|]. cbn [t_off t_shift t_ao t_cells]. split; [lia|]. split; [lia|]. split; [exact Ev|]. split; [reflexivity|]. split; [|exact F]. apply (upto_le b); [lia|exact U]. }
    destruct E1 as (st1 & L2 & E1 & O1 & S1 & V1 & Z1 & U1 & F1). rewrite E1. cbn [bind].
    destruct (IH st1 L2 Rv (b + w)) as (st' & L3 & E' & S' & V' & Z' & U' & F'); [lia|now rewrite O1|assumption|assumption|lia|exact V1|exact U1|exact F1|].
    exists st', L3. rewrite bytes_cons. fold w. split; [exact E'|]. split; [lia|]. split; [exact V'|]. split; [lia|]. split; [|exact F']. now rewrite Z.add_assoc.
Qed.
Lemma snd_aligns_shift rs d : forall p, 0 <= p -> 0 <= p + d -> map (fun y => apply_sign y d) (map snd (aligns_from rs p)) = map snd (aligns_from rs (p + d)).
Proof.
  induction rs as [|c rs IH]; intros p H0 H1; [reflexivity|]. rewrite !snd_aligns_cons, map_app, map_repeat'. pose proof (zlen_rune c). f_equal.
  - f_equal. unfold apply_sign. replace (p + zlen (encode_rune c) + d <? 0) with false by lia. lia.
  - rewrite IH by lia. do 2 f_equal. lia.
Qed.

(** The text up to here is [out]; what is left of the given text is [rest]. *)
Definition replacing (rest : list N) (out : str) (n : ns) : Prop :=
  wf n /\ ns_norm n = out ++ encode rest /\
  exists A P R, ns_al n = A ++ aligns_from rest (zlen P) /\ zlen A = zlen out /\ ns_ao n = P ++ R /\
    upto (zlen out) (map (cell (ns_cells n)) P) /\ map snd (map (cell (ns_cells n)) R) = map snd (aligns_from rest (zlen out)).
Lemma untouched_replacing n : wf n -> untouched n -> exists rs, Forall scalar rs /\ ns_norm n = encode rs /\ replacing rs [] n.
Proof.
  intros W (rs & Sc & E1 & E2 & E3 & E4). exists rs. split; [exact Sc|]. split; [exact E2|]. split; [exact W|]. split; [exact E2|].
  exists [], [], (ns_ao n). split; [exact E3|]. split; [reflexivity|]. split; [reflexivity|]. split; [constructor|]. unfold ns_ao_values in E4. rewrite E4. reflexivity.
Qed.
Lemma replacing_keep mid rest out n : replacing (mid ++ rest) out n -> replacing rest (out ++ encode mid) n.
Proof.
  intros (W & En & A & P & R & Ea & La & Eo & U & V). split; [exact W|]. split; [rewrite En, encode_app; now rewrite app_assoc|].
  rewrite aligns_from_app, map_app in V. apply map_app_split in V. destruct V as (Vq & Vr & Vs & V1 & V2). apply map_app_split in Vs. destruct Vs as (Q & R1 & -> & Mq & Mr). subst Vq Vr.
  assert (LQ : zlen Q = bytes mid). { transitivity (zlen (map snd (map (cell (ns_cells n)) Q))); [now rewrite !zlen_map|]. rewrite V1, zlen_map. apply zlen_aligns. }
  assert (Lo : zlen (out ++ encode mid) = zlen out + bytes mid) by (rewrite zlen_app; reflexivity). pose proof (bytes_nonneg mid) as Bm.
  exists (A ++ aligns_from mid (zlen P)), (P ++ Q), R1. split; [|split; [|split; [|split]]].
  - rewrite Ea, aligns_from_app, app_assoc, zlen_app, LQ. reflexivity.
  - rewrite zlen_app, zlen_aligns. lia.
  - rewrite Eo. now rewrite app_assoc.
  - rewrite Lo. rewrite map_app. apply Forall_app. split; [apply (upto_le (zlen out)); [lia|exact U]|].
    apply Forall_forall. intros v Hv. apply (in_map snd) in Hv. rewrite V1 in Hv. apply in_map_iff in Hv. destruct Hv as (x & Ex & Hx).
    pose proof (aligns_from_inside mid (zlen out)) as Ai. rewrite Forall_forall in Ai. specialize (Ai x Hx). cbn beta in Ai. fold (bytes mid) in Ai. pose proof (zlen_nonneg out). lia.
  - rewrite Lo. exact V2.
Qed.
Lemma zindex_last {A} (d : A) a b c i : b <> [] -> i = zlen a + zlen b - 1 -> zindex (a ++ b ++ c) i = Ok (last b d).
Proof.
  intros Nb ->. rewrite (app_removelast_last d Nb) at 1 2. set (b' := removelast b). rewrite zlen_app. change (zlen [last b d]) with 1. unfold zindex.
  pose proof (zlen_nonneg a) as Ha. pose proof (zlen_nonneg b') as Hb. replace (0 <=? zlen a + (zlen b' + 1) - 1) with true by lia. rewrite <- app_assoc. rewrite nth_error_app2 by (unfold zlen; lia).
  rewrite nth_error_app2 by (unfold zlen; lia). match goal with |- context [nth_error _ ?k] => replace k with 0%nat by (unfold zlen; lia) end. reflexivity.
Qed.
Lemma replacing_match mid rest out n content : replacing (mid ++ rest) out n -> mid <> [] -> Forall scalar mid ->
  exists n', transform_range n (Rng (zlen out) (zlen out + bytes mid) OnNormalized) (map (fun c => (encode_rune c, 1)) content) (zlen mid) = Ok n' /\
    replacing rest (out ++ encode content) n'.
Proof.
  intros (W & En & A & P & R & Ea & La & Eo & U & V) Ne Sc.
  pose proof (zlen_nonneg out) as Ho. pose proof (bytes_nonneg rest) as Br. pose proof (bytes_nonneg content) as Bc. pose proof (zlen_nonneg P) as HP.
  assert (Bm : 1 <= bytes mid) by (destruct mid as [|c mid']; [congruence|rewrite bytes_cons; pose proof (zlen_rune c); pose proof (bytes_nonneg mid'); lia]).
  assert (Lal : zlen (ns_al n) = zlen (ns_norm n)) by (unfold zlen; f_equal; apply W).
  assert (Lno : zlen (ns_norm n) = zlen out + bytes mid + bytes rest) by (rewrite En, encode_app, !zlen_app; unfold bytes; lia).
  assert (Fr : Forall (fun a => (a < length (ns_cells n))%nat) (ns_ao n)) by apply W.
  set (s := zlen out) in *. set (e := s + bytes mid) in *.
  assert (Ex : exists n', transform_range n (Rng s e OnNormalized) (map (fun c => (encode_rune c, 1)) content) (zlen mid) = Ok n' /\
    (exists A', ns_al n' = A' ++ aligns_from rest (zlen P + bytes mid)) /\
    exists L1, zlen L1 = zlen P + bytes mid /\ upto (s + bytes content) L1 /\ exists Rv, ns_ao_values n' = L1 ++ Rv /\ map snd Rv = map snd (aligns_from rest (s + bytes content))).
  { unfold transform_range. cbn [r_on r_start r_end]. unfold into_full_range. cbn [r_start r_end].
    replace (s =? -1) with false by lia. replace (zlen (ns_norm n) <? e) with false by lia. cbn [bind r_start r_end].
    rewrite Lal. replace (zlen (ns_norm n) <? e) with false by lia. rewrite zslice_eq by lia. cbn [bind].
    assert (Sel : part s e (ns_norm n) = encode mid) by (rewrite En, encode_app; apply part_mid; [reflexivity|unfold e, bytes; lia]). rewrite Sel.
    rewrite runes_encode by exact Sc. rewrite Z.ltb_irrefl. replace (Z.to_nat (zlen mid)) with (length mid) by (unfold zlen; lia). rewrite firstn_all, bytes_fold.
    destruct (clear_run mid A P R rest s s (ns_cells n) e) as (cells0 & Q & R1 & EQ & LQ & Ec & Lc & Uq & Vr); [exact La|lia|lia|now rewrite <- Eo|exact U|exact V|].
    rewrite Z.sub_diag in Ec. rewrite Ea, Eo, Ec. cbn [bind].
    match goal with |- context [foldR (t_item ?al) ?its ?st0] =>
      destruct (insert_upto al (fst (last (aligns_from mid (zlen P)) (0, 0))) (snd (last (aligns_from mid (zlen P)) (0, 0))) content st0 (map (cell cells0) (P ++ Q)) (map (cell cells0) R1) s) as (st & L1 & Est & Sst & Vst & Zst & Ust & Fst) end.
    { cbn [NormalizedModel.t_off]. lia. }
    { cbn [NormalizedModel.t_off]. rewrite <- surjective_pairing. replace (bytes mid + s - 1) with (s + (bytes mid - 1)) by lia.
      assert (Na : aligns_from mid (zlen P) <> []) by (intros X; apply (f_equal zlen) in X; rewrite zlen_aligns in X; unfold zlen in X; cbn in X; lia).
      rewrite aligns_from_app. apply zindex_last; [exact Na|]. rewrite zlen_aligns. lia. }
    { assert (Na : aligns_from mid (zlen P) <> []) by (intros X; apply (f_equal zlen) in X; rewrite zlen_aligns in X; unfold zlen in X; cbn in X; lia).
      pose proof (aligns_from_inside mid (zlen P)) as Ai. rewrite Forall_forall in Ai. specialize (Ai _ (last_In _ (0, 0) Na)). cbn beta in Ai. cbn [NormalizedModel.t_off]. lia. }
    { assert (Na : aligns_from mid (zlen P) <> []) by (intros X; apply (f_equal zlen) in X; rewrite zlen_aligns in X; unfold zlen in X; cbn in X; lia).
      pose proof (aligns_from_inside mid (zlen P)) as Ai. rewrite Forall_forall in Ai. specialize (Ai _ (last_In _ (0, 0) Na)). cbn beta in Ai. cbn [NormalizedModel.t_off]. lia. }
    { assert (Na : aligns_from mid (zlen P) <> []) by (intros X; apply (f_equal zlen) in X; rewrite zlen_aligns in X; unfold zlen in X; cbn in X; lia).
      pose proof (aligns_from_inside mid (zlen P)) as Ai. rewrite Forall_forall in Ai. specialize (Ai _ (last_In _ (0, 0) Na)). cbn beta in Ai. rewrite zlen_map, zlen_app. fold (bytes mid) in Ai. lia. }
    { unfold vals. cbn [t_cells t_ao]. rewrite EQ, app_assoc, map_app. reflexivity. }
    { exact Uq. }
    { cbn [t_cells t_ao]. rewrite Lc, <- Eo. exact Fr. }
    rewrite Est. cbn [bind]. cbn [t_shift] in Sst. rewrite zlen_map, zlen_app, LQ in Zst.
    assert (Zal : zlen (A ++ aligns_from (mid ++ rest) (zlen P)) = e + bytes rest) by (rewrite <- Ea; lia).
    assert (Pal : part e (zlen (A ++ aligns_from (mid ++ rest) (zlen P))) (A ++ aligns_from (mid ++ rest) (zlen P)) = aligns_from rest (zlen P + bytes mid)).
    { rewrite Zal, aligns_from_app, app_assoc. rewrite <- (app_nil_r (aligns_from rest (zlen P + bytes mid))) at 1. apply part_mid; [rewrite zlen_app, zlen_aligns; lia|rewrite zlen_aligns; lia]. }
    assert (Efin : exists ao' cells', end_shift (A ++ aligns_from (mid ++ rest) (zlen P)) e (t_shift st) (t_ao st) (t_cells st) = Ok (ao', cells') /\
       exists Rv, map (cell cells') ao' = L1 ++ Rv /\ map snd Rv = map snd (aligns_from rest (s + bytes content))).
    { unfold end_shift. destruct (Z.eqb_spec (t_shift st) 0) as [E0|E0].
      - exists (t_ao st), (t_cells st). split; [reflexivity|]. exists (map (cell cells0) R1). split; [exact Vst|]. rewrite Vr. do 2 f_equal. lia.
      - rewrite zslice_eq by lia. cbn [bind]. rewrite Pal. destruct rest as [|c rest].
        + cbn [aligns_from expand]. exists (t_ao st), (t_cells st). split; [reflexivity|]. exists (map (cell cells0) R1). split; [exact Vst|]. rewrite Vr. reflexivity.
        + assert (Exp : expand (aligns_from (c :: rest) (zlen P + bytes mid)) = Some (zlen P + bytes mid, zlen P + bytes mid + bytes (c :: rest))).
          { destruct (aligns_nonempty c rest (zlen P + bytes mid)) as (q & l & El & Eq). pose proof (aligns_last (c :: rest) q ltac:(discriminate) (zlen P + bytes mid)) as Al.
            unfold expand. rewrite El in Al |- *. rewrite Eq, Al. reflexivity. }
          rewrite Exp.
          assert (Lst : zlen (t_ao st) = zlen P + bytes mid + bytes (c :: rest)).
          { transitivity (zlen (vals st)); [unfold vals; now rewrite zlen_map|]. rewrite Vst, zlen_app. assert (X : zlen (map snd (map (cell cells0) R1)) = bytes (c :: rest)) by (rewrite Vr, zlen_map; apply zlen_aligns). rewrite !zlen_map in X. rewrite zlen_map. lia. }
          rewrite zslice_eq by lia. cbn [bind].
          destruct (realloc (t_ao st) (t_cells st) _ _ _) as [ao' cells'] eqn:Er. exists ao', cells'. split; [reflexivity|].
          pose proof (realloc_values _ _ _ _ _ _ _ Er Fst) as Rv. rewrite Rv. fold (vals st). rewrite Vst. rewrite firstn_app_z by lia.
          rewrite skipn_all2 by (pose proof Lst as X; rewrite <- (zlen_map (cell (t_cells st))) in X; fold (vals st) in X; rewrite Vst in X; unfold zlen in X |- *; lia).
          rewrite app_nil_r. eexists. split; [reflexivity|].
          rewrite <- (map_map (cell (t_cells st)) (fun v => (apply_sign (fst v) (t_shift st), apply_sign (snd v) (t_shift st)))). rewrite map_part. fold (vals st). rewrite Vst.
          rewrite map_map. cbn [snd]. rewrite <- (map_map snd (fun y => apply_sign y (t_shift st))).
          replace (part _ _ (L1 ++ map (cell cells0) R1)) with (map (cell cells0) R1).
          2:{ symmetry. rewrite <- (app_nil_r (map (cell cells0) R1)) at 1. apply part_mid; [lia|]. assert (X : zlen (map snd (map (cell cells0) R1)) = bytes (c :: rest)) by (rewrite Vr, zlen_map; apply zlen_aligns). rewrite zlen_map in X. lia. }
          rewrite Vr, snd_aligns_shift by lia. do 2 f_equal. lia. }
    destruct Efin as (ao' & cells' & Ef & Rv & Vf & Vf2). rewrite Ef. cbn [bind]. eexists. split; [reflexivity|]. split.
    - cbn [ns_al]. exists (firstn (Z.to_nat s) (A ++ aligns_from (mid ++ rest) (zlen P)) ++ t_al st). rewrite <- app_assoc. do 2 f_equal. rewrite aligns_from_app, app_assoc.
      assert (X : zlen (A ++ aligns_from mid (zlen P)) = e) by (rewrite zlen_app, zlen_aligns; lia). pose proof (skipn_app_z (A ++ aligns_from mid (zlen P)) [] (aligns_from rest (zlen P + bytes mid)) e) as Sk. apply Sk. rewrite X. unfold zlen. cbn. lia.
    - exists L1. split; [exact Zst|]. split; [exact Ust|]. exists Rv. split; [exact Vf|exact Vf2]. }
  destruct Ex as (n' & E & (A' & Ea') & L1 & Z1 & U1 & Rv & V1 & V2). exists n'. split; [exact E|].
  assert (Vi : valid_items (map (fun c => (encode_rune c, 1)) content)) by apply valid_rune_items.
  assert (W' : wf n') by (eapply transform_range_wf; eassumption).
  pose proof (transform_range_text n s e _ _ n' W Vi Ho ltac:(lia) E) as (_ & Ht & _). rewrite items_text_runes in Ht.
  assert (En' : ns_norm n' = (out ++ encode content) ++ encode rest).
  { rewrite Ht, En, encode_app. rewrite firstn_app_z by reflexivity. rewrite <- app_assoc. do 2 f_equal. apply skipn_app_z. unfold e, s, bytes. reflexivity. }
  split; [exact W'|]. split; [exact En'|].
  assert (Lo : zlen (out ++ encode content) = s + bytes content) by (rewrite zlen_app; reflexivity). rewrite Lo.
  unfold ns_ao_values in V1. apply map_app_split in V1. destruct V1 as (P' & R' & Eo' & Mp & Mr). exists A', P', R'.
  assert (LP : zlen P' = zlen P + bytes mid) by (rewrite <- Z1, <- Mp; now rewrite zlen_map).
  split; [rewrite LP; exact Ea'|]. split.
  - assert (X : zlen (ns_al n') = zlen (ns_norm n')) by (unfold zlen; f_equal; apply W'). rewrite Ea', En', !zlen_app, zlen_aligns in X. unfold bytes in *. lia.
  - split; [exact Eo'|]. split; [rewrite Mp; exact U1|]. rewrite Mr. exact V2.
Qed.

Lemma char_pos_split pre rest y : char_pos (pre ++ rest) y -> bytes pre <= y -> exists mid rest', rest = mid ++ rest' /\ bytes mid = y - bytes pre.
Proof.
  intros (k & Hk & ->) H. destruct (Nat.le_gt_cases (length pre) k) as [Hkl|Hkl].
  - exists (firstn (k - length pre) rest), (skipn (k - length pre) rest). split; [now rewrite firstn_skipn|]. rewrite firstn_app, (firstn_all2 pre), bytes_app by lia. lia.
  - exists [], rest. split; [reflexivity|]. rewrite firstn_app in *. replace (k - length pre)%nat with 0%nat in * by lia. rewrite firstn_O, app_nil_r in *. change (bytes []) with 0.
    assert (X : bytes (firstn k pre) <= bytes pre); [|lia]. rewrite <- (firstn_skipn k pre) at 2. rewrite bytes_app. pose proof (bytes_nonneg (skipn k pre)). lia.
Qed.
Lemma replace_fold content s ms : forall pre rest out n off, Forall scalar (pre ++ rest) -> s = encode (pre ++ rest) ->
  partition (bytes pre) (zlen s) ms -> Forall (cut s) ms -> replacing rest out n -> off = zlen out - bytes pre ->
  exists st, foldR (replace_step content) ms (n, off) = Ok st.
Proof.
  induction ms as [|[[x y] k] ms IH]; intros pre rest out n off Sc Es P Ct Rp Eo; [eexists; reflexivity|].
  cbn [partition] in P. destruct P as (-> & Hxy & P). apply Forall_cons_iff in Ct. destruct Ct as [(C1 & B1 & B2) Ct]. cbn [fst snd] in C1, B1, B2.
  pose proof (bytes_nonneg pre) as Bp. rewrite Es in B2. destruct (char_pos_split pre rest y (boundary_char_pos _ _ B2 ltac:(lia)) Hxy) as (mid & rest' & Er & Em).
  assert (Bpm : bytes (pre ++ mid) = y) by (rewrite bytes_app; lia). assert (Es' : s = encode ((pre ++ mid) ++ rest')) by (rewrite <- app_assoc, <- Er; exact Es).
  assert (Sc' : Forall scalar ((pre ++ mid) ++ rest')) by (rewrite <- app_assoc, <- Er; exact Sc).
  cbn [foldR replace_step snd fst]. pose proof (zlen_nonneg out) as Ho. destruct k.
  - assert (E1 : apply_sign (bytes pre) off = zlen out) by (unfold apply_sign; replace (bytes pre + off <? 0) with false by lia; lia).
    assert (E2 : apply_sign y off = zlen out + bytes mid) by (unfold apply_sign; replace (y + off <? 0) with false by lia; lia). rewrite E1, E2.
    pose proof Rp as (W & En & _). assert (Lno : zlen (ns_norm n) = zlen out + bytes mid + bytes rest') by (rewrite En, Er, encode_app, !zlen_app; unfold bytes; lia).
    pose proof (bytes_nonneg mid). pose proof (bytes_nonneg rest'). rewrite zslice_eq by lia. cbn [bind].
    assert (Sel : part (zlen out) (zlen out + bytes mid) (ns_norm n) = encode mid) by (rewrite En, Er, encode_app; apply part_mid; [reflexivity|unfold bytes; lia]).
    assert (Scm : Forall scalar mid) by (rewrite !Forall_app in Sc'; apply Sc'). rewrite Sel, (runes_encode mid) by exact Scm.
    destruct (replacing_match mid rest' out n (runes content)) as (n' & E & R'); [now rewrite <- Er| |exact Scm|].
    { intros ->. change (bytes []) with 0 in Em. lia. }
    rewrite E. cbn [bind]. apply (IH (pre ++ mid) rest' (out ++ encode (runes content)) n'); [exact Sc'|exact Es'|now rewrite Bpm|exact Ct|exact R'|]. rewrite zlen_app, Bpm. lia.
  - cbn [bind]. apply (IH (pre ++ mid) rest' (out ++ encode mid) n); [exact Sc'|exact Es'|now rewrite Bpm|exact Ct|apply replacing_keep; now rewrite <- Er|].
    rewrite zlen_app, Bpm. fold (bytes mid). lia.
Qed.
Lemma replace_returns p content : local_change (OReplace p content) -> normalizer_returns (ns_replace p content).
Proof.
  intros (H & Z & Cc) orig n P U. pose proof P as (W & O & C & _). unfold ns_replace. destruct (ns_norm n) as [|b t] eqn:Eb; [rewrite Z; cbn; eauto|]. rewrite <- Eb in *.
  destruct (finds_cuts p H (ns_norm n)) as (ms & Em & Pm & Cm); [now apply clean_valid|congruence|]. rewrite Em. cbn [bind].
  destruct (untouched_replacing n W U) as (rs & Sc & En & Rp).
  destruct (replace_fold content (ns_norm n) ms [] rs [] n 0 Sc En Pm Cm Rp eq_refl) as (st & E). rewrite E. cbn [bind]. eauto.
Qed.

(** A mark in front, then a replacement. *)
Lemma skip_front content s (front : str) ms : boundary s (zlen front) -> forall a st, a <= zlen front -> partition a (zlen s) ms -> zlen front <= zlen s -> Forall (cut s) ms ->
  Forall (fun m => snd m = true -> zlen front <= fst (fst m)) ms ->
  exists ms', partition (zlen front) (zlen s) ms' /\ Forall (cut s) ms' /\ foldR (replace_step content) ms st = foldR (replace_step content) ms' st.
Proof.
  intros B. induction ms as [|[[x y] k] ms IH]; intros a st Ha P Hs Ct Sp.
  - cbn in P. exists []. cbn. repeat split; [lia|constructor].
  - pose proof P as P0. cbn [partition] in P. destruct P as (-> & Hxy & P). pose proof Ct as Ct0. apply Forall_cons_iff in Ct. destruct Ct as [(C1 & B1 & B2) Ct]. cbn [fst snd] in *.
    apply Forall_cons_iff in Sp. destruct Sp as [Sp1 Sp]. cbn [fst snd] in Sp1. destruct (Z.eq_dec a (zlen front)) as [->|Na]; [exists (((zlen front, y), k) :: ms); auto|].
    destruct k; [specialize (Sp1 eq_refl); lia|]. cbn [foldR]. assert (St : replace_step content st ((a, y), false) = Ok st) by (destruct st; reflexivity). rewrite St. cbn [bind].
    destruct (Z.le_gt_cases y (zlen front)) as [Hy|Hy]; [now apply (IH y)|].
    exists (((zlen front, y), false) :: ms). split; [cbn [partition]; repeat split; [lia|exact P]|]. split; [constructor; [|exact Ct]; repeat split; cbn; [lia|exact B|exact B2]|].
    cbn [foldR]. assert (St' : replace_step content st ((zlen front, y), false) = Ok st) by (destruct st; reflexivity). rewrite St'. reflexivity.
Qed.
(** What a replacement needs of the string, wherever it comes from. *)
Definition sound (n : ns) : Prop := wf n /\ ordered (ns_al n) /\ clean (ns_norm n).
Lemma replace_sound content s ms : clean content -> forall a out n off st',
  partition a (zlen s) ms -> 0 <= a -> Forall (cut s) ms -> clean s -> sound n ->
  ns_norm n = out ++ skipn (Z.to_nat a) s -> clean out -> off = zlen out - a ->
  foldR (replace_step content) ms (n, off) = Ok st' -> sound (fst st').
Proof.
  intros Cc.
  induction ms as [|[[x y] k] ms IH]; intros a out n off st' P Ha Ct Cs Pn En Co Eo E.
  - cbn in P, E. injection E as <-. exact Pn.
  - cbn [partition] in P. destruct P as (-> & Hxy & P). pose proof (partition_le _ _ _ P) as Hy. inversion Ct as [|? ? C1 Ct']; subst.
    cbn [foldR replace_step snd fst] in E. pose proof (zlen_nonneg out) as Ho. destruct C1 as (C1 & B1 & B2). cbn [fst snd] in C1, B1, B2.
    rewrite (firstn_part_skipn s a y) in En by lia. pose proof (clean_part s a y Cs Ha Hxy B1 B2) as Cp.
    destruct k.
    + set (off := zlen out - a) in *.
      assert (E1 : apply_sign a off = zlen out) by (unfold apply_sign; replace (a + off <? 0) with false by lia; lia).
      assert (E2 : apply_sign y off = zlen out + (y - a)) by (unfold apply_sign; replace (y + off <? 0) with false by lia; lia).
      rewrite E1, E2 in E.
      destruct (zslice (ns_norm n) _ _) as [sub| | | |] eqn:Ez; cbn [bind] in E; try discriminate E.
      match type of E with (do s' <- (do n' <- ?x; _); _) = _ => destruct x as [n'| | | |] eqn:En' end; cbn [bind] in E; try discriminate E.
      apply zslice_ok in Ez. destruct Ez as (_ & _ & Hb & ->).
      assert (Sel : part (zlen out) (zlen out + (y - a)) (ns_norm n) = part a y s).
      { rewrite En. apply part_mid; [reflexivity|]. rewrite part_length by lia. lia. }
      rewrite Sel in En'.
      assert (Vi : valid_items (map (fun c => (encode_rune c, 1)) (runes content))) by apply valid_rune_items.
      pose proof Pn as (W & O & Cn).
      assert (WL : zlen (ns_al n) = zlen (ns_norm n)) by (unfold zlen; f_equal; apply W).
      pose proof (transform_range_text n (zlen out) (zlen out + (y - a)) _ _ n' W Vi Ho Hb En') as (_ & Ht & _).
      assert (W' : wf n') by (eapply transform_range_wf; eassumption).
      rewrite items_text_runes, runes_valid_id in Ht by (apply clean_valid; exact Cc).
      assert (T : target n (Rng (zlen out) (zlen out + (y - a)) OnNormalized) = Ok (Some (Rng (zlen out) (zlen out + (y - a)) OnNormalized))).
      { unfold target, into_full_range. cbn [r_on r_start r_end]. replace (zlen out =? -1) with false by lia. replace (zlen out + (y - a) =? -1) with false by lia.
        cbn iota. replace (zlen (ns_norm n) <? zlen out + (y - a)) with false by lia. reflexivity. }
      assert (Ins : consumed (map (fun c => (encode_rune c, 1)) (runes content)) = 0).
      { clear. induction (runes content) as [|c l IHl]; [reflexivity|]. cbn [map]. rewrite consumed_cons, IHl. reflexivity. }
      assert (O' : ordered (ns_al n')).
      { apply (transform_range_ordered _ _ _ _ _ _ W O En' T); cbn [r_start r_end]; rewrite Z.min_l by lia; try rewrite Sel.
        - apply clean_valid, Cp.
        - apply clean_runes, Cp.
        - rewrite Ins. apply zlen_nonneg.
        - right. right. apply Forall_map. apply Forall_forall. intros c _. cbn. lia. }
      assert (En2 : ns_norm n' = (out ++ content) ++ skipn (Z.to_nat y) s).
      { rewrite Ht, En. rewrite firstn_app_z by reflexivity. rewrite <- app_assoc. do 2 f_equal. apply skipn_app_z. rewrite part_length by lia. lia. }
      assert (R1 : sound n').
      { split; [exact W'|]. split; [exact O'|].
        rewrite En2. apply clean_app; [now apply clean_app|]. destruct Cs as (rs & A1 & A2 & A3).
        assert (B2' : boundary (encode rs) y) by (rewrite <- A3; exact B2). destruct (boundary_char_pos rs y B2' ltac:(lia)) as (j & Hj & Ej).
        exists (skipn j rs). split; [now apply Forall_skipn|]. split; [now apply Forall_skipn|]. rewrite A3.
        transitivity (skipn (Z.to_nat y) (encode (firstn j rs ++ skipn j rs))); [now rewrite firstn_skipn|]. rewrite encode_app.
        rewrite Ej. unfold bytes, zlen. rewrite Nat2Z.id, skipn_app, skipn_all, Nat.sub_diag. reflexivity. }
      eapply (IH y (out ++ content) n'); [exact P|lia|exact Ct'|exact Cs|exact R1|exact En2|now apply clean_app| |exact E].
      rewrite zlen_app, runes_valid_id by (apply clean_valid; exact Cc). subst off. lia.
    + eapply (IH y (out ++ part a y s) n); [exact P|lia|exact Ct'|exact Cs|exact Pn| |now apply clean_app| |exact E].
      * now rewrite <- app_assoc.
      * rewrite zlen_app, part_length by lia. lia.
Qed.
Lemma prepend_replacing front n : clean front -> front <> [] -> sound n -> untouched n -> ns_norm n <> [] ->
  exists m rs, ns_prepend front n = Ok m /\ Forall scalar rs /\ ns_norm n = encode rs /\ replacing rs front m.
Proof.
  intros Cf Nf (W & O & C) U Ne. destruct (untouched_fresh n W U) as (rs & Sc & Fr). destruct (clean_valid_runes _ C) as (rs' & _ & NZ & En' & Rn').
  assert (En : ns_norm n = encode rs) by apply Fr. assert (Er : rs' = rs) by (rewrite <- Rn', En; now apply runes_encode). rewrite Er in NZ. clear Er En' Rn'.
  destruct rs as [|c rest]; [exfalso; apply Ne; exact En|]. pose proof (proj1 (Forall_cons_iff _ _ _) Sc) as [Sc1 Sc2]. pose proof (proj1 (Forall_cons_iff _ _ _) NZ) as [Nz1 Nz2].
  destruct (clean_valid_runes _ Cf) as (fs & Sf & NZf & Ef & Rf). destruct fs as [|f0 fs]; [exfalso; apply Nf; exact Ef|].
  destruct (prepend_ok front (c :: rest) n W O En Sc Nz1) as (m & E & T & W' & O'). exists m, (c :: rest). split; [exact E|]. split; [exact Sc|]. split; [exact En|].
  split; [exact W'|]. cbn [length Nat.eqb] in T. rewrite Rf, <- Ef in T. split; [rewrite T, En; reflexivity|].
  revert E. unfold ns_prepend. rewrite En, runes_encode by assumption.
  set (x := (c, (encode_rune f0, map encode_rune fs ++ [encode_rune c])) : expansion).
  assert (Okx : Forall exp_ok [x]).
  { constructor; [|constructor]. split; [exact Nz1|]. split; [apply valid_encode_rune|]. cbn. apply Forall_app. split; [|constructor; [apply valid_encode_rune|constructor]].
    apply Forall_map, Forall_forall. intros r _. apply valid_encode_rune. }
  destruct (expansion_range_gen [] [x] rest n OnNormalized (Forall_nil _) (Forall_cons x Sc1 (Forall_nil _)) Sc2 Okx Fr) as (n2 & E2 & A1 & A2 & A3 & A4).
  { unfold target, into_full_range. cbn [r_on r_start r_end map fst]. change (bytes []) with 0. rewrite Z.add_0_l. cbn [Z.eqb].
    rewrite En. unfold bytes. rewrite !encode_cons. change (encode []) with (@nil N). rewrite app_nil_r, zlen_app.
    pose proof (zlen_nonneg (encode rest)). change (fst x) with c. replace (zlen (encode_rune c) + zlen (encode rest) <? zlen (encode_rune c)) with false by lia. reflexivity. }
  cbn [map] in E2. change (fst x) with c in E2. change (bytes []) with 0 in E2. rewrite Z.add_0_l in E2. replace (bytes [c]) with (zlen (encode_rune c)) in E2.
  2:{ unfold bytes. rewrite encode_cons. change (encode []) with (@nil N). now rewrite app_nil_r. }
  replace (prepend_items front c) with (flat_map exp_items [x]).
  2:{ unfold prepend_items. rewrite Rf. cbn [flat_map app]. rewrite app_nil_r. unfold exp_items, x. cbn [fst snd]. rewrite map_app, map_map. reflexivity. }
  rewrite E2. intros [= <-].
  assert (Ox : exp_out x = front ++ encode_rune c).
  { unfold exp_out, x. cbn [fst snd]. rewrite concat_app. cbn [concat]. rewrite app_nil_r, app_assoc, Ef, encode_cons. reflexivity. }
  pose proof (zlen_nonneg front) as Lf. set (w := zlen (encode_rune c)) in *.
  exists (repeat (0, w) (length front)), [], (ns_ao n2). cbn [app same map] in A3, A4. unfold same in A3, A4. cbn [map app] in A3, A4. split; [|split; [|split; [reflexivity|split; [constructor|]]]].
  - rewrite A3. cbn [exp_al]. fold (same rest). rewrite exp_al_same, Ox. change (fst x) with c. fold w. rewrite app_length, repeat_app, <- app_assoc. reflexivity.
  - rewrite zlen_repeat. reflexivity.
  - change (map (cell (ns_cells n2)) (ns_ao n2)) with (ns_ao_values n2). rewrite A4. cbn [exp_ao]. fold (same rest). rewrite exp_ao_same, Ox. change (fst x) with c. rewrite zlen_app. fold w.
    rewrite map_app, map_repeat', snd_aligns_cons. cbn [snd]. rewrite !Z.add_0_l. reflexivity.
Qed.
Lemma mark_sound front p content n : clean front -> front <> [] -> local_change (OReplace p content) -> spares front p -> sound n -> untouched n -> ns_norm n <> [] ->
  exists m k, ns_prepend front n = Ok m /\ ns_norm m = front ++ ns_norm n /\ wf m /\ ns_replace p content m = Ok k /\ sound k.
Proof.
  intros Cf Nf (H & Z & Cc) Sp Sn U Ne. pose proof Sn as (W & O & C).
  destruct (prepend_replacing front n Cf Nf Sn U Ne) as (m & rs & E & Sc & En & Rp).
  destruct (clean_valid_runes _ Cf) as (fs & Sf & NZf & Ef & Rf).
  assert (Om : ordered (ns_al m)).
  { destruct (clean_valid_runes _ C) as (rs' & Sc' & NZ & En' & _). destruct (prepend_ok front rs' n W O En' Sc') as (m' & E' & _ & _ & O'); [destruct NZ; cbn; [discriminate|assumption]|]. assert (m' = m) by congruence. subst. exact O'. }
  assert (Em : ns_norm m = encode (fs ++ rs)) by (rewrite encode_app, <- Ef; apply Rp). assert (Scm : Forall scalar (fs ++ rs)) by (apply Forall_app; now split).
  assert (Nm : ns_norm m <> []) by (destruct Rp as (_ & X & _); rewrite X; destruct front; [congruence|discriminate]).
  assert (Tm : ns_norm m = front ++ ns_norm n) by (destruct Rp as (_ & X & _); now rewrite X, En).
  assert (Wm : wf m) by apply Rp. assert (Cm' : clean (ns_norm m)) by (rewrite Tm; now apply clean_app).
  exists m. destruct (finds_cuts p H (ns_norm m)) as (ms & Ems & Pm & Cm); [rewrite Em; now exists (fs ++ rs)|exact Nm|].
  assert (Spm : Forall (fun m => snd m = true -> zlen front <= fst (fst m)) ms).
  { apply (Sp (ns_norm n)); [exact C|exact Ne|]. rewrite <- Ems. f_equal. now rewrite Tm. }
  assert (Bf : bytes fs = zlen front) by (rewrite Ef; reflexivity). pose proof (bytes_nonneg rs) as Brs.
  assert (Lm : zlen (ns_norm m) = zlen front + bytes rs) by (rewrite Em; unfold bytes in *; rewrite encode_app, zlen_app; lia).
  assert (X : exists st, foldR (replace_step content) ms (m, 0) = Ok st).
  { destruct (skip_front content (ns_norm m) front ms) with (a := 0) (st := (m, 0)) as (ms' & P' & C' & ->).
    { rewrite Em, <- Bf. apply char_pos_boundary. apply char_pos_app. }
    { apply zlen_nonneg. } { exact Pm. } { lia. } { exact Cm. } { exact Spm. }
    exact (replace_fold content (ns_norm m) ms' fs rs front m 0 Scm Em ltac:(now rewrite Bf) C' Rp ltac:(lia)). }
  destruct X as (st & Est). exists (fst st). split; [exact E|]. split; [exact Tm|]. split; [exact Wm|]. unfold ns_replace. rewrite Ems. cbn [bind]. rewrite Est. cbn [bind]. split; [reflexivity|].
  exact (replace_sound content (ns_norm m) ms Cc 0 [] m 0 st Pm (Z.le_refl 0) Cm Cm' (conj Wm (conj Om Cm')) eq_refl clean_nil eq_refl Est).
Qed.
Lemma mark_returns front p content : clean front -> front <> [] -> local_change (OReplace p content) -> spares front p ->
  normalizer_returns (run_ops [OPrepend front; OReplace p content]).
Proof.
  intros Cf Nf L Sp orig n P U. pose proof P as (W & O & C & _). pose proof L as (H & Z & Cc). unfold run_ops. cbn [foldR run_op].
  destruct (ns_norm n) as [|b t] eqn:Eb.
  { unfold ns_prepend. rewrite Eb. change (runes []) with (@nil N). cbn [bind]. unfold ns_replace. rewrite Eb, Z. cbn. eauto. }
  rewrite <- Eb in C. destruct (mark_sound front p content n Cf Nf L Sp (conj W (conj O C)) U ltac:(congruence)) as (m & k & E & _ & _ & Ek & _). rewrite E. cbn [bind]. rewrite Ek. cbn [bind]. eauto.
Qed.

(** ** Sequences of changes *)
Lemma small_local o : small_change o -> local_change o.
Proof. destruct o; cbn; try contradiction; auto. Qed.
Lemma small_returns orig o n : small_change o -> in_place orig n -> exists m, run_op o n = Ok m.
Proof.
  intros L P. pose proof P as (W & O & C & S0 & S1). destruct (clean_valid_runes _ C) as (rs & Sc & NZ & En & Rn). destruct o; cbn [small_change run_op] in *; try contradiction.
  - destruct (prepend_ok s rs n W O En Sc) as (m' & E' & _); [|now exists m']. destruct NZ; cbn; [discriminate|assumption].
  - destruct (append_ok s rs n W O En Sc) as (m' & E' & _); [|now exists m'].
    destruct rs as [|a rs0]; [cbn; discriminate|]. rewrite Forall_forall in NZ. apply NZ. rewrite (app_removelast_last (l := a :: rs0) 1%N) at 2 by discriminate. apply in_or_app. right. now left.
  - eauto.
Qed.
Lemma smalls_return orig os : Forall small_change os -> forall n, in_place orig n -> exists m, run_ops os n = Ok m.
Proof.
  induction 1 as [|o os H F IH]; intros n P; [eexists; reflexivity|]. change (run_ops (o :: os) n) with (do k <- run_op o n; run_ops os k).
  destruct (small_returns orig o n H P) as (k & E). rewrite E. cbn [bind]. apply IH. eapply local_place; eauto using small_local.
Qed.
Lemma opening_returns o : opening o -> normalizer_returns (run_op o).
Proof.
  intros H orig n P U. destruct o; cbn [opening] in H; try (exact (small_returns orig _ n H P)).
  - exact (segments_return segs n orig H P U).
  - cbn [run_op]. unfold nfc. destruct (is_nfc (ns_norm n)); [eauto|]. exact (segments_return segs n orig H P U).
  - cbn [run_op]. destruct l, r; try discriminate H.
    + exact (strip_left_returns sp orig n P U).
    + exact (strip_right_returns sp orig n P U).
    + unfold lrstrip. cbn. eauto.
  - exact (replace_returns p content H orig n P U).
Qed.
Lemma opening_first o : opening o -> first_change o.
Proof. destruct o; cbn; auto; try contradiction. Qed.
Lemma returning_changes os : returning os -> changes_ok os.
Proof.
  intros [|o os' H F|front p content os' Cf Nf L Sp F]; cbn.
  - exact I.
  - split; [now apply opening_first|]. eapply Forall_impl; [|exact F]. apply small_local.
  - split; [exact Cf|]. constructor; [exact L|]. eapply Forall_impl; [|exact F]. apply small_local.
Qed.
Lemma returning_returns os : returning os -> normalizer_returns (run_ops os).
Proof.
  intros [|o os' H F|front p content os' Cf Nf L Sp F] orig n P U; [eexists; reflexivity| |].
  - change (run_ops (o :: os') n) with (do k <- run_op o n; run_ops os' k). destruct (opening_returns o H orig n P U) as (k & E). rewrite E. cbn [bind].
    apply (smalls_return orig os' F). eapply first_place; eauto using opening_first.
  - destruct (mark_returns front p content Cf Nf L Sp orig n P U) as (k & E).
    assert (Eq : run_ops (OPrepend front :: OReplace p content :: os') n = do k <- run_ops [OPrepend front; OReplace p content] n; run_ops os' k) by exact (foldR_app_list (fun n o => run_op o n) [OPrepend front; OReplace p content] os' n).
    rewrite Eq, E. cbn [bind]. apply (smalls_return orig os' F). eapply (changes_normalizer [OPrepend front; OReplace p content]); [|exact P|exact U|exact E].
    split; [exact Cf|]. constructor; [exact L|constructor].
Qed.

(** * Characters that the text in front does not have *)

Lemma fn_loop_starts f : forall l i prev has, Forall (fun m => snd m = true -> i <= fst (fst m)) (fst (fn_loop f l i prev has)).
Proof.
  induction l as [|[r w] l IH]; intros i prev has; cbn; [constructor|]. destruct (f r).
  - specialize (IH (i + Z.of_nat w) (i + zlen (encode_rune r)) false). destruct (fn_loop f l _ _ _) as [subs st]. cbn [fst] in *.
    apply Forall_app. split; [destruct has; constructor; [discriminate|constructor]|]. constructor; [cbn; lia|]. eapply Forall_impl; [|exact IH]. intros m H E. specialize (H E). lia.
  - eapply Forall_impl; [|apply IH]. intros m H E. specialize (H E). lia.
Qed.
Lemma fn_loop_skip f : forall a l i prev has, Forall (fun r => f r = false) a -> a <> [] ->
  fn_loop f (map (fun r => (r, length (encode_rune r))) a ++ l) i prev has = fn_loop f l (i + zlen (encode a)) prev true.
Proof.
  induction a as [|r a IH]; intros l i prev has F N; [congruence|]. apply Forall_cons_iff in F as [Fr F]. cbn [map app fn_loop]. rewrite Fr.
  assert (L : zlen (encode (r :: a)) = Z.of_nat (length (encode_rune r)) + zlen (encode a)) by (rewrite encode_cons; unfold zlen; rewrite app_length; lia).
  rewrite L. destruct a as [|r2 a].
  - cbn [map app]. f_equal. unfold zlen. cbn. lia.
  - rewrite IH by (auto; discriminate). f_equal. lia.
Qed.
Lemma spares_rune front r : clean front -> front <> [] -> ~ In r (runes front) -> spares front (PRune r).
Proof.
  intros (a & Sa & _ & ->) N H s ms (b & Sb & _ & ->) _ E. rewrite runes_encode in H by assumption. cbn in E. injection E as <-.
  unfold rune_matches, fn_matches. destruct (length (encode a ++ encode b) =? 0)%nat; [constructor; [discriminate|constructor]|].
  rewrite <- encode_app, runes_w_encode by (apply Forall_app; auto). rewrite map_app, fn_loop_skip; [|apply Forall_forall; intros x Hx; apply N.eqb_neq; intros ->; auto|intros ->; auto].
  pose proof (fn_loop_starts (fun c => (c =? r)%N) (map (fun r => (r, length (encode_rune r))) b) (0 + zlen (encode a)) 0 true) as F.
  destruct (fn_loop _ _ _ _ _) as [subs [prev has]]. cbn [fst] in F. apply Forall_app. split; [exact F|]. destruct has; constructor; [discriminate|constructor].
Qed.
