(** Proofs about Unicode normalization. *)
From Verif Require Import Base Utf8Model Utf8Proofs SliceModel SliceProofs PatternModel NormalizedModel NormalizedSpec
  NormalizedProofs NormalizedInvProofs NormalizedExactProofs NormalizedOpProofs ExpandedProofs PlacedNormProofs
  AddedVocabModel AddedVocabSpec PreTokenizedModel PreTokenizedSpec PipelineModel PipelineSpec PipelineProofs TokensSpec TokensProofs
  UnicodeNormModel UnicodeNormSpec.
Local Open Scope Z_scope.

(** ** Items in step with the text *)
Lemma aligns_inside rs : Forall (inside (bytes rs)) (aligns_from rs 0).
Proof.
  assert (G : forall rs p, 0 <= p -> Forall (inside (p + bytes rs)) (aligns_from rs p)).
  { clear. induction rs as [|r rs IH]; intros p Hp; [constructor|]. cbn [aligns_from]. rewrite bytes_cons.
    pose proof (zlen_rune r) as Hw. pose proof (bytes_nonneg rs) as Hb. apply Forall_app. split.
    - apply Forall_forall. intros q Hq. apply repeat_spec in Hq. subst q. unfold inside. cbn [fst snd]. unfold zlen in *. lia.
    - rewrite Z.add_assoc. apply (IH (p + zlen (encode_rune r))). lia. }
  exact (G rs 0 (Z.le_refl 0)).
Qed.
(** An item that removes nothing from the original succeeds. *)
Lemma t_item_easy al st s c align :
  item_align al (t_off st) c = Ok align -> inside (zlen (t_ao st)) align ->
  (let '(size, total, rs2) := item_sizes c (t_runes st) in
   (0 <? total) && (t_off st <? zlen al) = false \/
   exists p, zindex al (t_off st) = Ok p /\ zindex al (if zlen al <=? t_off st + total then zlen al - 1 else t_off st + total) = Ok p) ->
  exists st', t_item al st (s, c) = Ok st'.
Proof.
  intros Ha (I1 & I2 & I3) H. unfold t_item. fold (item_align al (t_off st) c). rewrite Ha. cbn [bind]. unfold item_sizes in H.
  destruct (if c <=? 0 then next_rune (t_runes st) else (0%N, t_runes st)) as [rc rs1].
  destruct (take_removed (Z.to_nat (- c)) rs1) as [total rs2].
  assert (Rf : exists x, (if (0 <? total) && (t_off st <? zlen al) then
              do p <- zindex al (t_off st);
              let end_idx := if zlen al <=? t_off st + total then zlen al - 1 else t_off st + total in
              do q <- zindex al end_idx;
              let rfo := Z.max 0 (snd q - snd p) in
              Ok (rfo, total - rfo)
            else Ok (0, 0)) = Ok (0, x)).
  { destruct H as [H|(p & E1 & E2)]; [rewrite H; eauto|]. destruct ((0 <? total) && (t_off st <? zlen al)); [|eauto].
    rewrite E1. cbn [bind]. cbn zeta. rewrite E2. cbn [bind]. rewrite Z.sub_diag. cbn. eauto. }
  destruct Rf as (x & Rf). cbn zeta in Rf |- *. rewrite Rf. cbn [bind]. rewrite zslice_eq by assumption. cbn [bind].
  destruct (match expand _ with None => _ | Some _ => _ end) as [ao1 cells1]. cbn [Z.ltb Z.compare bind]. eauto.
Qed.
Lemma loop_inserts al p : forall ss st st', foldR (t_item al) (map (fun s => (s, 1)) ss) st = Ok st' ->
  1 <= t_off st -> zindex al (t_off st - 1) = Ok p ->
  t_al st' = t_al st ++ repeat p (length (concat ss)) /\ t_off st' = t_off st /\ t_runes st' = t_runes st.
Proof.
  induction ss as [|s ss IH]; intros st st' E H P; cbn [map foldR] in E.
  - injection E as <-. cbn. rewrite app_nil_r. auto.
  - destruct (t_item al st (s, 1)) as [st1| | | |] eqn:E1; cbn [bind] in E; try discriminate E.
    apply t_item_spec in E1. destruct E1 as (align & Ha & Al & _ & Sz & _). cbn in Sz. destruct Sz as (R & O & _).
    unfold item_align in Ha. change (0 <? 1) with true in Ha. cbn iota in Ha. replace (t_off st <? 1) with false in Ha by lia.
    rewrite P in Ha. injection Ha as <-.
    assert (O' : t_off st1 = t_off st) by lia.
    destruct (IH st1 st' E) as (A2 & O2 & R2); [lia|now rewrite O'|].
    cbn [concat]. rewrite app_length, repeat_app, A2, Al, <- app_assoc. split; [reflexivity|]. split; congruence.
Qed.
Lemma insert_ok al p : forall ss st, Forall (inside (zlen al)) al -> Forall (fun r => r <> 0%N) (t_runes st) -> tinv (length al) st ->
  1 <= t_off st -> t_off st + bytes (t_runes st) <= zlen al -> zindex al (t_off st - 1) = Ok p ->
  exists st', foldR (t_item al) (map (fun s => (s, 1)) ss) st = Ok st' /\ tinv (length al) st'.
Proof.
  induction ss as [|s ss IH]; intros st Fi NZ Ti Ho Hb P; [exists st; auto|]. cbn [map foldR].
  destruct (t_item_ok al st s 1 (zlen al) Fi) as (st1 & E); [unfold zlen; now rewrite (proj1 Ti)|lia|pose proof (zlen_nonneg (t_runes st)); exact H|exact NZ|exact Hb|].
  rewrite E. cbn [bind].
  pose proof E as E'. apply t_item_spec in E'. destruct E' as (align & _ & _ & _ & Sz & _ & _ & Tk). cbn in Sz. destruct Sz as (R & O & _).
  assert (O' : t_off st1 = t_off st) by lia. apply IH; auto; rewrite ?R, ?O'; auto.
Qed.

(** Segment [k] gets character [k], those behind the last character get the last one. *)
Fixpoint seg_al (cs : list N) (l : list (list N)) (pos : Z) (q : Z * Z) : list (Z * Z) :=
  match l with
  | [] => []
  | s :: l' =>
      match cs with
      | [] => repeat q (length (encode s)) ++ seg_al [] l' pos q
      | c :: cs' => let w := zlen (encode_rune c) in
                    repeat (pos, pos + w) (length (encode s)) ++ seg_al cs' l' (pos + w) (pos, pos + w)
      end
  end.

Lemma head_step al st s dn q : al <> [] -> Forall (inside (zlen al)) al -> Forall (fun r => r <> 0%N) (t_runes st) -> tinv (length al) st ->
  al = aligns_from (dn ++ t_runes st) 0 -> t_off st = bytes dn -> (t_runes st = [] -> zindex al (bytes dn - 1) = Ok q) ->
  exists st', t_item al st (s, 0) = Ok st' /\ tinv (length al) st' /\
    match t_runes st with
    | [] => t_runes st' = [] /\ t_off st' = t_off st /\ t_al st' = t_al st ++ repeat q (length s)
    | c :: rs => t_runes st' = rs /\ t_off st' = bytes dn + zlen (encode_rune c) /\
        t_al st' = t_al st ++ repeat (bytes dn, bytes dn + zlen (encode_rune c)) (length s)
    end.
Proof.
  intros Ne Fi NZ Ti Hal Off Hq.
  assert (La : zlen (t_ao st) = zlen al) by (unfold zlen; now rewrite (proj1 Ti)).
  assert (Hz : 0 < zlen al) by (destruct al; [congruence|unfold zlen; cbn; lia]).
  assert (Hb : zlen al = bytes dn + bytes (t_runes st)) by (rewrite Hal at 1; now rewrite zlen_aligns, bytes_app).
  pose proof (bytes_nonneg dn) as Hd.
  destruct (t_runes st) as [|r rs] eqn:Er.
  - change (bytes []) with 0 in Hb. assert (Eb : bytes dn = zlen al) by lia. rewrite Eb in Hq.
    assert (Al : item_align al (t_off st) 0 = Ok q).
    { unfold item_align. change (0 <? 0) with false. cbn iota. replace (zlen al <=? t_off st) with true by lia. now apply Hq. }
    destruct (t_item_easy al st s 0 q Al) as (st' & E).
    { rewrite La. rewrite Forall_forall in Fi. apply Fi.
      destruct (zindex_eq al (zlen al - 1)) as (q' & Eq & Nq); [lia|]. rewrite Hq in Eq by reflexivity. injection Eq as <-. eapply nth_error_In, Nq. }
    { rewrite Er. left. reflexivity. }
    exists st'. split; [exact E|]. apply t_item_spec in E. destruct E as (align & Ha & Hal' & _ & Sz & _ & _ & Tk).
    rewrite Er in Sz. cbn in Sz. destruct Sz as (R & O & _). split; [auto|]. rewrite Al in Ha. injection Ha as <-.
    split; [exact R|]. split; [lia|exact Hal'].
  - apply Forall_cons_iff in NZ as NZ2. destruct NZ2 as [Hr NZ']. assert (Enz : (r =? 0)%N = false) by now apply N.eqb_neq.
    pose proof (zlen_rune r) as Hw. pose proof (bytes_nonneg rs) as Hbr. rewrite bytes_cons in Hb.
    destruct (t_item_ok al st s 0 (zlen al) Fi La) as (st' & E); [lia| | | |].
    + change (0 <? 0) with false. cbn iota. rewrite Er. unfold zlen. cbn [length]. lia.
    + now rewrite Er.
    + rewrite Er, bytes_cons. lia.
    + exists st'. split; [exact E|]. apply t_item_spec in E. destruct E as (align & Ha & Hal' & _ & Sz & _ & _ & Tk).
      rewrite Er in Sz. unfold item_sizes in Sz. cbn [Z.leb Z.compare next_rune] in Sz.
      change (Z.to_nat (- 0)) with O in Sz. cbn [take_removed] in Sz. rewrite Enz in Sz. destruct Sz as (R & O & _).
      split; [auto|]. split; [exact R|]. split; [lia|]. rewrite Hal'. do 2 f_equal.
      unfold item_align in Ha. change (0 <? 0) with false in Ha. cbn iota in Ha. replace (zlen al <=? t_off st) with false in Ha by lia.
      set (w := length (encode_rune r)) in *. assert (Hwz : zlen (encode_rune r) = Z.of_nat w) by reflexivity.
      assert (Hal2 : al = aligns_from dn 0 ++ repeat (bytes dn, bytes dn + Z.of_nat w) w ++ aligns_from rs (bytes dn + Z.of_nat w)).
      { rewrite Hal, aligns_from_app. cbn [aligns_from]. fold w. now rewrite Z.add_0_l. }
      rewrite Hal2, Off, zindex_mid in Ha; [|rewrite zlen_aligns; lia]. injection Ha as <-. now rewrite Hwz.
Qed.

Lemma last_cell dn c rs : zindex (aligns_from ((dn ++ [c]) ++ rs) 0) (bytes (dn ++ [c]) - 1) = Ok (bytes dn, bytes dn + zlen (encode_rune c)).
Proof.
  rewrite <- app_assoc, aligns_from_app. cbn [app aligns_from]. rewrite Z.add_0_l. pose proof (zlen_rune c) as Hw.
  rewrite bytes_app, bytes_cons. change (bytes []) with 0. unfold zlen in *. rewrite zindex_mid; [reflexivity|]. fold (zlen (aligns_from dn 0)). rewrite zlen_aligns. lia.
Qed.

Lemma segments_loop al l : al <> [] -> Forall (inside (zlen al)) al -> Forall (fun g => g <> []) l -> forall dn st q,
  Forall (fun r => r <> 0%N) (t_runes st) -> tinv (length al) st ->
  al = aligns_from (dn ++ t_runes st) 0 -> t_off st = bytes dn -> (dn <> [] -> zindex al (bytes dn - 1) = Ok q) ->
  exists st', foldR (t_item al) (flat_map segment_items l) st = Ok st' /\ t_al st' = t_al st ++ seg_al (t_runes st) l (bytes dn) q.
Proof.
  intros Ne Fi. induction 1 as [|g l Hg F IH]; intros dn st q NZ Ti Hal Off Hq; [exists st; rewrite app_nil_r; auto|].
  destruct g as [|r0 rs0]; [congruence|]. cbn [flat_map segment_items app foldR].
  assert (Hdn : t_runes st = [] -> dn <> []).
  { intros E ->. rewrite E in Hal. cbn in Hal. contradiction. }
  destruct (head_step al st (encode_rune r0) dn q Ne Fi NZ Ti Hal Off) as (st1 & E1 & T1 & H1); [auto|].
  rewrite E1. cbn [bind]. rewrite foldR_app_list.
  assert (St1 : exists dn1 q1, al = aligns_from (dn1 ++ t_runes st1) 0 /\ t_off st1 = bytes dn1 /\ dn1 <> [] /\ zindex al (bytes dn1 - 1) = Ok q1 /\ 1 <= bytes dn1 /\
     Forall (fun r => r <> 0%N) (t_runes st1) /\ t_al st1 = t_al st ++ repeat q1 (length (encode_rune r0)) /\
     forall l', seg_al (t_runes st) ((r0 :: rs0) :: l') (bytes dn) q = repeat q1 (length (encode (r0 :: rs0))) ++ seg_al (t_runes st1) l' (bytes dn1) q1).
  { assert (Pos : forall d, d <> [] -> 1 <= bytes d).
    { intros [|x d] Hd; [congruence|]. rewrite bytes_cons. pose proof (zlen_rune x). pose proof (bytes_nonneg d). lia. }
    destruct (t_runes st) as [|c rs] eqn:Er.
    - destruct H1 as (R & O & A). specialize (Hdn eq_refl). exists dn, q. rewrite R, O. do 5 (split; [auto|]). split; [constructor|]. split; [exact A|reflexivity].
    - destruct H1 as (R & O & A). exists (dn ++ [c]), (bytes dn, bytes dn + zlen (encode_rune c)). rewrite R, <- app_assoc.
      assert (Nd : dn ++ [c] <> []) by (intros X; now apply app_eq_nil in X).
      assert (Eb : bytes (dn ++ [c]) = bytes dn + zlen (encode_rune c)) by (rewrite bytes_app, bytes_cons; change (bytes []) with 0; lia).
      split; [exact Hal|]. split; [lia|]. split; [exact Nd|]. split; [|split; [auto|]].
      + rewrite Hal. change (c :: rs) with ([c] ++ rs). rewrite app_assoc. apply last_cell.
      + apply Forall_cons_iff in NZ. split; [tauto|]. split; [exact A|]. intros l'. cbn [seg_al]. rewrite Eb. reflexivity. }
  destruct St1 as (dn1 & q1 & Hal1 & Off1 & Nd1 & Hq1 & Hp1 & NZ1 & A1 & Sg).
  assert (Hb1 : t_off st1 + bytes (t_runes st1) <= zlen al).
  { rewrite Hal1, zlen_aligns, bytes_app. lia. }
  replace (map (fun c : N => (encode_rune c, 1)) rs0) with (map (fun s => (s, 1)) (map encode_rune rs0)) by apply map_map.
  destruct (insert_ok al q1 (map encode_rune rs0) st1 Fi NZ1 T1) as (st2 & E2 & T2); [lia|exact Hb1|now rewrite Off1|].
  destruct (loop_inserts al q1 _ st1 st2 E2) as (A2 & O2 & R2); [lia|now rewrite Off1|].
  rewrite E2. cbn [bind].
  destruct (IH dn1 st2 q1) as (st3 & E3 & A3); rewrite ?R2, ?O2; auto.
  exists st3. split; [exact E3|]. rewrite A3, A2, A1, Sg, R2, <- !app_assoc. f_equal.
  rewrite encode_cons, app_length, repeat_app, <- app_assoc. reflexivity.
Qed.

Lemma groups_text l : items_text (flat_map segment_items l) = encode (concat l).
Proof. induction l as [|g l IH]; [reflexivity|]. cbn [flat_map concat]. now rewrite items_text_app, segment_text, IH, encode_app. Qed.

Lemma seg_al_first cs l p q q' : cs <> [] -> seg_al cs l p q = seg_al cs l p q'.
Proof. destruct cs; [congruence|]. destruct l; reflexivity. Qed.

(** The whole transformation of a fresh text, from that of the items. *)
Lemma transform_items cs items : plain cs -> cs <> [] ->
  (forall al st, al = aligns_from cs 0 -> al <> [] -> Forall (inside (zlen al)) al -> tinv (length al) st -> t_runes st = cs -> t_off st = 0 -> t_al st = [] ->
     exists st', foldR (t_item al) items st = Ok st') ->
  exists n' st st', transform (new_ns (encode cs)) items 0 = Ok n' /\ tinv (length (aligns_from cs 0)) st /\ t_runes st = cs /\ t_off st = 0 /\ t_al st = [] /\
    foldR (t_item (aligns_from cs 0)) items st = Ok st' /\ ns_al n' = t_al st'.
Proof.
  intros [Sc NZ] Ncs Loop. assert (V : valid_utf8 (encode cs)) by (exists cs; auto).
  unfold transform, transform_range.
  destruct (target_fresh (encode cs) V) as (on & T). change (zlen (encode cs)) with (zlen (ns_orig (new_ns (encode cs)))) in T at 1.
  fold (target (new_ns (encode cs)) (Rng 0 (zlen (ns_orig (new_ns (encode cs)))) OnOriginal)). rewrite T.
  cbn [bind r_start r_end]. cbn zeta.
  assert (La : zlen (ns_al (new_ns (encode cs))) = zlen (encode cs)).
  { cbn. unfold create_aligns. rewrite zlen_aligns. unfold bytes. now rewrite valid_utf8_runes. }
  rewrite La, Z.ltb_irrefl. cbn [new_ns ns_norm]. pose proof (zlen_nonneg (encode cs)) as Hz.
  rewrite zslice_eq by lia. cbn [bind].
  assert (Hp : part 0 (zlen (encode cs)) (encode cs) = encode cs).
  { unfold part. cbn [Z.to_nat skipn]. rewrite Z.sub_0_r. unfold zlen. rewrite Nat2Z.id. apply firstn_all. }
  rewrite Hp, runes_encode by assumption.
  replace (zlen cs <? 0) with false by (pose proof (zlen_nonneg cs); lia).
  cbn [Z.to_nat firstn clear_chars bind fold_right].
  assert (Ca : ns_al (new_ns (encode cs)) = aligns_from cs 0) by (cbn; unfold create_aligns; now rewrite runes_encode).
  match goal with |- context [foldR _ _ ?st0] => set (st := st0) end.
  assert (Ti : tinv (length (aligns_from cs 0)) st).
  { destruct (new_ns_wf _ V) as (W1 & _ & W3 & W4). rewrite <- Ca. cbn [new_ns ns_al ns_ao ns_cells ns_orig ns_norm] in *. split; [cbn [t_ao]; unfold st; cbn [t_ao new_ns ns_ao]; congruence|exact W4]. }
  destruct (Loop (ns_al (new_ns (encode cs))) st) as (st' & E); try reflexivity; auto.
  - rewrite Ca. destruct cs as [|c0 cs0]; [congruence|]. destruct (aligns_nonempty c0 cs0 0) as (q & l' & Eq & _). rewrite Eq. discriminate.
  - rewrite La, Ca. apply aligns_inside.
  - now rewrite Ca.
  - cbn [new_ns ns_al] in E. fold st. cbn [new_ns ns_al ns_orig].
    match goal with |- context [foldR ?f ?l ?st0] => replace (foldR f l st0) with (Ok st') by (symmetry; exact E) end. cbn [bind].
    assert (Es : exists x, end_shift (create_aligns (encode cs)) (zlen (encode cs)) (t_shift st') (t_ao st') (t_cells st') = Ok x).
    { cbn [new_ns ns_al] in La. unfold end_shift. destruct (t_shift st' =? 0); [eauto|]. rewrite La, zslice_eq by lia. cbn [bind].
      unfold part. rewrite Z.sub_diag. cbn [Z.to_nat firstn expand]. eauto. }
    destruct Es as ([ao' cells'] & Es). rewrite Es. cbn [bind]. eexists _, st, st'. split; [reflexivity|]. split; [exact Ti|].
    do 3 (split; [reflexivity|]). split; [rewrite <- Ca; exact E|]. cbn [ns_al app]. cbn [new_ns ns_al] in La.
    rewrite skipn_all2; [now rewrite app_nil_r|]. rewrite <- La. unfold zlen. rewrite Nat2Z.id. lia.
Qed.

Lemma segments_exact cs l : plain cs -> (cs = [] -> l = []) -> Forall (fun g => g <> [] /\ Forall scalar g) l ->
  exists n', transform (new_ns (encode cs)) (flat_map segment_items l) 0 = Ok n' /\
    ns_orig n' = encode cs /\ ns_norm n' = encode (concat l) /\ ns_al n' = seg_al cs l 0 (0, 0).
Proof.
  intros P Hcs Fl. assert (V : valid_utf8 (encode cs)) by (destruct P; exists cs; auto).
  assert (Fn : Forall (fun g => g <> []) l) by (eapply Forall_impl; [|exact Fl]; cbn; tauto).
  assert (X : exists n', transform (new_ns (encode cs)) (flat_map segment_items l) 0 = Ok n' /\ ns_al n' = seg_al cs l 0 (0, 0)).
  { destruct cs as [|c cs]; [rewrite (Hcs eq_refl); eexists; split; reflexivity|].
    destruct (transform_items (c :: cs) (flat_map segment_items l) P) as (n' & st & st' & E & Ti & R & O & A & El & Ea); [discriminate| |].
    - intros al st Hal Ne Fi Ti R O A. destruct (segments_loop al l Ne Fi Fn [] st (0, 0)) as (st' & E & _); rewrite ?R; auto; [apply P|congruence|eauto].
    - exists n'. split; [exact E|]. rewrite Ea. destruct (segments_loop (aligns_from (c :: cs) 0) l) with (dn := @nil N) (st := st) (q := (0, 0)) as (st2 & E2 & A2); rewrite ?R; auto.
      + destruct (aligns_nonempty c cs 0) as (q & l' & Eq & _). rewrite Eq. discriminate.
      + rewrite zlen_aligns. apply aligns_inside.
      + apply P.
      + congruence.
      + rewrite El in E2. injection E2 as <-. rewrite A2, A, R. reflexivity. }
  destruct X as (n' & E & Ea). exists n'. split; [exact E|].
  assert (Vi : valid_items (flat_map segment_items l)) by (apply valid_flat_map; apply valid_segment_items).
  destruct (transform_fresh_text _ _ _ _ V Vi E) as [T1 T2]. split; [exact T2|]. split; [rewrite T1; apply groups_text|exact Ea].
Qed.

Lemma forall2_repeat {A B} (R : A -> B -> Prop) a b : forall n, (0 < n)%nat -> forall l l',
  Forall2 R (repeat a n ++ l) (repeat b n ++ l') <-> R a b /\ Forall2 R l l'.
Proof.
  induction n as [|n IH]; [lia|]. intros _ l l'. cbn [repeat app]. destruct n as [|n].
  - cbn [repeat app]. split; [intros H; inversion H; auto|intros [? ?]; now constructor].
  - specialize (IH ltac:(lia) l l'). split.
    + intros H. inversion H as [|x y u v Hx Hu]; subst. split; [exact Hx|]. now apply IH.
    + intros [H1 H2]. constructor; [exact H1|]. now apply IH.
Qed.
Lemma encode_pos g : g <> [] -> (0 < length (encode g))%nat.
Proof. destruct g as [|r g]; [congruence|]. intros _. rewrite encode_cons, app_length. pose proof (zlen_rune r). unfold zlen in *. lia. Qed.
Lemma seg_al_length l : forall cs p q, length (seg_al cs l p q) = length (encode (concat l)).
Proof.
  induction l as [|s l IH]; intros cs p q; [reflexivity|]. cbn [seg_al concat]. rewrite encode_app, app_length.
  destruct cs; rewrite app_length, repeat_length, IH; reflexivity.
Qed.
Lemma seg_al_app a : forall b l1 l2 p q, length a = length l1 -> b <> [] ->
  seg_al (a ++ b) (l1 ++ l2) p q = seg_al a l1 p q ++ seg_al b l2 (p + bytes a) (0, 0).
Proof.
  induction a as [|c a IH]; intros b l1 l2 p q H Hb; destruct l1 as [|s l1]; try discriminate H.
  - cbn. change (bytes []) with 0. rewrite Z.add_0_r. now apply seg_al_first.
  - cbn [app seg_al]. rewrite bytes_cons, IH, app_assoc by (auto; cbn in H; lia). do 2 f_equal. lia.
Qed.
Lemma seg_al_within l : forall cs p q, (cs = [] -> True) -> forall lo, lo <= p -> (cs <> [] \/ lo <= fst q /\ snd q <= p + bytes cs) ->
  Forall (fun v => within v (lo, p + bytes cs)) (seg_al cs l p q).
Proof.
  induction l as [|s l IH]; intros cs p q _ lo Hlo H; [constructor|]. cbn [seg_al]. destruct cs as [|c cs].
  - destruct H as [H|H]; [congruence|]. apply Forall_app. split; [|apply IH; auto].
    apply Forall_forall. intros v Hv. apply repeat_spec in Hv. subst v. exact H.
  - rewrite bytes_cons. pose proof (zlen_rune c) as Hw. pose proof (bytes_nonneg cs) as Hb. apply Forall_app. split.
    + apply Forall_forall. intros v Hv. apply repeat_spec in Hv. subst v. unfold within. cbn [fst snd]. lia.
    + rewrite Z.add_assoc. apply IH; [auto|lia|right; cbn [fst snd]; lia].
Qed.
Lemma forall2_const {A B} (R : A -> B -> Prop) b l : Forall2 R l (repeat b (length l)) <-> Forall (fun a => R a b) l.
Proof.
  induction l as [|a l IH]; cbn; [split; constructor|]. split; intros H; inversion H; subst; constructor; auto; now apply IH.
Qed.
Lemma forall2_app {A B} (R : A -> B -> Prop) a : forall b c d, length a = length c -> Forall2 R (a ++ b) (c ++ d) <-> Forall2 R a c /\ Forall2 R b d.
Proof.
  induction a as [|x a IH]; intros b c d H; destruct c as [|y c]; try discriminate H; cbn [app].
  - split; [intros; split; [constructor|assumption]|tauto].
  - cbn in H. injection H as H. split.
    + intros X. inversion X; subst. apply IH in H5; [|exact H]. split; [constructor; tauto|tauto].
    + intros [X Y]. inversion X; subst. constructor; [assumption|]. apply IH; auto.
Qed.
Lemma cut_at {A} (l : list A) n : (n < length l)%nat -> exists a x b, l = a ++ x :: b /\ length a = n.
Proof.
  intros H. exists (firstn n l). destruct (skipn n l) as [|x b] eqn:E.
  - apply (f_equal (@length A)) in E. rewrite skipn_length in E. cbn in E. lia.
  - exists x, b. rewrite <- E, firstn_skipn. split; [reflexivity|]. apply firstn_length_le. lia.
Qed.
Lemma source_cons g gs : source (g :: gs) = fst g ++ source gs.
Proof. reflexivity. Qed.
Lemma segments_cons g gs : segments (g :: gs) = snd g ++ segments gs.
Proof. reflexivity. Qed.
Lemma source_nonempty gs : groups_ok gs -> gs <> [] -> source gs <> [].
Proof.
  intros G H. destruct gs as [|g gs]; [congruence|]. inversion G as [|? ? (X & _)]; subst. rewrite source_cons. destruct (fst g); [congruence|discriminate].
Qed.
Lemma groups_segments gs : groups_ok gs -> Forall (fun g => g <> [] /\ Forall scalar g) (segments gs).
Proof. induction 1 as [|g gs (_ & _ & H) F IH]; [constructor|]. rewrite segments_cons. apply Forall_app. auto. Qed.

Lemma alignment_iff gs : groups_ok gs -> forall p q,
  Forall2 within (seg_al (source gs) (segments gs) p q) (owners gs p) <->
  Forall (fun g => length (fst g) = length (snd g)) (removelast gs).
Proof.
  induction gs as [|g gs IH]; intros G p q.
  - cbn. split; constructor.
  - inversion G as [|g' gs' (G1 & G2 & G3) G']; subst g' gs'. specialize (IH G'). destruct g as [src segs]. cbn [fst snd] in *.
    rewrite source_cons, segments_cons. cbn [fst snd owners]. change (zlen (encode src)) with (bytes src).
    destruct gs as [|g2 gs2].
    + cbn [removelast owners]. split; [constructor|]. intros _. unfold source, segments. cbn [map concat]. rewrite !app_nil_r.
      rewrite <- (seg_al_length segs src p q). apply forall2_const. apply seg_al_within; auto. lia.
    + change (removelast ((src, segs) :: g2 :: gs2)) with ((src, segs) :: removelast (g2 :: gs2)).
      set (gs := g2 :: gs2) in *. assert (Sn : source gs <> []) by (apply source_nonempty; [exact G'|discriminate]).
      destruct (Nat.lt_trichotomy (length segs) (length src)) as [H|[H|H]].
      * split; [|intros X; apply Forall_inv in X; cbn in X; lia]. intros X. exfalso.
        destruct (cut_at src _ H) as (s1 & c & s2 & E & L1). rewrite E, <- app_assoc, seg_al_app in X by (auto; discriminate).
        apply forall2_app in X; [|now rewrite seg_al_length, repeat_length]. destruct X as [_ X].
        inversion G' as [|g3 gs3 (K1 & K2 & K3) _]; subst g3 gs3. unfold gs in X. rewrite segments_cons in X.
        destruct g2 as [src2 segs2]. cbn [fst snd] in *. destruct segs2 as [|t segs2]; [congruence|]. apply Forall_inv in K3.
        cbn [app seg_al owners fst snd concat] in X. rewrite encode_app, app_length, repeat_app, <- app_assoc in X.
        apply forall2_repeat in X; [|apply encode_pos; tauto]. destruct X as [[X _] _]. cbn [fst snd] in X.
        rewrite bytes_app, bytes_cons in X. pose proof (zlen_rune c). pose proof (bytes_nonneg s2). lia.
      * rewrite seg_al_app by auto. rewrite forall2_app by now rewrite seg_al_length, repeat_length. rewrite IH.
        assert (X : Forall2 within (seg_al src segs p q) (repeat (p, p + bytes src) (length (encode (concat segs))))).
        { rewrite <- (seg_al_length segs src p q). apply forall2_const. apply seg_al_within; auto. lia. }
        rewrite Forall_cons_iff. cbn [fst snd]. split; intros [? ?]; auto.
      * split; [|intros X; apply Forall_inv in X; cbn in X; lia]. intros X. exfalso.
        destruct (cut_at segs _ H) as (s1 & t & s2 & E & L1). rewrite E in X at 1. rewrite <- app_assoc, seg_al_app in X by auto.
        rewrite E, concat_app, encode_app, app_length, repeat_app, <- app_assoc in X.
        apply forall2_app in X; [|now rewrite seg_al_length, repeat_length]. destruct X as [_ X].
        destruct (source gs) as [|c rest]; [congruence|]. cbn [app seg_al concat] in X. rewrite encode_app, app_length, repeat_app, <- app_assoc in X.
        apply forall2_repeat in X; [|apply encode_pos; rewrite E in G3; apply Forall_app in G3; destruct G3 as [_ G3]; apply Forall_inv in G3; tauto].
        destruct X as [[_ X] _]. cbn [fst snd] in X. pose proof (zlen_rune c). lia.
Qed.

(** ** NFKC: a segment of several characters takes two from the text *)
Definition compat_item (seg : list N) : list (str * Z) :=
  match seg with [] => [] | [r] => [(encode_rune r, 0)] | _ => [(encode seg, -1)] end.
(** In step with the text, or past its end. *)
Definition in_step (al : list (Z * Z)) (st : tstate) : Prop :=
  tinv (length al) st /\
  ((exists dn, al = aligns_from (dn ++ t_runes st) 0 /\ t_off st = bytes dn) \/ (t_runes st = [] /\ zlen al <= t_off st)).

Lemma compat_step al st s c : al <> [] -> c = 0 \/ c = -1 -> Forall (inside (zlen al)) al ->
  Forall (fun r => r <> 0%N) (t_runes st) -> in_step al st ->
  exists st', t_item al st (s, c) = Ok st' /\ in_step al st' /\ Forall (fun r => r <> 0%N) (t_runes st').
Proof.
  intros Ne Hc Fi NZ [Ti H].
  assert (La : zlen (t_ao st) = zlen al) by (unfold zlen; now rewrite (proj1 Ti)).
  assert (Hz : 0 < zlen al) by (destruct al; [congruence|unfold zlen; cbn; lia]).
  assert (Fwd : forall st', t_item al st (s, c) = Ok st' ->
    let '(size, total, rs2) := item_sizes c (t_runes st) in
    tinv (length al) st' /\ t_runes st' = rs2 /\ t_off st' = t_off st + size + total).
  { intros st' E. apply t_item_spec in E. destruct E as (align & _ & _ & _ & Sz & _ & _ & Tk).
    destruct (item_sizes c (t_runes st)) as [[size total] rs2]. destruct Sz as (R & O & _). auto. }
  assert (Bytes : forall dn, al = aligns_from (dn ++ t_runes st) 0 -> zlen al = bytes dn + bytes (t_runes st)).
  { intros dn ->. now rewrite zlen_aligns, bytes_app. }
  assert (Past : t_runes st = [] -> zlen al <= t_off st ->
    exists st', t_item al st (s, c) = Ok st' /\ in_step al st' /\ Forall (fun r => r <> 0%N) (t_runes st')).
  { intros Hr Hoff.
    destruct (zindex_eq al (zlen al - 1)) as (q & Eq & Nq); [lia|].
    assert (Ia : inside (zlen (t_ao st)) q) by (rewrite La; rewrite Forall_forall in Fi; apply Fi; eapply nth_error_In, Nq).
    assert (Al : item_align al (t_off st) c = Ok q).
    { unfold item_align. replace (0 <? c) with false by lia. replace (zlen al <=? t_off st) with true by lia. exact Eq. }
    destruct (t_item_easy al st s c q Al Ia) as (st' & E).
    { destruct (item_sizes c (t_runes st)) as [[size total] rs2]. left. replace (t_off st <? zlen al) with false by lia. apply andb_false_r. }
    exists st'. split; [exact E|]. specialize (Fwd st' E). rewrite Hr in Fwd.
    destruct Hc; subst c; cbn in Fwd; destruct Fwd as (F1 & F2 & F3); (split; [split; [exact F1|right; split; [exact F2|pose proof (zlen_nonneg (encode_rune 0)); lia]]|rewrite F2; apply Forall_nil]). }
  destruct H as [(dn & Hal & Off)|[Hr Hoff]]; [|now apply Past].
  pose proof (Bytes dn Hal) as Hb. pose proof (bytes_nonneg dn) as Hd.
  destruct (t_runes st) as [|r rs] eqn:Er.
  - apply Past; [reflexivity|]. change (bytes []) with 0 in Hb. lia.
  - pose proof (zlen_rune r) as Hw. apply Forall_cons_iff in NZ; destruct NZ as [Hr NZ']. assert (Enz : (r =? 0)%N = false) by now apply N.eqb_neq.
    pose proof (bytes_nonneg rs) as Hbr. rewrite bytes_cons in Hb.
    destruct Hc as [->| ->].
    + destruct (t_item_ok al st s 0 (zlen al) Fi La) as (st' & E); [lia| | | |].
      * change (0 <? 0) with false. cbn iota. rewrite Er. unfold zlen. cbn [length]. lia.
      * rewrite Er; repeat (apply Forall_cons; [assumption|]); assumption.
      * rewrite Er, bytes_cons. lia.
      * exists st'. split; [exact E|]. specialize (Fwd st' E). unfold item_sizes in Fwd. cbn [Z.leb Z.compare next_rune] in Fwd.
        change (Z.to_nat (- 0)) with O in Fwd. cbn [take_removed] in Fwd. rewrite Enz in Fwd. destruct Fwd as (F1 & F2 & F3). rewrite F2. split; [|exact NZ'].
        split; [exact F1|]. left. exists (dn ++ [r]). rewrite F2, <- app_assoc. split; [exact Hal|]. rewrite bytes_app, bytes_cons. change (bytes []) with 0. lia.
    + destruct rs as [|r2 rs].
      * set (w := length (encode_rune r)) in *. assert (Hwz : zlen (encode_rune r) = Z.of_nat w) by reflexivity.
        assert (Hal' : al = aligns_from dn 0 ++ repeat (bytes dn, bytes dn + Z.of_nat w) w ++ []).
        { rewrite Hal, aligns_from_app. cbn [aligns_from]. fold w. now rewrite Z.add_0_l. }
        assert (Zi : forall i, bytes dn <= i < bytes dn + Z.of_nat w -> zindex al i = Ok (bytes dn, bytes dn + Z.of_nat w)).
        { intros i Hi. rewrite Hal'. apply zindex_mid. rewrite zlen_aligns. exact Hi. }
        change (bytes []) with 0 in Hb.
        destruct (t_item_easy al st s (-1) (bytes dn, bytes dn + Z.of_nat w)) as (st' & E).
        -- unfold item_align. change (0 <? -1) with false. cbn iota. replace (zlen al <=? t_off st) with false by lia. apply Zi. lia.
        -- rewrite La. unfold inside. cbn [fst snd]. lia.
        -- rewrite Er. cbn [item_sizes Z.leb Z.compare next_rune take_removed]. change (Z.to_nat (- -1)) with 1%nat. cbn [take_removed next_rune].
           right. exists (bytes dn, bytes dn + Z.of_nat w). split; [apply Zi; lia|]. apply Zi. change (zlen (encode_rune 0)) with 1.
           destruct (zlen al <=? t_off st + (1 + 0)) eqn:El; lia.
        -- exists st'. split; [exact E|]. specialize (Fwd st' E). unfold item_sizes in Fwd. cbn [Z.leb Z.compare next_rune] in Fwd.
           change (Z.to_nat (- -1)) with 1%nat in Fwd. cbn [take_removed next_rune] in Fwd. rewrite Enz in Fwd. destruct Fwd as (F1 & F2 & F3). rewrite F2.
           split; [|constructor]. split; [exact F1|]. right. split; [exact F2|]. change (zlen (encode_rune 0)) with 1 in F3. lia.
      * apply Forall_cons_iff in NZ'; destruct NZ' as [Hr2 NZ2]. rewrite bytes_cons in Hb, Hbr.
        destruct (t_item_ok al st s (-1) (zlen al) Fi La) as (st' & E); [lia| | | |].
        -- change (0 <? -1) with false. cbn iota. rewrite Er. unfold zlen. cbn [length]. lia.
        -- rewrite Er; repeat (apply Forall_cons; [assumption|]); assumption.
        -- rewrite Er, !bytes_cons. lia.
        -- exists st'. split; [exact E|]. specialize (Fwd st' E). unfold item_sizes in Fwd. cbn [Z.leb Z.compare next_rune] in Fwd.
           change (Z.to_nat (- -1)) with 1%nat in Fwd. cbn [take_removed next_rune] in Fwd. rewrite Enz in Fwd. destruct Fwd as (F1 & F2 & F3). rewrite F2. split; [|exact NZ2].
           split; [exact F1|]. left. exists (dn ++ [r; r2]). rewrite F2, <- app_assoc. split; [exact Hal|]. rewrite bytes_app, !bytes_cons. change (bytes []) with 0. lia.
Qed.
Lemma compat_loop al l : al <> [] -> Forall (inside (zlen al)) al -> forall st,
  Forall (fun r => r <> 0%N) (t_runes st) -> in_step al st -> exists st', foldR (t_item al) (flat_map compat_item l) st = Ok st' /\ in_step al st'.
Proof.
  intros Ne Fi. induction l as [|g l IH]; intros st NZ H; [exists st; auto|]. cbn [flat_map]. rewrite foldR_app_list.
  destruct g as [|r [|r2 g]]; cbn [compat_item foldR bind]; [auto| |].
  - destruct (compat_step al st (encode_rune r) 0 Ne (or_introl eq_refl) Fi NZ H) as (st1 & E & H1 & NZ1). rewrite E. cbn [bind]. auto.
  - destruct (compat_step al st (encode (r :: r2 :: g)) (-1) Ne (or_intror eq_refl) Fi NZ H) as (st1 & E & H1 & NZ1). rewrite E. cbn [bind]. auto.
Qed.
Lemma compat_text l : items_text (flat_map compat_item l) = encode (concat l).
Proof.
  induction l as [|g l IH]; [reflexivity|]. cbn [flat_map concat]. rewrite items_text_app, IH, encode_app. f_equal.
  destruct g as [|r [|r2 g]]; [reflexivity| |]; unfold items_text; cbn [compat_item map concat fst]; rewrite app_nil_r; [|reflexivity].
  now rewrite encode_cons, app_nil_r.
Qed.
Lemma compat_valid l : Forall (Forall scalar) l -> valid_items (flat_map compat_item l).
Proof.
  induction 1 as [|g l H F IH]; [constructor|]. cbn [flat_map]. unfold valid_items in *. apply Forall_app. split; [|exact IH].
  destruct g as [|r [|r2 g]]; cbn [compat_item]; [constructor| |]; (constructor; [|constructor]); cbn [fst].
  - exists [r]. split; [exact H|]. now rewrite encode_cons, app_nil_r.
  - eexists. split; [exact H|reflexivity].
Qed.
Lemma compat_exact cs l : plain cs -> Forall (Forall scalar) l -> (cs = [] -> l = []) ->
  exists n', transform (new_ns (encode cs)) (flat_map compat_item l) 0 = Ok n' /\ ns_norm n' = encode (concat l) /\ ns_orig n' = encode cs.
Proof.
  intros P Fl Hcs. assert (V : valid_utf8 (encode cs)) by (destruct P; exists cs; auto).
  assert (Ex : exists n', transform (new_ns (encode cs)) (flat_map compat_item l) 0 = Ok n').
  { destruct cs as [|c cs]; [rewrite (Hcs eq_refl); eexists; reflexivity|].
    destruct (transform_items (c :: cs) (flat_map compat_item l) P) as (n' & _ & _ & E & _); [discriminate| |eauto].
    intros al st Hal Ne Fi Ti R O A. destruct (compat_loop al l Ne Fi st) as (st' & E & _); [rewrite R; apply P| |eauto].
    split; [exact Ti|]. left. exists []. rewrite R, O. auto. }
  destruct Ex as (n' & E). exists n'. split; [exact E|].
  destruct (transform_fresh_text _ _ _ _ V (compat_valid l Fl) E) as [T1 T2]. split; [now rewrite T1, compat_text|exact T2].
Qed.

(** ** The normalizers *)

Section Norm.
  Variable L : norm_lib.
  Variable nf : form -> list N -> list N.
  Variable cs : list N.
  Hypothesis P : plain cs.
  Hypothesis LO : library_at L nf cs.

  Lemma not_normal f : f <> OtherForm -> nf f cs <> cs -> is_normal L f (encode cs) = false.
  Proof. intros F H. destruct (is_normal L f (encode cs)) eqn:E; [|reflexivity]. apply (proj1 LO f F) in E. contradiction. Qed.
  Lemma normal_is f : f <> OtherForm -> nf f cs = cs -> is_normal L f (encode cs) = true.
  Proof. intros F H. now apply (proj1 LO f F). Qed.
  Lemma no_segments gs : groups_ok gs -> source gs = cs -> cs = [] -> segments gs = [].
  Proof. intros G H E. destruct gs as [|g gs]; [reflexivity|]. rewrite E in H. apply source_nonempty in H; [contradiction|exact G|discriminate]. Qed.

  Lemma un_decompose f : f = NFD \/ ((f = NFC \/ f = NFKD) /\ nf f cs <> cs) ->
    exists gs n', groups_ok gs /\ source gs = cs /\ outcome gs = nf (decomposing f) cs /\ iter L (decomposing f) (encode cs) = segments gs /\
    un_normalize L f (new_ns (encode cs)) = Ok (Some n') /\
    ns_orig n' = encode cs /\ ns_norm n' = encode (nf (decomposing f) cs) /\ ns_al n' = seg_al cs (segments gs) 0 (0, 0).
  Proof.
    intros F. destruct (proj2 LO (decomposing f)) as (gs & G & Hs & Hi & Ho).
    { destruct F as [->|[[-> | ->] _]]; cbn; auto. }
    destruct (segments_exact cs (segments gs) P (no_segments gs G Hs) (groups_segments gs G)) as (n' & E & E1 & E2 & E3).
    fold (outcome gs) in E2. rewrite Ho in E2. exists gs, n'. do 4 (split; [assumption|]). split; [|auto]. rewrite <- Hi in E.
    destruct F as [->|[[-> | ->] Hn]]; cbn [un_normalize decomposing] in *.
    - unfold nfd. change (ns_norm (new_ns (encode cs))) with (encode cs). now rewrite E.
    - unfold nfc. change (ns_norm (new_ns (encode cs))) with (encode cs). rewrite not_normal by (assumption || discriminate). now rewrite E.
    - unfold nfkd. change (ns_norm (new_ns (encode cs))) with (encode cs). rewrite not_normal by (assumption || discriminate). now rewrite E.
  Qed.
  Lemma un_composed f : f = NFC \/ f = NFKC -> nf f cs = cs ->
    un_normalize L f (new_ns (encode cs)) = Ok (Some (new_ns (encode cs))).
  Proof.
    intros F H. destruct F as [-> | ->]; cbn [un_normalize]; unfold nfc, nfkc; change (ns_norm (new_ns (encode cs))) with (encode cs);
      (rewrite normal_is by (assumption || discriminate)); reflexivity.
  Qed.
  Lemma un_nfkc : nf NFKC cs <> cs -> exists n', un_normalize L NFKC (new_ns (encode cs)) = Ok (Some n') /\
    ns_orig n' = encode cs /\ ns_norm n' = encode (nf NFKD cs).
  Proof.
    intros H. destruct (proj2 LO NFKD (or_intror eq_refl)) as (gs & G & Hs & Hi & Ho).
    destruct (compat_exact cs (segments gs) P) as (n' & E & E1 & E2).
    - eapply Forall_impl; [|exact (groups_segments gs G)]. cbn. tauto.
    - now apply no_segments.
    - exists n'. rewrite <- Ho. split; [|auto]. cbn [un_normalize]. unfold nfkc. change (ns_norm (new_ns (encode cs))) with (encode cs).
      rewrite not_normal by (assumption || discriminate). rewrite Hi.
      change (bind (transform (new_ns (encode cs)) (flat_map compat_item (segments gs)) 0) (fun m => Ok (Some m)) = Ok (Some n')). now rewrite E.
  Qed.
  Lemma un_nfkd_nil n : ns_norm n = encode cs -> nf NFKD cs = cs -> un_normalize L NFKD n = Ok None.
  Proof. intros Hn H. cbn [un_normalize]. unfold nfkd. rewrite Hn, normal_is by (assumption || discriminate). reflexivity. Qed.

  Lemma un_alignment f gs : f = NFD \/ ((f = NFC \/ f = NFKD) /\ nf f cs <> cs) ->
    groups_ok gs -> source gs = cs -> iter L (decomposing f) (encode cs) = segments gs ->
    exists n', un_normalize L f (new_ns (encode cs)) = Ok (Some n') /\
      (Forall2 within (ns_al n') (owners gs 0) <-> Forall (fun g => length (fst g) = length (snd g)) (removelast gs)).
  Proof.
    intros F G Hs Hi. destruct (un_decompose f F) as (gs' & m & _ & _ & _ & Hi' & E' & _ & _ & E3).
    exists m. split; [exact E'|]. rewrite <- Hi', Hi, <- Hs in E3. rewrite E3. now apply alignment_iff.
  Qed.
End Norm.

Lemma sequence_chain fs : forall ms n, length ms = length fs ->
  Forall2 (fun f x => f (fst x) = Ok (Some (snd x))) fs (combine (n :: removelast ms) ms) ->
  norm_sequence fs n = Ok (Some (last ms n)).
Proof.
  induction fs as [|f fs IH]; intros ms n Hl H; destruct ms as [|m ms]; try discriminate Hl; [reflexivity|].
  cbn [combine] in H. inversion H as [|? ? ? ? H1 H2]; subst. cbn [fst snd] in H1. unfold norm_sequence. cbn [foldR]. rewrite H1. cbn [bind].
  change (norm_sequence fs m = Ok (Some (last (m :: ms) n))). destruct ms as [|m2 ms].
  - destruct fs; [reflexivity|discriminate Hl].
  - replace (last (m :: m2 :: ms) n) with (last (m2 :: ms) m).
    + apply IH; [cbn in *; lia|exact H2].
    + change (last (m :: m2 :: ms) n) with (last (m2 :: ms) n). clear. revert m2. induction ms as [|x ms IH]; intros m2; [reflexivity|apply IH].
Qed.

(** ** In the pipeline *)
Section Nil.
  Variable ss si : list io_pair -> list io_pair.
  Hypothesis HS : sorts start_key ss.
  Hypothesis HI : sorts id_key si.
  Lemma nfkd_panics L nf t ty wi ot s cs rest : matching_ok (tk_raw t) -> tk_normalizer t = Some (used (un_normalize L NFKD)) ->
    clean s -> s <> [] -> cut_added ss si (tk_raw t) s = (None, encode cs) :: rest -> plain cs -> library_at L nf cs -> nf NFKD cs = cs ->
    encode_text ss si t ty wi ot s = Panic.
  Proof.
    intros M Hn C Ne Hc P LO Hf. pose proof (new_in_place s C) as Pl. destruct (indices_labels ss si HS HI s (tk_raw t) (new_ns s) M Pl Ne) as (sps & Ei & N1 & F1).
    change (ns_norm (new_ns s)) with s in F1. rewrite Hc in F1. inversion F1 as [|? sp ? l [Tx Kx] F' ]; subst. cbn [fst snd] in *.
    unfold encode_text, extract_and_normalize. unfold pt_split at 1, pt_new, pt_from_ns.
    cbn [pt_splits pt_orig split_pieces sp_toks sp_ns]. rewrite Ei. cbn [bind]. fold nonempty. rewrite (PipelineProofs.filter_true _ _ N1). cbn [app bind].
    unfold pt_split at 1. cbn [pt_splits split_pieces pt_orig]. rewrite Kx. unfold apply_normalizer. rewrite Hn. unfold used.
    rewrite (un_nfkd_nil L nf cs LO (sp_ns sp) Tx Hf). reflexivity.
  Qed.
End Nil.
