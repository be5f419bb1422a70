(** Proofs about normalized strings: transformations in step with the text succeed, and
    the exact alignments they leave on a fresh string. *)
From Verif Require Import Base Utf8Model Utf8Proofs SliceModel SliceProofs PatternModel
  NormalizedModel NormalizedSpec NormalizedProofs NormalizedInvProofs.
Local Open Scope Z_scope.

Lemma zlen_firstn {A} (l : list A) k : 0 <= k <= zlen l -> zlen (firstn (Z.to_nat k) l) = k.
Proof. unfold zlen. rewrite firstn_length. lia. Qed.
Lemma zlen_repeat {A} (x : A) k : zlen (repeat x k) = Z.of_nat k.
Proof. unfold zlen. now rewrite repeat_length. Qed.

(** ** One item succeeds *)
Lemma t_item_ok al st s c total_len :
  Forall (inside total_len) al -> zlen (t_ao st) = total_len -> 0 <= t_off st ->
  (if 0 <? c then 0 else 1 - c) <= zlen (t_runes st) -> Forall (fun r => r <> 0%N) (t_runes st) ->
  t_off st + bytes (t_runes st) <= zlen al ->
  exists st', t_item al st (s, c) = Ok st'.
Proof.
  intros F L Off C NZ B.
  destruct (item_sizes_sync c (t_runes st) C NZ) as (k & size & total & Es & Hk & Hkl & Hb & Ht & Hi & Hr).
  assert (Hbk : t_off st + size + total <= zlen al).
  { rewrite <- (firstn_skipn k (t_runes st)), bytes_app in B. pose proof (bytes_nonneg (skipn k (t_runes st))). lia. }
  unfold item_sizes in Es. unfold t_item. fold (item_align al (t_off st) c).
  destruct (if c <=? 0 then next_rune (t_runes st) else (0%N, t_runes st)) as [rc rs1].
  destruct (take_removed (Z.to_nat (- c)) rs1) as [total' rs2].
  injection Es as Esz Et Er. subst total' rs2. rewrite Esz. clear Esz rc.
  assert (Ha : exists align, item_align al (t_off st) c = Ok align /\
    (0 < total -> item_align al (t_off st) c = zindex al (t_off st))).
  { unfold item_align. destruct (Z.ltb_spec 0 c) as [Hc|Hc].
    - destruct (Z.ltb_spec (t_off st) 1).
      + eexists. split; [reflexivity|]. intros. lia.
      + destruct (zindex_eq al (t_off st - 1)) as (x & Ex & _); [pose proof (bytes_nonneg (t_runes st)); lia|].
        exists x. split; [exact Ex|]. intros. lia.
    - specialize (Hr Hc). replace (zlen al <=? t_off st) with false by lia.
      destruct (zindex_eq al (t_off st)) as (x & Ex & _); [lia|]. exists x. split; [exact Ex|reflexivity]. }
  destruct Ha as (align & Ha & Hat). rewrite Ha. cbn [bind].
  assert (Ial : inside total_len align).
  { apply item_align_In in Ha. destruct Ha as [->|Ha].
    - unfold inside. cbn. subst total_len. pose proof (zlen_nonneg (t_ao st)). lia.
    - rewrite Forall_forall in F. now apply F. }
  assert (Hrf : exists rfo rfn,
    (if (0 <? total) && (t_off st <? zlen al) then
       do p <- zindex al (t_off st);
       let end_idx := if zlen al <=? t_off st + total then zlen al - 1 else t_off st + total in
       do q <- zindex al end_idx;
       let rfo := Z.max 0 (snd q - snd p) in Ok (rfo, total - rfo)
     else Ok (0, 0)) = Ok (rfo, rfn) /\
    (0 < rfo -> 0 < total /\ zindex al (t_off st) = Ok align /\
       exists q, zindex al (t_off st + total) = Ok q /\ inside total_len q /\ snd align <= snd q)).
  { destruct (Z.ltb_spec 0 total) as [Ht0|Ht0]; cbn [andb].
    - destruct (Z.ltb_spec (t_off st) (zlen al)) as [Hlt|Hlt]; [|eexists _, _; split; [reflexivity|lia]].
      specialize (Hat Ht0). rewrite Ha in Hat. rewrite <- Hat. cbn [bind].
      assert (Hsz : 1 <= size).
      { destruct (Z.ltb_spec 0 c) as [Hc|Hc]; [destruct (Hi Hc); lia|auto]. }
      replace (zlen al <=? t_off st + total) with false by lia.
      destruct (zindex_eq al (t_off st + total)) as (q & Eq & Eq'); [lia|]. cbn zeta. rewrite Eq. cbn [bind].
      eexists _, _. split; [reflexivity|]. intros Hrfo. split; [lia|]. split; [reflexivity|].
      exists q. split; [reflexivity|]. split; [|lia]. rewrite Forall_forall in F. apply F.
      eapply nth_error_In, Eq'.
    - eexists _, _. split; [reflexivity|lia]. }
  destruct Hrf as (rfo & rfn & Erf & Hrfo). cbn zeta in Erf. rewrite Erf. cbn [bind].
  destruct Ial as (I1 & I2 & I3).
  rewrite zslice_eq by lia. cbn [bind].
  match goal with |- context [match expand ?v with _ => _ end] => destruct (expand v) as [[olo ohi]|] eqn:Ee end.
  - destruct (Z.ltb_spec 0 rfo) as [H0|H0].
    + destruct (Hrfo H0) as (T0 & Ep & q & Eq & (Q1 & Q2 & Q3) & Q4). rewrite Ep, Eq.
      unfold realloc. cbn zeta. cbn [bind].
      match goal with |- context [zindex ?a (fst align)] => assert (La : zlen a = total_len) end.
      { unfold zlen in *. rewrite !app_length, firstn_length, seq_length, skipn_length, !map_length.
        unfold part. rewrite firstn_length, skipn_length. lia. }
      destruct (Z.eq_dec (fst align) total_len) as [Hend|Hend].
      * exfalso. assert (E0 : part (fst align) (snd align) (t_ao st) = []).
        { unfold part. replace (Z.to_nat (snd align - fst align)) with 0%nat by lia. reflexivity. }
        rewrite E0 in Ee. discriminate Ee.
      * match goal with |- context [zindex ?a (fst align)] => destruct (zindex_eq a (fst align)) as (a0 & Ea0 & _); [lia|] end.
        rewrite Ea0. cbn [bind]. rewrite zslice_eq by lia. cbn [bind]. eexists. reflexivity.
    + cbn zeta. unfold realloc. cbn [bind]. eexists. reflexivity.
  - destruct (Z.ltb_spec 0 rfo) as [H0|H0].
    + destruct (Hrfo H0) as (T0 & Ep & q & Eq & (Q1 & Q2 & Q3) & Q4). rewrite Ep, Eq. cbn [bind].
      destruct (Z.eq_dec (fst align) total_len) as [Hend|Hend].
      * exfalso. assert (rfo <= 0); [|lia]. clear Hrfo. revert Erf.
        specialize (Hat T0). replace (t_off st <? zlen al) with true.
        2: { apply zindex_ok in Ep. lia. }
        replace (0 <? total) with true by lia. cbn [andb]. rewrite Ep. cbn [bind].
        destruct (zlen al <=? t_off st + total); [|rewrite Eq; cbn [bind]; intros [= <- _]; lia].
        destruct (zindex al (zlen al - 1)) as [q'| | | |] eqn:Eq'; cbn [bind]; try discriminate.
        intros [= <- _]. apply zindex_In in Eq'. rewrite Forall_forall in F. specialize (F q' Eq'). unfold inside in F. lia.
      * destruct (zindex_eq (t_ao st) (fst align)) as (a0 & Ea0 & _); [lia|].
        rewrite Ea0. cbn [bind]. rewrite zslice_eq by lia. cbn [bind]. eexists. reflexivity.
    + cbn [bind]. eexists. reflexivity.
Qed.

Lemma t_loop_ok al items : forall st k,
  Forall (inside (Z.of_nat k)) al -> tinv k st -> 0 <= t_off st ->
  consumed items <= zlen (t_runes st) -> Forall (fun r => r <> 0%N) (t_runes st) ->
  t_off st + bytes (t_runes st) <= zlen al ->
  exists st', foldR (t_item al) items st = Ok st'.
Proof.
  induction items as [|[s c] items IH]; intros st k F T Off C NZ B; [eexists; reflexivity|].
  cbn [foldR]. rewrite consumed_cons in C. pose proof (consumed_nonneg items) as Cn.
  destruct (t_item_ok al st s c (Z.of_nat k)) as [st1 E1]; auto; [|lia|].
  { unfold zlen. f_equal. apply T. }
  rewrite E1. cbn [bind].
  pose proof E1 as E2. apply t_item_spec in E2. destruct E2 as (align & _ & _ & _ & Sz & _ & _ & Tk).
  destruct (item_sizes_sync c (t_runes st) ltac:(lia) NZ) as (m & size & total & Es & Hm & Hml & Hb & Ht & Hi & Hr).
  rewrite Es in Sz. destruct Sz as (R1 & O1 & _).
  apply (IH st1 k F).
  - now apply Tk.
  - destruct (Z.ltb_spec 0 c) as [Hc|Hc]; [specialize (Hi Hc)|specialize (Hr Hc)]; lia.
  - rewrite R1. unfold zlen in *. rewrite skipn_length. lia.
  - rewrite R1. now apply Forall_skipn.
  - rewrite R1, O1. rewrite <- (firstn_skipn m (t_runes st)), bytes_app in B. lia.
Qed.

Lemma expand_ordered l total : ordered l -> Forall (inside total) l -> forall lo hi, expand l = Some (lo, hi) ->
  0 <= lo /\ lo <= hi /\ hi <= total.
Proof.
  intros O F lo hi E. destruct l as [|a l]; [discriminate E|]. cbn [expand] in E.
  assert (Hl : exists j, nth_error (a :: l) j = Some (last (a :: l) a)).
  { apply In_nth_error, last_In. discriminate. }
  remember (last (a :: l) a) as z eqn:Ez. clear Ez.
  destruct Hl as (j & Hj). specialize (O 0%nat j a _ (Nat.le_0_l j) eq_refl Hj).
  rewrite Forall_forall in F. pose proof (F a (or_introl eq_refl)) as F1.
  pose proof (F _ (nth_error_In _ _ Hj)) as F2. injection E as <- <-. unfold inside, ple in *. lia.
Qed.

Lemma end_shift_ok al ess osh ao cells total : ordered al -> Forall (inside total) al -> zlen ao = total ->
  0 <= ess <= zlen al -> exists x, end_shift al ess osh ao cells = Ok x.
Proof.
  intros O F L H. unfold end_shift. destruct (osh =? 0); [eexists; reflexivity|].
  rewrite zslice_eq by lia. cbn [bind].
  destruct (expand _) as [[lo hi]|] eqn:E; [|eexists; reflexivity].
  assert (0 <= lo /\ lo <= hi /\ hi <= total).
  { refine (expand_ordered _ total _ _ lo hi E); [now apply ordered_part|].
    apply Forall_forall. intros x Hx. apply part_In in Hx. rewrite Forall_forall in F. now apply F. }
  rewrite zslice_eq by lia. cbn [bind]. eexists. reflexivity.
Qed.

(** A change in step with the selected text succeeds. *)
Lemma transform_range_ok n r items nr :
  wf n -> ordered (ns_al n) -> target n r = Ok (Some nr) ->
  let s := r_start nr in let e := Z.min (r_end nr) (zlen (ns_norm n)) in
  0 <= s <= e ->
  let sel := part s e (ns_norm n) in
  valid_utf8 sel -> Forall (fun c => c <> 0%N) (runes sel) -> consumed items <= zlen (runes sel) ->
  exists n', transform_range n r items 0 = Ok n'.
Proof.
  intros W O T s e Hse sel V NZ C.
  assert (WL : zlen (ns_al n) = zlen (ns_norm n)) by (unfold zlen; f_equal; apply W).
  destruct W as (W1 & W2 & W3 & W4).
  unfold transform_range. fold (target n r). rewrite T. cbn [bind].
  cbn zeta. fold s.
  replace (if zlen (ns_al n) <? r_end nr then zlen (ns_al n) else r_end nr) with e
    by (subst e; rewrite <- WL; destruct (Z.ltb_spec (zlen (ns_al n)) (r_end nr)); lia).
  rewrite zslice_eq by lia. cbn [bind]. fold sel.
  replace (zlen (runes sel) <? 0) with false by (pose proof (zlen_nonneg (runes sel)); lia).
  cbn [Z.to_nat firstn clear_chars bind fold_right].
  assert (Hs : bytes (runes sel) = e - s).
  { unfold bytes. rewrite valid_utf8_runes by assumption. apply part_length; lia. }
  match goal with |- context [foldR _ items ?st0] =>
    destruct (t_loop_ok (ns_al n) items st0 (length (ns_orig n))) as [st Est]; cbn [t_off t_runes]; auto end.
  { split; assumption. }
  { lia. }
  { lia. }
  rewrite Est. cbn [bind].
  apply t_loop_spec in Est. destruct Est as (_ & _ & Ti).
  specialize (Ti (length (ns_orig n)) (conj W3 W4)).
  destruct (end_shift_ok (ns_al n) e (t_shift st) (t_ao st) (t_cells st) (zlen (ns_orig n)) O W2) as [[ao' cells'] Ee].
  { unfold zlen. f_equal. apply Ti. }
  { lia. }
  rewrite Ee. cbn [bind]. eexists. reflexivity.
Qed.

(** ** Values behind the addresses *)
Definition vals (st : tstate) : list (Z * Z) := map (cell (t_cells st)) (t_ao st).

Lemma cell_app cells new a : (a < length cells)%nat -> cell (cells ++ new) a = cell cells a.
Proof. intros H. unfold cell. now rewrite app_nth1. Qed.
Lemma map_cell_app cells new l : Forall (fun a => (a < length cells)%nat) l ->
  map (cell (cells ++ new)) l = map (cell cells) l.
Proof. intros H. apply map_ext_in. intros a Ha. rewrite Forall_forall in H. now apply cell_app, H. Qed.
Lemma map_cell_new cells new : map (cell (cells ++ new)) (seq (length cells) (length new)) = new.
Proof.
  apply nth_ext with (d := (0, 0)) (d' := (0, 0)); [now rewrite map_length, seq_length|].
  intros i Hi. rewrite map_length, seq_length in Hi.
  rewrite nth_indep with (d' := cell (cells ++ new) 0%nat) by (rewrite map_length, seq_length; exact Hi).
  rewrite map_nth, seq_nth by exact Hi. unfold cell. rewrite app_nth2 by lia. f_equal. lia.
Qed.
Lemma realloc_values ao cells lo hi new ao' cells' :
  realloc ao cells lo hi new = (ao', cells') -> Forall (fun a => (a < length cells)%nat) ao ->
  map (cell cells') ao' =
  firstn (Z.to_nat lo) (map (cell cells) ao) ++ new ++ skipn (Z.to_nat hi) (map (cell cells) ao).
Proof.
  unfold realloc. intros [= <- <-] F. rewrite !map_app, map_cell_new.
  rewrite !map_cell_app by (first [now apply Forall_firstn | now apply Forall_skipn]).
  now rewrite firstn_map, skipn_map.
Qed.

Lemma map_part {A B} (f : A -> B) i j l : map f (part i j l) = part i j (map f l).
Proof. unfold part. now rewrite <- firstn_map, <- skipn_map. Qed.
Lemma part_mid {A} (a b c : list A) i j : zlen a = i -> zlen b = j - i -> part i j (a ++ b ++ c) = b.
Proof.
  unfold part, zlen. intros H1 H2. rewrite skipn_app. replace (Z.to_nat i - length a)%nat with 0%nat by lia.
  rewrite skipn_all2 by lia. cbn. rewrite firstn_app. replace (Z.to_nat (j - i) - length b)%nat with 0%nat by lia.
  rewrite firstn_all2 by lia. cbn. apply app_nil_r.
Qed.
Lemma firstn_app_z {A} (a b : list A) i : zlen a = i -> firstn (Z.to_nat i) (a ++ b) = a.
Proof.
  unfold zlen. intros H. rewrite firstn_app. replace (Z.to_nat i - length a)%nat with 0%nat by lia.
  rewrite firstn_all2 by lia. apply app_nil_r.
Qed.
Lemma skipn_app_z {A} (a b c : list A) i : zlen a + zlen b = i -> skipn (Z.to_nat i) (a ++ b ++ c) = c.
Proof.
  unfold zlen. intros H. rewrite app_assoc, skipn_app, app_length.
  replace (Z.to_nat i - (length a + length b))%nat with 0%nat by lia.
  rewrite skipn_all2 by (rewrite app_length; lia). reflexivity.
Qed.
Lemma zindex_mid {A} (a : list A) x k c i : zlen a <= i < zlen a + Z.of_nat k -> zindex (a ++ repeat x k ++ c) i = Ok x.
Proof.
  unfold zindex, zlen. intros H. replace (0 <=? i) with true by lia.
  rewrite nth_error_app2 by lia. rewrite nth_error_app1 by (rewrite repeat_length; lia).
  rewrite nth_error_repeat by lia. reflexivity.
Qed.
Lemma last_repeat {A} (x d : A) k : last (repeat x (S k)) d = x.
Proof. induction k as [|k IH]; [reflexivity|]. cbn [repeat] in *. exact IH. Qed.
Lemma map_repeat' {A B} (f : A -> B) x k : map f (repeat x k) = repeat (f x) k.
Proof. induction k as [|k IH]; [reflexivity|]. cbn. now rewrite IH. Qed.

(** One item whose alignment covers [w] original bytes, all with the pair [v], and which
    removes nothing. *)
Lemma t_item_plain al st s c rc rs1 align w v pre post :
  (c = 0 /\ t_runes st = rc :: rs1 /\ rc <> 0%N \/ c = 1 /\ t_runes st = rs1) ->
  item_align al (t_off st) c = Ok align ->
  Forall (fun a => (a < length (t_cells st))%nat) (t_ao st) ->
  vals st = pre ++ repeat v w ++ post -> (0 < w)%nat ->
  fst align = zlen pre -> snd align = zlen pre + Z.of_nat w ->
  let size := if c =? 0 then zlen (encode_rune rc) else 0 in
  exists st', t_item al st (s, c) = Ok st' /\
    vals st' = pre ++ repeat (new_pair (zlen s) c (zlen s - size) (zlen s - (snd v - fst v)) 0 (t_shift st) v) w ++ post /\
    Forall (fun a => (a < length (t_cells st'))%nat) (t_ao st') /\
    t_runes st' = rs1 /\ t_off st' = t_off st + size /\ t_shift st' = t_shift st + (zlen s - size) /\
    t_al st' = t_al st ++ repeat align (length s) /\ t_text st' = t_text st ++ encode (runes s).
Proof.
  intros Hc Ha F V Hw A1 A2 size. unfold t_item. fold (item_align al (t_off st) c). rewrite Ha. cbn [bind].
  assert (Hrs : exists rc', (if c <=? 0 then next_rune (t_runes st) else (0%N, t_runes st)) = (rc', rs1) /\
                (if (rc' =? 0)%N then 0 else zlen (encode_rune rc')) = size).
  { destruct Hc as [(-> & -> & Hnz)|(-> & <-)].
    - exists rc. cbn. split; [reflexivity|]. destruct (N.eqb_spec rc 0); [congruence|reflexivity].
    - exists 0%N. split; reflexivity. }
  destruct Hrs as (rc' & Er & Esz). rewrite Er, Esz.
  replace (Z.to_nat (- c)) with 0%nat by (destruct Hc as [(-> & _)|(-> & _)]; reflexivity).
  cbn [take_removed]. cbn [Z.ltb andb bind]. replace (0 <? 0) with false by reflexivity. cbn [andb bind].
  assert (Lv : zlen (t_ao st) = zlen pre + Z.of_nat w + zlen post).
  { assert (E : zlen (vals st) = zlen (t_ao st)) by (unfold vals, zlen; now rewrite map_length).
    rewrite <- E, V, !zlen_app, zlen_repeat. lia. }
  pose proof (zlen_nonneg pre). pose proof (zlen_nonneg post).
  rewrite zslice_eq by lia. cbn [bind]. rewrite map_part. fold (vals st). rewrite V, A1, A2.
  rewrite part_mid by (rewrite ?zlen_repeat; lia).
  destruct w as [|w]; [lia|]. cbn [repeat expand]. change (v :: repeat v w) with (repeat v (S w)).
  rewrite last_repeat. cbn [bind].
  rewrite map_repeat'.
  destruct (realloc _ _ _ _ _) as [ao1 cells1] eqn:Eal. cbn [bind].
  eexists. split; [reflexivity|]. cbn [vals t_ao t_cells t_runes t_off t_shift t_al t_text].
  pose proof (realloc_valid _ _ _ _ _ _ _ Eal F) as F1. apply realloc_values in Eal; [|exact F].
  split; [|split; [exact F1|]].
  - unfold vals at 1. cbn [t_ao t_cells]. rewrite Eal. fold (vals st). rewrite V.
    rewrite firstn_app_z by lia. rewrite skipn_app_z by (rewrite zlen_repeat; lia). reflexivity.
  - repeat split; lia.
Qed.

(** ** (A) Expansions on a fresh string *)
Lemma zlen_aligns rs cur : zlen (aligns_from rs cur) = bytes rs.
Proof. unfold bytes, zlen. now rewrite aligns_from_length. Qed.
Lemma aligns_from_app a b : forall cur, aligns_from (a ++ b) cur = aligns_from a cur ++ aligns_from b (cur + bytes a).
Proof.
  induction a as [|r a IH]; intros cur; cbn [app aligns_from]; [unfold bytes; cbn; now rewrite Z.add_0_r|].
  rewrite IH, bytes_cons, <- app_assoc. unfold zlen. do 3 f_equal. lia.
Qed.
Lemma exp_al_app a b : forall p, exp_al (a ++ b) p = exp_al a p ++ exp_al b (p + bytes (map fst a)).
Proof.
  induction a as [|x a IH]; intros p; cbn [app exp_al map]; [unfold bytes; cbn; now rewrite Z.add_0_r|].
  rewrite IH, bytes_cons, <- app_assoc. do 3 f_equal. lia.
Qed.
Lemma exp_ao_app a b : forall p, exp_ao (a ++ b) p = exp_ao a p ++ exp_ao b (p + zlen (exp_text a)).
Proof.
  induction a as [|x a IH]; intros p; cbn [app exp_ao map exp_text concat]; [cbn; now rewrite Z.add_0_r|].
  rewrite IH, <- app_assoc. unfold exp_text. cbn [map concat]. rewrite zlen_app. do 3 f_equal. lia.
Qed.
Lemma zlen_exp_ao xs : forall p, zlen (exp_ao xs p) = bytes (map fst xs).
Proof.
  induction xs as [|x xs IH]; intros p; [reflexivity|]. cbn [exp_ao map].
  now rewrite zlen_app, zlen_repeat, IH, bytes_cons.
Qed.

Lemma insert_items al done_rs r rest : forall (ss : list str) st m pre post out,
  al = aligns_from done_rs 0 ++ repeat (bytes done_rs, bytes done_rs + zlen (encode_rune r)) (length (encode_rune r)) ++ rest ->
  t_off st = bytes done_rs + zlen (encode_rune r) ->
  Forall (fun a => (a < length (t_cells st))%nat) (t_ao st) ->
  vals st = pre ++ repeat (out, out + m) (length (encode_rune r)) ++ post -> zlen pre = bytes done_rs ->
  exists st', foldR (t_item al) (map (fun s => (s, 1)) ss) st = Ok st' /\
    vals st' = pre ++ repeat (out, out + (m + zlen (concat ss))) (length (encode_rune r)) ++ post /\
    Forall (fun a => (a < length (t_cells st'))%nat) (t_ao st') /\
    t_runes st' = t_runes st /\ t_off st' = t_off st /\ t_shift st' = t_shift st + zlen (concat ss) /\
    t_al st' = t_al st ++ repeat (bytes done_rs, bytes done_rs + zlen (encode_rune r)) (length (concat ss)) /\
    t_text st' = t_text st ++ concat (map (fun s => encode (runes s)) ss).
Proof.
  induction ss as [|s ss IH]; intros st m pre post out Hal Off F V Hp.
  - cbn [map foldR concat]. exists st. cbn. rewrite !app_nil_r, !Z.add_0_r. repeat split; auto.
  - cbn [map foldR]. pose proof (zlen_rune r) as Hw. pose proof (bytes_nonneg done_rs) as Hb.
    destruct (t_item_plain al st s 1 0%N (t_runes st) (bytes done_rs, bytes done_rs + zlen (encode_rune r))
                (length (encode_rune r)) (out, out + m) pre post) as (st1 & E1 & V1 & F1 & R1 & O1 & S1 & A1 & T1); auto.
    + unfold item_align. cbn [Z.ltb]. change (0 <? 1) with true. cbn iota. replace (t_off st <? 1) with false by lia.
      rewrite Hal. apply zindex_mid. rewrite zlen_aligns. unfold zlen in *. lia.
    + unfold zlen in Hw. lia.
    + cbn [snd]. rewrite Hp. unfold zlen. lia.
    + rewrite E1. cbn [bind]. change (1 =? 0) with false in *. cbn iota in *.
      destruct (IH st1 (m + zlen s) pre post out) as (st2 & E2 & V2 & F2 & R2 & O2 & S2 & A2 & T2); auto.
      * lia.
      * rewrite V1. unfold new_pair. change (0 <? 1) with true. cbn [fst snd]. now rewrite Z.add_assoc.
      * exists st2. split; [exact E2|]. cbn [concat map]. rewrite zlen_app, app_length, repeat_app.
        split; [|split; [exact F2|]].
        -- rewrite V2. now rewrite <- Z.add_assoc.
        -- split; [congruence|]. split; [lia|]. split; [lia|].
           split; [rewrite A2, A1, <- app_assoc; reflexivity|]. rewrite T2, T1, <- app_assoc. reflexivity.
Qed.

Lemma foldR_app_list {A S} (f : S -> A -> res S) l1 l2 s : foldR f (l1 ++ l2) s = (do s' <- foldR f l1 s; foldR f l2 s').
Proof.
  revert s. induction l1 as [|x l1 IH]; intros s; cbn [app foldR bind]; [reflexivity|].
  destruct (f s x); cbn [bind]; auto.
Qed.


Lemma exp_loop_from d al post xs : 0 <= d -> forall dn st,
  al = aligns_from (map fst (dn ++ xs) ++ post) 0 -> Forall exp_ok xs ->
  t_runes st = map fst xs -> t_off st = bytes (map fst dn) ->
  t_shift st = d + zlen (exp_text dn) - bytes (map fst dn) ->
  Forall (fun a => (a < length (t_cells st))%nat) (t_ao st) ->
  vals st = exp_ao dn d ++ aligns_from (map fst xs ++ post) (bytes (map fst dn)) ->
  exists st', foldR (t_item al) (flat_map exp_items xs) st = Ok st' /\
    vals st' = exp_ao (dn ++ xs) d ++ aligns_from post (bytes (map fst (dn ++ xs))) /\
    t_al st' = t_al st ++ exp_al xs (bytes (map fst dn)) /\ t_text st' = t_text st ++ exp_text xs /\
    t_shift st' = d + zlen (exp_text (dn ++ xs)) - bytes (map fst (dn ++ xs)) /\
    Forall (fun a => (a < length (t_cells st'))%nat) (t_ao st').
Proof.
  intros Hd. induction xs as [|[r [s0 ss]] xs IH]; intros dn st Hal Hok R Off Sh F V.
  - exists st. cbn in *. rewrite !app_nil_r in *. repeat split; auto.
  - inversion Hok as [|x l (Hnz & V0 & Vs) Hok']; subst x l. cbn [fst snd] in *.
    cbn [flat_map exp_items fst snd app foldR map] in *.
    set (P := bytes (map fst dn)) in *. set (O := d + zlen (exp_text dn)) in *.
    set (w := length (encode_rune r)).
    assert (Hw : (0 < w)%nat) by (pose proof (zlen_rune r); unfold zlen in *; subst w; lia).
    assert (Hwz : zlen (encode_rune r) = Z.of_nat w) by reflexivity.
    assert (HP : 0 <= P) by apply bytes_nonneg. assert (HO : 0 <= O) by (pose proof (zlen_nonneg (exp_text dn)); subst O; lia).
    cbn [aligns_from] in V. fold w in V. set (rest := map fst xs ++ post) in *.
    assert (Hal' : al = aligns_from (map fst dn) 0 ++ repeat (P, P + Z.of_nat w) w ++
                        aligns_from rest (P + Z.of_nat w)).
    { rewrite Hal, map_app, <- app_assoc, aligns_from_app. cbn [map aligns_from fst app]. fold P w rest. now rewrite Z.add_0_l. }
    destruct (t_item_plain al st s0 0 r (map fst xs) (P, P + Z.of_nat w) w (P, P + Z.of_nat w)
                (exp_ao dn d) (aligns_from rest (P + Z.of_nat w)))
      as (st1 & E1 & V1 & F1 & R1 & O1 & S1 & A1 & T1); auto.
    + unfold item_align. change (0 <? 0) with false. cbn iota.
      assert (Hl : t_off st < zlen al).
      { rewrite Hal', !zlen_app, zlen_aligns, zlen_repeat. pose proof (zlen_nonneg (aligns_from rest (P + Z.of_nat w))). fold P. lia. }
      replace (zlen al <=? t_off st) with false by lia. rewrite Hal'. apply zindex_mid. rewrite zlen_aligns. fold P. lia.
    + now rewrite zlen_exp_ao.
    + now rewrite zlen_exp_ao.
    + change (0 =? 0) with true in *. cbn iota in *. rewrite Hwz in *.
      assert (V1' : vals st1 = exp_ao dn d ++ repeat (O, O + zlen s0) w ++ aligns_from rest (P + Z.of_nat w)).
      { rewrite V1. f_equal. f_equal. f_equal. unfold new_pair. change (0 <? 0) with false. cbn [orb fst snd].
        replace (P + Z.of_nat w - P) with (Z.of_nat w) by lia. rewrite Z.eqb_refl. cbn [orb].
        replace (0 <? 0) with false by reflexivity. unfold apply_sign. rewrite Sh.
        pose proof (zlen_nonneg s0).
        repeat match goal with |- context [?a <? 0] => replace (a <? 0) with false by lia end.
        f_equal; lia. }
      destruct (insert_items al (map fst dn) r (aligns_from rest (P + Z.of_nat w)) ss st1 (zlen s0)
                  (exp_ao dn d) (aligns_from rest (P + Z.of_nat w)) O)
        as (st2 & E2 & V2 & F2 & R2 & O2 & S2 & A2 & T2); auto.
      * rewrite O1, Off. fold P. lia.
      * apply zlen_exp_ao.
      * fold P in A2. rewrite Hwz in A2.
        rewrite E1. cbn [bind]. rewrite foldR_app_list, E2. cbn [bind].
        replace (dn ++ (r, (s0, ss)) :: xs) with ((dn ++ [(r, (s0, ss))]) ++ xs) in * by (rewrite <- app_assoc; reflexivity).
        assert (B1 : bytes (map fst (dn ++ [(r, (s0, ss))])) = P + Z.of_nat w).
        { rewrite map_app, bytes_app. fold P. cbn [map fst]. rewrite bytes_cons, Hwz. unfold bytes. cbn. lia. }
        assert (B2 : exp_text (dn ++ [(r, (s0, ss))]) = exp_text dn ++ s0 ++ concat ss).
        { unfold exp_text. rewrite map_app, concat_app. cbn. now rewrite app_nil_r. }
        destruct (IH (dn ++ [(r, (s0, ss))]) st2) as (st3 & E3 & V3 & A3 & T3 & S3 & F3); auto.
        -- congruence.
        -- rewrite B1. rewrite O2, O1, Off. lia.
        -- rewrite B1, B2, !zlen_app. rewrite S2, S1, Sh. unfold O. lia.
        -- rewrite V2, exp_ao_app, <- app_assoc, B1. f_equal. cbn [exp_ao fst exp_out]. fold w O. rewrite app_nil_r.
           unfold exp_out. cbn [fst snd]. rewrite zlen_app. reflexivity.
        -- exists st3. split; [exact E3|]. split; [exact V3|]. split; [|split; [|split; [exact S3|exact F3]]].
           ++ rewrite A3, A2, A1, B1, <- !app_assoc. f_equal. cbn [exp_al fst]. rewrite Hwz.
              unfold exp_out. cbn [fst snd]. now rewrite app_length, repeat_app, <- app_assoc.
           ++ rewrite T3, T2, T1, <- !app_assoc. f_equal. unfold exp_text. cbn [map concat exp_out fst snd].
              unfold exp_out at 2. cbn [fst snd]. rewrite <- app_assoc. f_equal; [now apply runes_valid_id|]. f_equal.
              clear -Vs. induction Vs as [|x l H _ IH]; [reflexivity|]. cbn. now rewrite IH, runes_valid_id.
Qed.

Lemma exp_loop al post xs dn st :
  al = aligns_from (map fst (dn ++ xs) ++ post) 0 -> Forall exp_ok xs ->
  t_runes st = map fst xs -> t_off st = bytes (map fst dn) ->
  t_shift st = zlen (exp_text dn) - bytes (map fst dn) ->
  Forall (fun a => (a < length (t_cells st))%nat) (t_ao st) ->
  vals st = exp_ao dn 0 ++ aligns_from (map fst xs ++ post) (bytes (map fst dn)) ->
  exists st', foldR (t_item al) (flat_map exp_items xs) st = Ok st' /\
    vals st' = exp_ao (dn ++ xs) 0 ++ aligns_from post (bytes (map fst (dn ++ xs))) /\
    t_al st' = t_al st ++ exp_al xs (bytes (map fst dn)) /\ t_text st' = t_text st ++ exp_text xs /\
    t_shift st' = zlen (exp_text (dn ++ xs)) - bytes (map fst (dn ++ xs)) /\
    Forall (fun a => (a < length (t_cells st'))%nat) (t_ao st').
Proof.
  intros Hal Hok R Off Sh F V.
  destruct (exp_loop_from 0 al post xs ltac:(lia) dn st Hal Hok R Off Sh F V) as (st' & E & V' & A & T & S1 & F').
  exists st'. repeat split; auto.
Qed.

(** The cells of a fresh string hold what createAligns computed. *)
Lemma fresh_values rs : forall pre cur,
  map (cell (pre ++ cells_from rs cur)) (addrs_from rs (length pre)) = aligns_from rs cur.
Proof.
  induction rs as [|r rs IH]; intros pre cur; [reflexivity|].
  cbn [cells_from addrs_from aligns_from]. rewrite map_app, map_repeat'. f_equal.
  - f_equal. unfold cell. rewrite app_nth2 by lia. rewrite Nat.sub_diag. reflexivity.
  - specialize (IH (pre ++ [(cur, cur + zlen (encode_rune r))]) (cur + zlen (encode_rune r))).
    rewrite app_length, <- app_assoc in IH. cbn [app length] in IH.
    rewrite Nat.add_1_r in IH. exact IH.
Qed.
Lemma new_ns_values s : ns_ao_values (new_ns s) = create_aligns s.
Proof. apply (fresh_values (runes s) [] 0). Qed.

Lemma last_app_ne {A} (a b : list A) d : b <> [] -> last (a ++ b) d = last b d.
Proof.
  intros H. induction a as [|x a IH]; [reflexivity|]. cbn [app]. rewrite <- IH.
  destruct a, b; try congruence; reflexivity.
Qed.
Lemma aligns_last rs d : rs <> [] -> forall cur, snd (last (aligns_from rs cur) d) = cur + bytes rs.
Proof.
  induction rs as [|r rs IH]; [congruence|]. intros _ cur. cbn [aligns_from]. rewrite bytes_cons.
  pose proof (zlen_rune r) as Hw. unfold zlen in Hw.
  destruct (length (encode_rune r)) as [|w] eqn:Ew; [lia|].
  destruct rs as [|r' rs].
  - cbn [aligns_from]. rewrite app_nil_r, last_repeat. cbn [snd]. unfold zlen, bytes. rewrite Ew. cbn. lia.
  - assert (Hne : aligns_from (r' :: rs) (cur + Z.of_nat (S w)) <> []).
    { cbn [aligns_from]. pose proof (zlen_rune r') as Hw'. unfold zlen in Hw'. destruct (length (encode_rune r')); [lia|discriminate]. }
    rewrite last_app_ne by exact Hne. rewrite IH by discriminate. unfold zlen. rewrite Ew. lia.
Qed.

(** ** The range of a fresh string *)
Lemma part_all {A} (l : list A) : part 0 (zlen l) l = l.
Proof. unfold part, zlen. rewrite Z.sub_0_r, Nat2Z.id. cbn. apply firstn_all. Qed.

Lemma target_full n : zlen (ns_ao_values n) = zlen (ns_orig n) -> ns_orig n <> [] ->
  target n (Rng 0 (zlen (ns_orig n)) OnOriginal) =
  match expand (ns_ao_values n) with Some (a, b) => Ok (Some (Rng a b OnNormalized)) | None => Panic end.
Proof.
  intros L Hne. unfold target, convert_offset, into_full_range. cbn [r_on r_start r_end].
  change (0 =? -1) with false. cbn iota. rewrite Z.ltb_irrefl.
  assert (0 < zlen (ns_orig n)) by (destruct (ns_orig n); [congruence|unfold zlen; cbn [length]; lia]).
  replace (0 =? zlen (ns_orig n)) with false by lia. rewrite L.
  replace ((0 <? 0) || (zlen (ns_orig n) <? 0) || (zlen (ns_orig n) <? 0) || (zlen (ns_orig n) <? zlen (ns_orig n)))
    with false by lia.
  rewrite zslice_eq by lia. cbn [bind]. now rewrite <- L, part_all.
Qed.

Lemma target_fresh s : valid_utf8 s ->
  exists on, target (new_ns s) (Rng 0 (zlen s) OnOriginal) = Ok (Some (Rng 0 (zlen s) on)).
Proof.
  intros V. destruct s as [|b s'] eqn:Es; [exists OnOriginal; reflexivity|]. rewrite <- Es in *.
  assert (Hne : s <> []) by (rewrite Es; discriminate). clear Es.
  assert (L : zlen (create_aligns s) = zlen s).
  { unfold create_aligns. rewrite zlen_aligns. unfold bytes. now rewrite valid_utf8_runes. }
  change (zlen s) with (zlen (ns_orig (new_ns s))) at 1.
  exists OnNormalized. rewrite target_full; [|rewrite new_ns_values; exact L|exact Hne].
  rewrite new_ns_values. unfold create_aligns in *.
  assert (Hr : runes s <> []).
  { intros E. rewrite <- (valid_utf8_runes s V), E in Hne. now apply Hne. }
  destruct (aligns_from (runes s) 0) as [|p l] eqn:Ea.
  - exfalso. unfold zlen in L. cbn in L. destruct s; [congruence|cbn in L; lia].
  - cbn [expand]. rewrite <- Ea. rewrite aligns_last by exact Hr.
    assert (fst p = 0).
    { destruct (runes s) as [|r rs]; [congruence|]. cbn [aligns_from] in Ea. pose proof (zlen_rune r) as Hw. unfold zlen in Hw.
      destruct (length (encode_rune r)); [lia|]. injection Ea as <- _. reflexivity. }
    rewrite H. unfold bytes. rewrite valid_utf8_runes by assumption. reflexivity.
Qed.

Lemma firstn_skipn_full {A} (l : list A) mid : firstn (Z.to_nat 0) l ++ mid ++ skipn (Z.to_nat (zlen l)) l = mid.
Proof. unfold zlen. rewrite Nat2Z.id, skipn_all. cbn. apply app_nil_r. Qed.

Lemma end_shift_full al osh ao cells : end_shift al (zlen al) osh ao cells = Ok (ao, cells).
Proof.
  unfold end_shift. destruct (osh =? 0); [reflexivity|].
  rewrite zslice_eq by (pose proof (zlen_nonneg al); lia). cbn [bind].
  unfold part. rewrite Z.sub_diag. reflexivity.
Qed.

Lemma map_fst_same rs : map fst (same rs) = rs.
Proof. unfold same. rewrite map_map. apply map_id. Qed.
Lemma exp_text_same rs : exp_text (same rs) = encode rs.
Proof.
  induction rs as [|r rs IH]; [reflexivity|]. unfold exp_text, same in *. cbn [map concat]. rewrite IH, encode_cons.
  unfold exp_out. cbn. now rewrite app_nil_r.
Qed.
Lemma exp_al_same rs : forall p, exp_al (same rs) p = aligns_from rs p.
Proof.
  induction rs as [|r rs IH]; intros p; [reflexivity|]. cbn [same map exp_al aligns_from fst]. fold (same rs). rewrite IH.
  unfold exp_out. cbn [fst snd concat]. rewrite app_nil_r. reflexivity.
Qed.
Lemma exp_ao_same rs : forall p, exp_ao (same rs) p = aligns_from rs p.
Proof.
  induction rs as [|r rs IH]; intros p; [reflexivity|]. cbn [same map exp_ao aligns_from fst]. fold (same rs). rewrite IH.
  unfold exp_out. cbn [fst snd concat]. rewrite app_nil_r. reflexivity.
Qed.
Lemma aligns_shift rs : forall p d, 0 <= p -> 0 <= p + d ->
  map (fun v => (apply_sign (fst v) d, apply_sign (snd v) d)) (aligns_from rs p) = aligns_from rs (p + d).
Proof.
  induction rs as [|r rs IH]; intros p d H1 H2; [reflexivity|]. cbn [aligns_from]. pose proof (zlen_rune r) as Hw. unfold zlen in Hw.
  rewrite map_app, map_repeat', IH by lia. f_equal; [|f_equal; lia]. f_equal. unfold apply_sign. cbn [fst snd].
  replace (p + d <? 0) with false by lia. replace (p + Z.of_nat (length (encode_rune r)) + d <? 0) with false by lia. f_equal. lia.
Qed.
Lemma aligns_nonempty r rs p : exists q l, aligns_from (r :: rs) p = q :: l /\ fst q = p.
Proof.
  cbn [aligns_from]. pose proof (zlen_rune r) as Hw. unfold zlen in Hw. destruct (length (encode_rune r)); [lia|].
  cbn. eexists _, _. split; [reflexivity|reflexivity].
Qed.

(** Expansion of a part of a fresh string. *)
Definition fresh_as (rs : list N) (n : ns) : Prop :=
  ns_orig n = encode rs /\ ns_norm n = encode rs /\ ns_al n = aligns_from rs 0 /\ ns_ao_values n = aligns_from rs 0 /\
  Forall (fun a => (a < length (ns_cells n))%nat) (ns_ao n).
Lemma new_fresh rs : Forall scalar rs -> fresh_as rs (new_ns (encode rs)).
Proof.
  intros Sc. unfold fresh_as. rewrite new_ns_values. unfold create_aligns. cbn [new_ns ns_orig ns_norm ns_al ns_ao ns_cells].
  unfold create_aligns. rewrite runes_encode by assumption. split; [reflexivity|]. split; [reflexivity|]. split; [reflexivity|].
  split; [reflexivity|]. rewrite cells_from_length. eapply Forall_impl; [|apply addrs_from_bound]. cbn. intros; lia.
Qed.
Lemma expansion_range_gen pre xs post n on :
  Forall scalar pre -> Forall (fun x => scalar (fst x)) xs -> Forall scalar post -> Forall exp_ok xs ->
  fresh_as (pre ++ map fst xs ++ post) n ->
  target n (Rng (bytes pre) (bytes pre + bytes (map fst xs)) on) =
    Ok (Some (Rng (bytes pre) (bytes pre + bytes (map fst xs)) OnNormalized)) ->
  exists n', transform_range n (Rng (bytes pre) (bytes pre + bytes (map fst xs)) on) (flat_map exp_items xs) 0 = Ok n' /\
    ns_orig n' = encode (pre ++ map fst xs ++ post) /\
    ns_norm n' = encode pre ++ exp_text xs ++ encode post /\
    ns_al n' = exp_al (same pre ++ xs ++ same post) 0 /\
    ns_ao_values n' = exp_ao (same pre ++ xs ++ same post) 0.
Proof.
  intros Sp Sx Sq Hok (Fo & Fn & Fal & Fv & Fa) T. set (s := encode (pre ++ map fst xs ++ post)).
  assert (Sc : Forall scalar (pre ++ map fst xs ++ post)) by (rewrite !Forall_app; repeat split; auto; now apply Forall_map).
  assert (R : runes s = pre ++ map fst xs ++ post) by now apply runes_encode.
  assert (V : valid_utf8 s) by (eexists; split; [exact Sc|reflexivity]).
  unfold transform_range.
  fold (target n (Rng (bytes pre) (bytes pre + bytes (map fst xs)) on)). rewrite T. cbn [bind r_start r_end]. cbn zeta.
  assert (Fc : ns_al n = create_aligns s) by (rewrite Fal; unfold create_aligns; now rewrite R).
  rewrite Fo, Fn, Fc. fold s.
  set (i := bytes pre). set (k := bytes (map fst xs)). set (j := bytes post).
  assert (Hi : 0 <= i) by apply bytes_nonneg. assert (Hk : 0 <= k) by apply bytes_nonneg. assert (Hj : 0 <= j) by apply bytes_nonneg.
  assert (Ls : zlen s = i + k + j).
  { subst s i k j. unfold bytes. rewrite !encode_app, !zlen_app. lia. }
  assert (La : zlen (create_aligns s) = zlen s).
  { unfold create_aligns. rewrite zlen_aligns. unfold bytes. now rewrite valid_utf8_runes. }
  rewrite La. replace (zlen s <? i + k) with false by lia.
  rewrite zslice_eq by lia. cbn [bind].
  assert (Hp : part i (i + k) s = encode (map fst xs)).
  { subst s. rewrite !encode_app. apply part_mid; [reflexivity|]. subst k. unfold bytes. lia. }
  rewrite Hp, runes_encode by now apply Forall_map.
  replace (zlen (map fst xs) <? 0) with false by (pose proof (zlen_nonneg (map fst xs)); lia).
  cbn [Z.to_nat firstn clear_chars bind fold_right].
  assert (Ca : create_aligns s = aligns_from (pre ++ map fst xs ++ post) 0) by (unfold create_aligns; now rewrite R).
  match goal with |- context [foldR _ _ ?st0] =>
    destruct (exp_loop (create_aligns s) post xs (same pre) st0) as (st & E & V1 & A1 & T1 & S1 & F1); cbn [t_runes t_off t_shift t_ao t_cells t_al t_text vals]; auto end.
  - rewrite Ca, map_app, map_fst_same, <- app_assoc. reflexivity.
  - rewrite map_fst_same. reflexivity.
  - rewrite map_fst_same, exp_text_same. unfold bytes. lia.
  - unfold vals. cbn [t_cells t_ao]. fold (ns_ao_values n). rewrite Fv, aligns_from_app, exp_ao_same, map_fst_same. reflexivity.
  - rewrite E. cbn [bind t_al t_text app] in *. rewrite map_fst_same in *.
    assert (Es : exists ao' cells', end_shift (create_aligns s) (i + k) (t_shift st) (t_ao st) (t_cells st) = Ok (ao', cells') /\
       map (cell cells') ao' = exp_ao (same pre ++ xs ++ same post) 0).
    { rewrite map_app, map_fst_same, bytes_app in V1, S1. fold i k in V1, S1.
      assert (X : zlen (exp_text (same pre ++ xs)) = i + zlen (exp_text xs)).
      { unfold exp_text at 1. rewrite map_app, concat_app, zlen_app. fold (exp_text (same pre)) (exp_text xs). now rewrite exp_text_same. }
      assert (Goal_ao : exp_ao (same pre ++ xs ++ same post) 0 = exp_ao (same pre ++ xs) 0 ++ aligns_from post (i + zlen (exp_text xs))).
      { rewrite app_assoc, (exp_ao_app (same pre ++ xs) (same post)), Z.add_0_l, X, exp_ao_same. reflexivity. }
      assert (S2 : t_shift st = i + zlen (exp_text xs) - (i + k)) by (rewrite S1; f_equal; exact X). clear S1.
      unfold end_shift. destruct (Z.eqb_spec (t_shift st) 0) as [E0|E0].
      - eexists _, _. split; [reflexivity|]. fold (vals st). rewrite V1, Goal_ao. replace (i + zlen (exp_text xs)) with (i + k) by lia. reflexivity.
      - rewrite La, zslice_eq by lia. cbn [bind].
        assert (Tl : part (i + k) (zlen s) (create_aligns s) = aligns_from post (i + k)).
        { rewrite Ca, app_assoc, aligns_from_app, bytes_app. fold i k. rewrite Z.add_0_l.
          rewrite <- (app_nil_r (aligns_from post (i + k))) at 1. apply part_mid; rewrite zlen_aligns, ?bytes_app; fold i k j; lia. }
        rewrite Tl. destruct post as [|r post'].
        + cbn [aligns_from expand]. eexists _, _. split; [reflexivity|]. fold (vals st). rewrite V1, Goal_ao. reflexivity.
        + set (post := r :: post') in *. destruct (aligns_nonempty r post' (i + k)) as (q & l & Eq & Hq). fold post in Eq. rewrite Eq.
          cbn [expand]. rewrite <- Eq, Hq, aligns_last by (subst post; discriminate). fold j.
          assert (Lao : zlen (t_ao st) = i + k + j).
          { assert (Lv : zlen (vals st) = zlen (t_ao st)) by (unfold vals, zlen; now rewrite map_length).
            rewrite <- Lv, V1, zlen_app, zlen_exp_ao, zlen_aligns, map_app, map_fst_same, bytes_app. fold i k j. lia. }
          rewrite zslice_eq by lia. cbn [bind].
          destruct (realloc _ _ _ _ _) as [ao' cells'] eqn:Er. eexists _, _. split; [reflexivity|].
          apply realloc_values in Er; [|exact F1]. rewrite Er. fold (vals st).
          rewrite <- (map_map (cell (t_cells st)) (fun v => (apply_sign (fst v) (t_shift st), apply_sign (snd v) (t_shift st)))).
          rewrite map_part. fold (vals st). rewrite V1.
          rewrite firstn_app_z by (rewrite zlen_exp_ao, map_app, map_fst_same, bytes_app; reflexivity).
          assert (Lt : (length (exp_ao (same pre ++ xs) 0 ++ aligns_from post (i + k)) <= Z.to_nat (i + k + j))%nat).
          { rewrite app_length. pose proof (zlen_exp_ao (same pre ++ xs) 0) as L1. rewrite map_app, map_fst_same, bytes_app in L1.
            pose proof (zlen_aligns post (i + k)) as L2. unfold zlen in L1, L2. fold i in L1. change (bytes (map fst xs)) with k in L1. fold j in L2. lia. }
          rewrite skipn_all2. 2:{ etransitivity; [exact Lt|]. lia. }
          rewrite app_nil_r, Goal_ao. f_equal.
          rewrite <- (app_nil_r (aligns_from post (i + k))).
          rewrite part_mid by (rewrite ?zlen_exp_ao, ?zlen_aligns, ?map_app, ?map_fst_same, ?bytes_app; fold i k j; lia).
          pose proof (zlen_nonneg (exp_text xs)). rewrite aligns_shift by lia. f_equal. lia. }
    destruct Es as (ao' & cells' & Ee & Ev). rewrite Ee. cbn [bind].
    eexists. split; [reflexivity|]. cbn [ns_orig ns_norm ns_al]. split; [reflexivity|]. split; [|split].
    + rewrite T1. subst s. rewrite !encode_app. rewrite firstn_app_z by reflexivity.
      rewrite skipn_app_z by reflexivity. reflexivity.
    + rewrite A1, Ca, !aligns_from_app, !exp_al_app, !exp_al_same, map_fst_same. rewrite !Z.add_0_l. fold i k.
      rewrite firstn_app_z by apply zlen_aligns.
      rewrite skipn_app_z by (rewrite !zlen_aligns; reflexivity). reflexivity.
    + unfold ns_ao_values. cbn [ns_ao ns_cells]. exact Ev.
Qed.

Theorem expansion_range pre xs post :
  Forall scalar pre -> Forall (fun x => scalar (fst x)) xs -> Forall scalar post -> Forall exp_ok xs ->
  exists n', transform_range (new_ns (encode (pre ++ map fst xs ++ post)))
      (Rng (zlen (encode pre)) (zlen (encode (pre ++ map fst xs))) OnNormalized) (flat_map exp_items xs) 0 = Ok n' /\
    ns_orig n' = encode (pre ++ map fst xs ++ post) /\
    ns_norm n' = encode pre ++ exp_text xs ++ encode post /\
    ns_al n' = exp_al (same pre ++ xs ++ same post) 0 /\
    ns_ao_values n' = exp_ao (same pre ++ xs ++ same post) 0.
Proof.
  intros Sp Sx Sq Hok.
  replace (zlen (encode (pre ++ map fst xs))) with (bytes pre + bytes (map fst xs)) by (unfold bytes; rewrite encode_app, zlen_app; reflexivity).
  refine (expansion_range_gen pre xs post _ OnNormalized Sp Sx Sq Hok (new_fresh _ _) _);
    [rewrite !Forall_app; repeat split; auto; now apply Forall_map|].
  unfold target, into_full_range. cbn [r_on r_start r_end new_ns ns_norm]. pose proof (bytes_nonneg pre).
  replace (bytes pre =? -1) with false by lia.
  rewrite !encode_app, !zlen_app. fold (bytes pre) (bytes (map fst xs)) (bytes post). pose proof (bytes_nonneg post).
  match goal with |- context [?a <? ?b] => replace (a <? b) with false by (unfold bytes in *; lia) end. reflexivity.
Qed.

Theorem expansion_exact xs :
  Forall (fun x => scalar (fst x)) xs -> Forall exp_ok xs ->
  exists n', transform (new_ns (encode (map fst xs))) (flat_map exp_items xs) 0 = Ok n' /\
    ns_orig n' = encode (map fst xs) /\ ns_norm n' = exp_text xs /\
    ns_al n' = exp_al xs 0 /\ ns_ao_values n' = exp_ao xs 0.
Proof.
  intros Sc Hok. destruct xs as [|x xs]; [eexists; split; [reflexivity|repeat split]|]. set (l := x :: xs) in *.
  assert (V : valid_utf8 (encode (map fst l))) by (exists (map fst l); split; [now apply Forall_map|reflexivity]).
  destruct (target_fresh (encode (map fst l)) V) as (on & T).
  pose proof (expansion_range_gen [] l [] (new_ns (encode (map fst l))) OnOriginal) as X.
  cbn [app same map] in X. rewrite !app_nil_r in X. change (bytes []) with 0 in X. rewrite Z.add_0_l in X.
  apply X; auto; [apply new_fresh; now apply Forall_map|]. unfold target in *. cbn [r_on] in *. unfold bytes. rewrite T.
  assert (on = OnNormalized); [|now subst].
  revert T. unfold convert_offset, into_full_range. cbn [r_on r_start r_end new_ns ns_orig]. change (0 =? -1) with false. cbn iota.
  rewrite Z.ltb_irrefl.
  assert (0 < zlen (encode (map fst l))) by (subst l; cbn [map]; rewrite encode_cons, zlen_app; pose proof (zlen_rune (fst x)); pose proof (zlen_nonneg (encode (map fst xs))); lia).
  replace (0 =? zlen (encode (map fst l))) with false by lia.
  destruct (_ || _); [discriminate|]. destruct (zslice _ _ _); cbn [bind]; try discriminate.
  destruct (expand _) as [[u v]|]; [|discriminate]. intros [= _ _ <-]. reflexivity.
Qed.

(** ** (B) Dropped characters in single-byte text *)
Lemma single_bytes rs : Forall single_byte rs -> encode rs = rs.
Proof.
  induction 1 as [|r rs H _ IH]; [reflexivity|]. rewrite encode_cons, IH. unfold encode_rune.
  unfold single_byte in H. destruct (N.ltb_spec r 128); [reflexivity|lia].
Qed.
Lemma single_scalar rs : Forall single_byte rs -> Forall scalar rs.
Proof. apply Forall_impl. unfold single_byte, scalar. intros; lia. Qed.
Lemma single_rune r : single_byte r -> zlen (encode_rune r) = 1.
Proof. unfold single_byte. intros H. unfold encode_rune. destruct (N.ltb_spec r 128); [reflexivity|lia]. Qed.
Lemma single_len rs : Forall single_byte rs -> bytes rs = zlen rs.
Proof. intros H. unfold bytes. now rewrite single_bytes. Qed.

Lemma single_addrs rs : Forall single_byte rs -> forall a, addrs_from rs a = seq a (length rs).
Proof.
  induction 1 as [|r rs H _ IH]; intros a; [reflexivity|]. cbn [addrs_from length seq].
  apply single_rune in H. unfold zlen in H. replace (length (encode_rune r)) with 1%nat by lia. cbn. now rewrite IH.
Qed.
Lemma single_cells rs : Forall single_byte rs -> forall cur i, (i < length rs)%nat ->
  nth i (cells_from rs cur) (0, 0) = (cur + Z.of_nat i, cur + Z.of_nat i + 1).
Proof.
  induction 1 as [|r rs H _ IH]; intros cur i Hi; [cbn in Hi; lia|]. cbn [cells_from]. rewrite single_rune by assumption.
  destruct i as [|i]; cbn [nth]; [f_equal; lia|]. cbn in Hi. rewrite IH by lia. f_equal; lia.
Qed.
Lemma single_aligns rs : Forall single_byte rs -> forall cur i, (i < length rs)%nat ->
  nth_error (aligns_from rs cur) i = Some (cur + Z.of_nat i, cur + Z.of_nat i + 1).
Proof.
  induction 1 as [|r rs H _ IH]; intros cur i Hi; [cbn in Hi; lia|]. cbn [aligns_from].
  apply single_rune in H. unfold zlen in H. replace (length (encode_rune r)) with 1%nat by lia. cbn [repeat app].
  destruct i as [|i]; cbn [nth_error]; [do 2 f_equal; lia|]. cbn in Hi. rewrite IH by lia. do 2 f_equal; lia.
Qed.

(** Writes through addresses. *)
Lemma cell_upd cs a v b : (a < length cs)%nat -> cell (upd cs a v) b = if (a =? b)%nat then v else cell cs b.
Proof.
  intros H. unfold cell. rewrite nth_upd. destruct (Nat.eqb_spec a b) as [->|Hn].
  - rewrite Nat.eqb_refl. apply Nat.ltb_lt in H. rewrite H. reflexivity.
  - destruct (Nat.eqb_spec b a); [congruence|]. reflexivity.
Qed.

Lemma fold_write l v : forall cs, Forall (fun a => (a < length cs)%nat) l -> forall b,
  cell (fold_left (fun cs a => upd cs a v) l cs) b = if existsb (Nat.eqb b) l then v else cell cs b.
Proof.
  induction l as [|a l IH]; intros cs F b; [reflexivity|]. inversion F as [|x y Fa Fl]; subst. cbn [fold_left existsb].
  rewrite IH by (rewrite upd_length; exact Fl). rewrite cell_upd by assumption. rewrite (Nat.eqb_sym b a).
  destruct (a =? b)%nat, (existsb (Nat.eqb b) l); reflexivity.
Qed.
Lemma existsb_seq b a k : existsb (Nat.eqb b) (seq a k) = ((a <=? b) && (b <? a + k))%nat.
Proof.
  destruct (existsb (Nat.eqb b) (seq a k)) eqn:E; symmetry.
  - apply existsb_exists in E. destruct E as (x & Hx & Hb). apply in_seq in Hx. apply Nat.eqb_eq in Hb. lia.
  - destruct ((a <=? b) && (b <? a + k))%nat eqn:E2; [|reflexivity]. exfalso.
    assert (existsb (Nat.eqb b) (seq a k) = true); [|congruence]. apply existsb_exists. exists b.
    split; [apply in_seq; lia|apply Nat.eqb_refl].
Qed.

(** State while position [P] of [L] single bytes is reached and [O] bytes are out. *)
Definition bstate (L P : nat) (O : Z) (dn : list edit) (st : tstate) : Prop :=
  (P <= L)%nat /\ Forall single_byte (t_runes st) /\ (L - P <= length (t_runes st))%nat /\
  t_off st = Z.of_nat P /\ t_shift st = O - Z.of_nat P /\ 0 <= O /\
  (L <= length (t_cells st))%nat /\
  (forall i, (P <= i < L)%nat -> cell (t_cells st) i = (Z.of_nat i, Z.of_nat i + 1)) /\
  exists pre, t_ao st = pre ++ seq P (L - P) /\ length pre = P /\
    Forall (fun a => (a < P \/ L <= a) /\ a < length (t_cells st))%nat pre /\
    map (cell (t_cells st)) pre = edit_ao dn 0.

Lemma take_removed_single k : forall rs, Forall single_byte rs -> (k <= length rs)%nat ->
  take_removed k rs = (Z.of_nat k, skipn k rs).
Proof.
  intros rs F H. rewrite take_removed_spec by assumption. f_equal.
  rewrite single_len by now apply Forall_firstn. unfold zlen. rewrite firstn_length. lia.
Qed.

Lemma part_seq a b i j : (a <= i)%nat -> (i <= j)%nat -> (j <= b)%nat ->
  part (Z.of_nat (i - a)) (Z.of_nat (j - a)) (seq a (b - a)) = seq i (j - i).
Proof.
  intros H1 H2 H3. unfold part.
  replace (seq a (b - a)) with (seq a (i - a) ++ seq i (j - i) ++ seq j (b - j)).
  - apply part_mid; unfold zlen; rewrite seq_length; lia.
  - replace (b - a)%nat with ((i - a) + ((j - i) + (b - j)))%nat by lia. rewrite !seq_app.
    do 2 f_equal; f_equal; lia.
Qed.

Notation group_ := (N * str * list N)%type (only parsing).
Definition gr (g : group_) : list edit :=
  let '(r, s, d) := g in (r, Some s) :: map (fun x => (x, None)) d.

Lemma edit_ao_app a b : forall o, edit_ao (a ++ b) o = edit_ao a o ++ edit_ao b (o + zlen (edit_text a)).
Proof.
  induction a as [|[r [s|]] a IH]; intros o; cbn [app edit_ao].
  - cbn. now rewrite Z.add_0_r.
  - rewrite IH. unfold edit_text. cbn [map concat snd]. rewrite zlen_app. do 3 f_equal. lia.
  - rewrite IH. reflexivity.
Qed.
Lemma edit_al_app a b : forall p, edit_al (a ++ b) p = edit_al a p ++ edit_al b (p + zlen a).
Proof.
  induction a as [|[r [s|]] a IH]; intros p; cbn [app edit_al].
  - cbn. now rewrite Z.add_0_r.
  - rewrite IH, <- app_assoc. do 3 f_equal. unfold zlen. cbn [length]. lia.
  - rewrite IH. do 2 f_equal. unfold zlen. cbn [length]. lia.
Qed.
Lemma edit_ao_drops d o : edit_ao (map (fun x => (x, None)) d) o = repeat (o, o) (length d).
Proof. induction d as [|x d IH]; [reflexivity|]. cbn. now rewrite IH. Qed.
Lemma edit_al_drops d : forall p, edit_al (map (fun x => (x, None)) d) p = [].
Proof. induction d as [|x d IH]; intros p; [reflexivity|]. cbn. apply IH. Qed.
Lemma edit_text_drops d : edit_text (map (fun x => (x, None)) d) = [].
Proof. induction d as [|x d IH]; [reflexivity|]. unfold edit_text in *. cbn. exact IH. Qed.
Lemma edit_text_app a b : edit_text (a ++ b) = edit_text a ++ edit_text b.
Proof. unfold edit_text. now rewrite map_app, concat_app. Qed.

Lemma group_item al L st P O dn r s d :
  (forall i, (i < L)%nat -> zindex al (Z.of_nat i) = Ok (Z.of_nat i, Z.of_nat i + 1)) -> zlen al = Z.of_nat L ->
  bstate L P O dn st -> O = zlen (edit_text dn) -> (P + 1 + length d <= L)%nat ->
  exists st', t_item al st (s, - Z.of_nat (length d)) = Ok st' /\
    bstate L (P + 1 + length d) (O + zlen s) (dn ++ gr (r, s, d)) st' /\
    t_al st' = t_al st ++ repeat (Z.of_nat P, Z.of_nat P + 1) (length s) /\
    t_text st' = t_text st ++ encode (runes s).
Proof.
  intros Hal Lal (B0 & B1 & B2 & B3 & B4 & B5 & B6 & B7 & pre & Hpre & Lpre & Fpre & Vpre) HO Hd.
  set (k := length d) in *. unfold t_item. fold (item_align al (t_off st) (- Z.of_nat k)).
  assert (Ha : item_align al (t_off st) (- Z.of_nat k) = Ok (Z.of_nat P, Z.of_nat P + 1)).
  { unfold item_align. replace (0 <? - Z.of_nat k) with false by lia. rewrite B3, Lal.
    replace (Z.of_nat L <=? Z.of_nat P) with false by lia. apply Hal. lia. }
  rewrite Ha. cbn [bind fst snd]. replace (- Z.of_nat k <=? 0) with true by lia.
  destruct (t_runes st) as [|rc rs1] eqn:Er; [cbn in B2; lia|]. cbn [next_rune].
  inversion B1 as [|x y Hrc Frs]; subst x y. cbn [length] in B2.
  assert (Hz : (rc =? 0)%N = false) by (unfold single_byte in Hrc; lia). rewrite Hz, (single_rune rc) by assumption.
  rewrite Z.opp_involutive, Nat2Z.id, take_removed_single by (assumption || lia).
  assert (Hrf : (if (0 <? Z.of_nat k) && (t_off st <? zlen al) then
       do p <- zindex al (t_off st);
       let end_idx := if zlen al <=? t_off st + Z.of_nat k then zlen al - 1 else t_off st + Z.of_nat k in
       do q <- zindex al end_idx;
       let rfo := Z.max 0 (snd q - snd p) in Ok (rfo, Z.of_nat k - rfo)
     else Ok (0, 0)) = Ok (Z.of_nat k, 0)).
  { rewrite B3, Lal. replace (Z.of_nat P <? Z.of_nat L) with true by lia. rewrite andb_true_r.
    destruct (Z.ltb_spec 0 (Z.of_nat k)); [|repeat f_equal; lia].
    rewrite Hal by lia. cbn [bind]. replace (Z.of_nat L <=? Z.of_nat P + Z.of_nat k) with false by lia.
    cbn zeta. rewrite <- Nat2Z.inj_add, Hal by lia. cbn [bind snd]. repeat f_equal; lia. }
  cbn zeta in Hrf. rewrite Hrf. cbn [bind].
  assert (Lao : zlen (t_ao st) = Z.of_nat L).
  { rewrite Hpre, zlen_app. unfold zlen. rewrite seq_length. lia. }
  rewrite zslice_eq by lia. cbn [bind].
  assert (Hseq : seq P (L - P) = P :: seq (P + 1) k ++ seq (P + 1 + k) (L - (P + 1 + k))).
  { replace (L - P)%nat with (1 + (k + (L - (P + 1 + k))))%nat by lia. rewrite seq_app.
    cbn [seq app]. f_equal. rewrite <- seq_app. reflexivity. }
  assert (Hone : part (Z.of_nat P) (Z.of_nat P + 1) (t_ao st) = [P]).
  { rewrite Hpre, Hseq. apply (part_mid pre [P]); unfold zlen; cbn [length]; lia. }
  rewrite Hone. cbn [map]. rewrite (B7 P) by lia. cbn [expand last fst snd].
  replace (Z.of_nat P + 1 - Z.of_nat P) with 1 by lia.
  set (np := new_pair (zlen s) (- Z.of_nat k) (zlen s - 1) (zlen s - 1) 0 (t_shift st) (Z.of_nat P, Z.of_nat P + 1)).
  assert (Hnp : np = (O, O + zlen s)).
  { subst np. unfold new_pair. replace (0 <? - Z.of_nat k) with false by lia. rewrite Z.eqb_refl, orb_true_r.
    cbn [fst snd]. unfold apply_sign. rewrite B4. pose proof (zlen_nonneg s).
    repeat match goal with |- context [?a <? 0] => replace (a <? 0) with false by lia end. f_equal; lia. }
  rewrite Hnp. unfold realloc. cbn [length seq].
  set (new := length (t_cells st)).
  set (cells1 := t_cells st ++ [(O, O + zlen s)]).
  assert (Hao1 : firstn (Z.to_nat (Z.of_nat P)) (t_ao st) ++ [new] ++ skipn (Z.to_nat (Z.of_nat P + 1)) (t_ao st)
                 = (pre ++ [new]) ++ seq (P + 1) k ++ seq (P + 1 + k) (L - (P + 1 + k))).
  { rewrite Hpre, Hseq. rewrite firstn_app_z by (unfold zlen; lia).
    pose proof (skipn_app_z pre [P] (seq (P + 1) k ++ seq (P + 1 + k) (L - (P + 1 + k))) (Z.of_nat P + 1)) as X.
    cbn [app] in X. rewrite X by (unfold zlen; cbn [length]; lia).
    now rewrite <- app_assoc. }
  rewrite Hao1.
  set (ao1 := (pre ++ [new]) ++ seq (P + 1) k ++ seq (P + 1 + k) (L - (P + 1 + k))).
  assert (Lpre1 : zlen (pre ++ [new]) = Z.of_nat P + 1) by (rewrite zlen_app; unfold zlen; cbn [length]; lia).
  assert (Lao1 : zlen ao1 = Z.of_nat L).
  { unfold ao1. rewrite zlen_app, Lpre1, zlen_app. unfold zlen. rewrite !seq_length. lia. }
  assert (Lc1 : length cells1 = S new) by (unfold cells1; rewrite app_length; cbn; fold new; lia).
  assert (Hw : exists cells2,
     (if 0 <? Z.of_nat k then
        do p <- zindex al (t_off st);
        do q <- zindex al (t_off st + Z.of_nat k);
        do a0 <- zindex ao1 (Z.of_nat P);
        let new_idx := snd (cell cells1 a0) in
        do gone <- zslice ao1 (snd p) (snd q);
        Ok (fold_left (fun cs a => upd cs a (new_idx, new_idx)) gone cells1)
      else Ok cells1) = Ok cells2 /\ length cells2 = S new /\
     forall b, cell cells2 b = if ((P + 1 <=? b) && (b <? P + 1 + k))%nat then (O + zlen s, O + zlen s) else cell cells1 b).
  { destruct (Z.ltb_spec 0 (Z.of_nat k)) as [Hk|Hk].
    - rewrite B3, Hal by lia. cbn [bind]. rewrite <- Nat2Z.inj_add, Hal by lia. cbn [bind].
      assert (Ei : zindex ao1 (Z.of_nat P) = Ok new).
      { unfold zindex. replace (0 <=? Z.of_nat P) with true by lia. unfold ao1. rewrite <- app_assoc.
        rewrite nth_error_app2 by lia. rewrite Nat2Z.id, Lpre, Nat.sub_diag. reflexivity. }
      rewrite Ei. cbn [bind snd]. rewrite zslice_eq by lia. cbn [bind].
      assert (Ec : cell cells1 new = (O, O + zlen s)).
      { unfold cell, cells1. rewrite app_nth2 by (subst new; lia). subst new. now rewrite Nat.sub_diag. }
      rewrite Ec. cbn [snd].
      assert (Eg : part (Z.of_nat P + 1) (Z.of_nat (P + k) + 1) ao1 = seq (P + 1) k).
      { unfold ao1. apply part_mid; [exact Lpre1|]. unfold zlen. rewrite seq_length. lia. }
      rewrite Eg. eexists. split; [reflexivity|].
      assert (Fs : Forall (fun a => (a < length cells1)%nat) (seq (P + 1) k)).
      { apply Forall_forall. intros a Ha'. apply in_seq in Ha'. rewrite Lc1. lia. }
      split.
      + rewrite fold_upd_length; [exact Lc1|]. intros. apply upd_length.
      + intros b. rewrite fold_write by exact Fs. now rewrite existsb_seq.
    - exists cells1. split; [reflexivity|]. split; [exact Lc1|]. intros b.
      replace ((P + 1 <=? b) && (b <? P + 1 + k))%nat with false by lia. reflexivity. }
  destruct Hw as (cells2 & Ew & Lc2 & Hc2). cbn zeta in Ew. cbn [app] in Ew. rewrite Ew. cbn [bind].
  eexists. split; [reflexivity|]. cbn [t_al t_text]. split; [|split; reflexivity].
  unfold bstate. cbn [t_runes t_off t_shift t_cells t_ao].
  assert (Hnew : (L <= new)%nat) by (subst new; lia).
  split; [lia|]. split; [now apply Forall_skipn|]. split; [rewrite skipn_length; lia|].
  split; [lia|]. split; [lia|]. split; [pose proof (zlen_nonneg s); lia|]. split; [lia|]. split.
  - intros i Hi. rewrite Hc2. replace ((P + 1 <=? i) && (i <? P + 1 + k))%nat with false by lia.
    unfold cells1. rewrite cell_app by (fold new; lia). apply B7. lia.
  - exists (pre ++ [new] ++ seq (P + 1) k). split; [unfold ao1; now rewrite <- !app_assoc|].
    split; [rewrite !app_length, seq_length; cbn [length]; lia|]. split.
    + rewrite !Forall_app. rewrite Lc2. split; [|split].
      * eapply Forall_impl; [|exact Fpre]. cbn. fold new. intros a; lia.
      * constructor; [lia|constructor].
      * apply Forall_forall. intros a Ha'. apply in_seq in Ha'. lia.
    + rewrite !map_app. rewrite edit_ao_app, <- HO, Z.add_0_l. f_equal.
      * rewrite <- Vpre. apply map_ext_in. intros a Ha'. rewrite Forall_forall in Fpre. specialize (Fpre a Ha').
        rewrite Hc2. replace ((P + 1 <=? a) && (a <? P + 1 + k))%nat with false by lia.
        unfold cells1. apply cell_app. lia.
      * cbn [gr edit_ao map]. rewrite edit_ao_drops. cbn [app]. f_equal.
        -- rewrite Hc2. replace ((P + 1 <=? new) && (new <? P + 1 + k))%nat with false by lia.
           unfold cell, cells1. rewrite app_nth2 by (subst new; lia). subst new. now rewrite Nat.sub_diag.
        -- fold k. clear -Hc2.
           assert (G : forall l, (forall b, In b l -> In b (seq (P + 1) k)) ->
                     map (cell cells2) l = repeat (O + zlen s, O + zlen s) (length l)).
           { induction l as [|b l IH]; intros Hl; [reflexivity|]. cbn. rewrite IH by (intros; apply Hl; now right). f_equal.
             rewrite Hc2. specialize (Hl b (or_introl eq_refl)). apply in_seq in Hl.
             replace ((P + 1 <=? b) && (b <? P + 1 + k))%nat with true by lia. reflexivity. }
           rewrite (G (seq (P + 1) k)) by auto. now rewrite seq_length.
Qed.

Lemma edit_groups es : exists d0 gs, es = map (fun x => (x, None)) d0 ++ flat_map gr gs.
Proof.
  induction es as [|[r [s|]] es (d0 & gs & IH)].
  - exists [], []. reflexivity.
  - exists [], ((r, s, d0) :: gs). cbn. now rewrite IH.
  - exists (r :: d0), gs. cbn. now rewrite IH.
Qed.
Definition gr_item (g : group_) : str * Z := let '(_, s, d) := g in (s, - Z.of_nat (length d)).
Lemma edit_items_drops d X items : edit_items X = (items, 0) ->
  edit_items (map (fun x => (x, None)) d ++ X) = (items, Z.of_nat (length d)).
Proof.
  intros H. induction d as [|x d IH]; [exact H|]. cbn [map app edit_items length]. rewrite IH. f_equal. lia.
Qed.
Lemma edit_items_groups gs : edit_items (flat_map gr gs) = (map gr_item gs, 0).
Proof.
  induction gs as [|[[r s] d] gs IH]; [reflexivity|]. cbn [flat_map gr app edit_items].
  rewrite (edit_items_drops d _ _ IH). reflexivity.
Qed.
Lemma zlen_gr r s d : zlen (gr (r, s, d)) = 1 + Z.of_nat (length d).
Proof. unfold zlen, gr. cbn [length]. rewrite map_length. lia. Qed.

Lemma group_loop al L gs : forall st P dn,
  (forall i, (i < L)%nat -> zindex al (Z.of_nat i) = Ok (Z.of_nat i, Z.of_nat i + 1)) -> zlen al = Z.of_nat L ->
  bstate L P (zlen (edit_text dn)) dn st -> Z.of_nat P = zlen dn -> (P + length (flat_map gr gs) = L)%nat ->
  Forall (fun g => valid_utf8 (snd (fst g))) gs ->
  t_al st = edit_al dn 0 -> t_text st = edit_text dn ->
  exists st', foldR (t_item al) (map gr_item gs) st = Ok st' /\
    bstate L L (zlen (edit_text (dn ++ flat_map gr gs))) (dn ++ flat_map gr gs) st' /\
    t_al st' = edit_al (dn ++ flat_map gr gs) 0 /\ t_text st' = edit_text (dn ++ flat_map gr gs).
Proof.
  induction gs as [|[[r s] d] gs IH]; intros st P dn Hal Lal B HP HL V A T.
  - exists st. cbn in *. rewrite app_nil_r. replace L with P in * by lia. auto.
  - inversion V as [|x y Vs V']; subst x y. cbn [fst snd] in Vs.
    cbn [flat_map] in HL. rewrite app_length in HL.
    assert (Hlen : length (gr (r, s, d)) = (1 + length d)%nat) by (pose proof (zlen_gr r s d) as G; unfold zlen in G; lia).
    rewrite Hlen in HL.
    destruct (group_item al L st P _ dn r s d Hal Lal B eq_refl) as (st1 & E1 & B1 & A1 & T1); [lia|].
    assert (Ht : edit_text (gr (r, s, d)) = s).
    { unfold gr. change ((r, Some s) :: ?x) with ([(r, Some s)] ++ x). rewrite edit_text_app, edit_text_drops. unfold edit_text. cbn. now rewrite !app_nil_r. }
    cbn [map gr_item foldR]. rewrite E1. cbn [bind].
    cbn [flat_map]. rewrite !app_assoc.
    apply (IH st1 (P + 1 + length d)%nat (dn ++ gr (r, s, d))); auto.
    + rewrite edit_text_app, zlen_app, Ht. exact B1.
    + rewrite zlen_app, zlen_gr. lia.
    + lia.
    + rewrite A1, A, edit_al_app, <- HP, Z.add_0_l. f_equal. cbn [gr edit_al]. rewrite edit_al_drops. symmetry. apply app_nil_r.
    + rewrite T1, T, edit_text_app, Ht. f_equal. now apply runes_valid_id.
Qed.

(** Removal of the leading characters. *)
Lemma clear_single rs L : Forall single_byte rs -> length rs = L -> forall k cs p st,
  (p + k <= L)%nat -> length cs = k -> Forall single_byte cs ->
  (L <= length (snd st))%nat -> fst st = Z.of_nat L ->
  (forall i, (i < p)%nat -> cell (snd st) i = (0, 0)) ->
  (forall i, (p <= i < L)%nat -> cell (snd st) i = (Z.of_nat i, Z.of_nat i + 1)) ->
  exists st', clear_chars (aligns_from rs 0) (seq 0 L) cs (Z.of_nat p) (Z.of_nat p) st = Ok st' /\
    fst st' = Z.of_nat L /\ length (snd st') = length (snd st) /\
    (forall i, (i < p + k)%nat -> cell (snd st') i = (0, 0)) /\
    (forall i, (p + k <= i < L)%nat -> cell (snd st') i = (Z.of_nat i, Z.of_nat i + 1)).
Proof.
  intros Hrs HL. induction k as [|k IH]; intros cs p st Hp Hcs Fcs Lc Ess H0 H1.
  - destruct cs; [|discriminate Hcs]. exists st. rewrite Nat.add_0_r. cbn. repeat split; auto.
  - destruct cs as [|c cs]; [discriminate Hcs|]. inversion Fcs as [|x y Fc Fcs']; subst x y.
    cbn [clear_chars]. rewrite (single_rune c Fc).
    assert (La : zlen (aligns_from rs 0) = Z.of_nat L) by (rewrite zlen_aligns, single_len by assumption; unfold zlen; lia).
    rewrite zslice_eq by lia. cbn [bind].
    assert (Ep : part (Z.of_nat p) (Z.of_nat p + 1) (aligns_from rs 0) = [(Z.of_nat p, Z.of_nat p + 1)]).
    { unfold part. replace (Z.to_nat (Z.of_nat p + 1 - Z.of_nat p)) with 1%nat by lia. rewrite Nat2Z.id.
      pose proof (single_aligns rs Hrs 0 p ltac:(lia)) as E. rewrite Z.add_0_l in E.
      apply nth_error_split in E. destruct E as (l1 & l2 & E & El). rewrite E, skipn_app.
      rewrite skipn_all2 by lia. replace (p - length l1)%nat with 0%nat by lia. reflexivity. }
    rewrite Ep. cbn [expand last fst snd].
    rewrite zslice_eq by (unfold zlen; rewrite ?seq_length; lia). cbn [bind].
    assert (Eq : part (Z.of_nat p) (Z.of_nat p + 1) (seq 0 L) = [p]).
    { replace L with (p + (1 + (L - p - 1)))%nat by lia. rewrite seq_app. apply (part_mid (seq 0 p) [p]); unfold zlen; rewrite ?seq_length; cbn [length]; lia. }
    rewrite Eq. cbn [fold_left].
    destruct st as [ess cells]. cbn [fst snd] in *. unfold clear_cell at 1. rewrite (H1 p) by lia. subst ess.
    replace (Z.of_nat L <? Z.of_nat p + 1) with false by lia.
    assert (Ha : apply_sign (Z.of_nat p + 1) (- (Z.of_nat p + 1)) = 0) by (unfold apply_sign; replace (Z.of_nat p + 1 + - (Z.of_nat p + 1) <? 0) with false by lia; lia).
    rewrite Ha.
    replace (if 0 <? Z.of_nat p then 0 else Z.of_nat p) with 0 by (destruct (Z.ltb_spec 0 (Z.of_nat p)); lia).
    replace (Z.of_nat p + 1) with (Z.of_nat (S p)) by lia.
    destruct (IH cs (S p) (Z.of_nat L, upd cells p (0, 0))) as (st' & E' & P1 & P2 & P3 & P4); cbn [fst snd]; auto; try lia.
    + rewrite upd_length. exact Lc.
    + intros i Hi. rewrite cell_upd by lia. destruct (Nat.eqb_spec p i); [reflexivity|]. apply H0. lia.
    + intros i Hi. rewrite cell_upd by lia. destruct (Nat.eqb_spec p i); [lia|]. apply H1. lia.
    + exists st'. split; [exact E'|]. split; [exact P1|]. split; [rewrite P2; cbn [snd]; apply upd_length|].
      split; intros i Hi; [apply P3|apply P4]; lia.
Qed.

Theorem edit_exact es items initial :
  Forall single_byte (map fst es) -> Forall (fun e => forall s, snd e = Some s -> valid_utf8 s) es ->
  edit_items es = (items, initial) ->
  exists n', transform (new_ns (map fst es)) items initial = Ok n' /\
    ns_orig n' = map fst es /\ ns_norm n' = edit_text es /\
    ns_al n' = edit_al es 0 /\ ns_ao_values n' = edit_ao es 0.
Proof.
  intros Sb Vs Ei. destruct (edit_groups es) as (d0 & gs & Ees).
  assert (Eit : edit_items es = (map gr_item gs, Z.of_nat (length d0))).
  { rewrite Ees. apply edit_items_drops, edit_items_groups. }
  rewrite Eit in Ei. injection Ei as <- <-. clear Eit.
  set (s := map fst es) in *. set (L := length s).
  assert (Sc : Forall scalar s) by now apply single_scalar.
  assert (Es : encode s = s) by now apply single_bytes.
  assert (R : runes s = s) by (rewrite <- Es at 1; now apply runes_encode).
  assert (V : valid_utf8 s) by (exists s; auto).
  assert (Hgs : Forall (fun g => valid_utf8 (snd (fst g))) gs).
  { apply Forall_forall. intros [[r t] d] Hg. cbn. rewrite Forall_forall in Vs. apply (Vs (r, Some t)); [|reflexivity].
    rewrite Ees. apply in_or_app. right. apply in_flat_map. exists (r, t, d). split; [exact Hg|]. now left. }
  assert (HL : (length d0 + length (flat_map gr gs) = L)%nat).
  { unfold L, s. rewrite map_length, Ees, app_length, map_length. reflexivity. }
  destruct (target_fresh s V) as (on & T).
  unfold transform, transform_range. fold (target (new_ns s) (Rng 0 (zlen (ns_orig (new_ns s))) OnOriginal)).
  cbn [ns_orig new_ns] in *. fold (new_ns s). rewrite T. cbn [bind r_start r_end]. cbn zeta.
  cbn [new_ns ns_al ns_norm ns_orig ns_ao ns_cells ns_shift].
  assert (La : zlen (create_aligns s) = zlen s).
  { unfold create_aligns. rewrite zlen_aligns. unfold bytes. now rewrite valid_utf8_runes. }
  rewrite La, Z.ltb_irrefl. pose proof (zlen_nonneg s).
  rewrite zslice_eq by lia. cbn [bind]. rewrite part_all, R.
  assert (HzL : zlen s = Z.of_nat L) by reflexivity.
  replace (zlen s <? Z.of_nat (length d0)) with false by lia. rewrite Nat2Z.id.
  unfold create_aligns. rewrite R. rewrite single_addrs by assumption. fold L. rewrite HzL.
  assert (Fd : Forall single_byte (firstn (length d0) s)) by now apply Forall_firstn.
  destruct (clear_single s L Sb eq_refl (length d0) (firstn (length d0) s) 0 (Z.of_nat L, cells_from s 0))
    as ([ess cells0] & Ec & P1 & P2 & P3 & P4); cbn [fst snd] in *; auto; try lia.
  { rewrite firstn_length. fold L. lia. }
  { rewrite cells_from_length. fold L. lia. }
  { intros i Hi. unfold cell. rewrite single_cells by (assumption || (fold L; lia)). f_equal; lia. }
  cbn [Z.of_nat] in Ec. rewrite Ec. cbn [bind]. rewrite bytes_fold.
  rewrite single_len by assumption. replace (zlen (firstn (length d0) s)) with (Z.of_nat (length d0))
    by (unfold zlen; rewrite firstn_length; fold L; lia).
  rewrite Nat.add_0_l in P3, P4.
  match goal with |- context [foldR _ _ ?st0] =>
    destruct (group_loop (aligns_from s 0) L gs st0 (length d0) (map (fun x => (x, None)) d0))
      as (st & E & (_ & _ & _ & _ & _ & _ & _ & _ & pre & Hpre & Lpre & Fpre & Vpre) & A1 & T1) end.
  - intros i Hi. unfold zindex. replace (0 <=? Z.of_nat i) with true by lia. rewrite Nat2Z.id.
    rewrite single_aligns by (assumption || (fold L; lia)). reflexivity.
  - unfold create_aligns in La. now rewrite R in La.
  - unfold bstate. cbn [t_runes t_off t_shift t_cells t_ao]. rewrite edit_text_drops. change (zlen (@nil N)) with 0.
    split; [lia|]. split; [assumption|]. split; [fold L; lia|]. split; [lia|]. split; [lia|]. split; [lia|].
    split; [rewrite P2, cells_from_length; fold L; lia|]. split; [exact P4|].
    exists (seq 0 (length d0)). split; [|split; [apply seq_length|split]].
    + replace L with (length d0 + (L - length d0))%nat at 1 by lia. now rewrite seq_app.
    + apply Forall_forall. intros a Ha. apply in_seq in Ha. rewrite P2, cells_from_length. fold L. lia.
    + rewrite edit_ao_drops. apply nth_ext with (d := (0, 0)) (d' := (0, 0)); [now rewrite map_length, seq_length, repeat_length|].
      intros i Hi. rewrite map_length, seq_length in Hi.
      rewrite nth_indep with (d' := cell cells0 0%nat) by (rewrite map_length, seq_length; exact Hi).
      rewrite map_nth, seq_nth by exact Hi. rewrite P3 by lia. symmetry. apply nth_repeat.
  - unfold zlen. now rewrite map_length.
  - exact HL.
  - exact Hgs.
  - cbn [t_al]. symmetry. apply edit_al_drops.
  - cbn [t_text]. symmetry. apply edit_text_drops.
  - rewrite E. cbn [bind].
    pose proof (end_shift_full (aligns_from s 0) (t_shift st) (t_ao st) (t_cells st)) as X.
    unfold create_aligns in La. rewrite R in La. rewrite La in X. rewrite P1, <- HzL. rewrite X. cbn [bind].
    eexists. split; [reflexivity|]. cbn [ns_orig ns_norm ns_al]. split; [reflexivity|].
    rewrite <- Ees in *. split; [rewrite T1; apply firstn_skipn_full|]. split.
    + rewrite A1. rewrite <- La. apply firstn_skipn_full.
    + unfold ns_ao_values. cbn [ns_ao ns_cells]. rewrite Hpre, Nat.sub_diag. cbn [seq]. rewrite app_nil_r. exact Vpre.
Qed.
