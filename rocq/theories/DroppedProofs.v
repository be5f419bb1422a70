(** Proofs about cleaning a text that begins with a dropped character. *)
From Coq Require Import ZifyBool ZifyN.
From Verif Require Import Base BaseProofs SliceModel SliceProofs Utf8Model Utf8Proofs NormalizedModel NormalizedSpec NormalizedProofs NormalizedInvProofs
  NormalizedOpProofs NormalizedExactProofs ExpandedProofs PlacedNormProofs BertNormModel BertNormSpec BertNormProofs.
Open Scope Z_scope.

(** The values of alignmentsOriginal during the loop. *)
Definition seen (st : tstate) : list (Z * Z) := map (cell (t_cells st)) (t_ao st).
Definition placed_in (st : tstate) : Prop := Forall (fun a => (a < length (t_cells st))%nat) (t_ao st).

Lemma one_step al st c r rs i x y : single_byte c -> t_runes st = r :: rs -> r <> 0%N -> 0 <= t_off st ->
  nth_error al (Z.to_nat (Z.min (t_off st) (zlen al - 1))) = Some (Z.of_nat i, Z.of_nat i + 1) -> 0 < zlen al ->
  nth_error (seen st) i = Some (x, y) -> placed_in st ->
  let sz := zlen (encode_rune r) in
  exists st', t_item al st ([c], 0) = Ok st' /\ placed_in st' /\ t_runes st' = rs /\ t_off st' = t_off st + sz /\
    t_shift st' = t_shift st + (1 - sz) /\
    seen st' = firstn i (seen st) ++ [new_pair 1 0 (1 - sz) (1 - (y - x)) 0 (t_shift st) (x, y)] ++ skipn (S i) (seen st).
Proof.
  intros Hc Er Hr Ho Ha Hp Hs Pl sz. unfold t_item. change (0 <? 0) with false. cbn iota. change (0 <=? 0) with true. cbn iota.
  assert (Al : (if zlen al <=? t_off st then zindex al (zlen al - 1) else zindex al (t_off st)) = Ok (Z.of_nat i, Z.of_nat i + 1)).
  { unfold zindex. destruct (Z.leb_spec (zlen al) (t_off st)).
    - replace (0 <=? zlen al - 1) with true by lia. rewrite Z.min_r in Ha by lia. now rewrite Ha.
    - replace (0 <=? t_off st) with true by lia. rewrite Z.min_l in Ha by lia. now rewrite Ha. }
  rewrite Al. cbn [bind]. rewrite Er. cbn [next_rune]. apply N.eqb_neq in Hr. rewrite Hr. cbn [Z.opp Z.to_nat take_removed].
  change ((0 <? 0) && _) with false. cbn iota. cbn [bind fst snd].
  assert (Li : (i < length (t_ao st))%nat).
  { assert (X : nth_error (seen st) i <> None) by (rewrite Hs; discriminate). apply nth_error_Some in X. unfold seen in X. now rewrite map_length in X. }
  assert (Pt : part (Z.of_nat i) (Z.of_nat i + 1) (t_ao st) = [nth i (t_ao st) 0%nat]).
  { destruct (nth_split (t_ao st) 0%nat Li) as (a & b & E & La). rewrite E at 1.
    change (nth i (t_ao st) 0%nat :: b) with ([nth i (t_ao st) 0%nat] ++ b). apply part_mid; unfold zlen; cbn [length]; lia. }
  rewrite zslice_eq by (unfold zlen; lia). rewrite Pt. cbn [bind map expand last fst snd].
  assert (Cv : cell (t_cells st) (nth i (t_ao st) 0%nat) = (x, y)).
  { unfold seen in Hs. apply nth_error_split in Hs. destruct Hs as (l1 & l2 & E & L1).
    assert (X : nth i (map (cell (t_cells st)) (t_ao st)) (cell (t_cells st) 0%nat) = (x, y)) by (rewrite E, <- L1; apply nth_middle).
    now rewrite map_nth in X. }
  rewrite Cv. cbn [fst snd]. change (zlen [c]) with 1. fold sz. unfold realloc. cbn [bind length seq].
  eexists. split; [reflexivity|]. cbn [t_runes t_off t_shift t_ao t_cells].
  assert (Pl' : Forall (fun a => (a < length (t_cells st))%nat) (t_ao st)) by exact Pl.
  split. { unfold placed_in. cbn [t_ao t_cells]. rewrite app_length. cbn [length].
    apply Forall_app. split; [|apply Forall_cons; [lia|]].
    - eapply Forall_impl; [|apply Forall_firstn, Pl']. intros; cbn in *; lia.
    - eapply Forall_impl; [|apply Forall_skipn, Pl']. intros; cbn in *; lia. }
  split; [reflexivity|]. split; [lia|]. split; [lia|].
  unfold seen. cbn [t_ao t_cells]. rewrite !map_app. cbn [map app].
  rewrite !map_cell_app by (first [apply Forall_firstn|apply Forall_skipn]; exact Pl').
  rewrite firstn_map, skipn_map. replace (Z.to_nat (Z.of_nat i)) with i by lia. replace (Z.to_nat (Z.of_nat i + 1)) with (S i) by lia.
  unfold cell at 2. rewrite nth_middle. reflexivity.
Qed.

(** What one more visit makes of the value of an original character. *)
Definition again (h : Z) (v : Z * Z) : Z * Z := new_pair 1 0 0 (1 - (snd v - fst v)) 0 h v.
Fixpoint visited (k : nat) (h : Z) (v : Z * Z) : Z * Z := match k with O => v | S k' => visited k' h (again h v) end.
Lemma visited_zero k h : h <= 0 -> visited k h (0, 0) = (0, 0).
Proof. intros H. induction k as [|k IH]; [reflexivity|]. cbn [visited]. unfold again, new_pair, apply_sign. cbn. exact IH. Qed.
Lemma visited_end d : 0 < d -> forall k x, 0 <= x -> snd (visited k (- d) (x, x + 1)) = Z.max 0 (x + 1 - Z.of_nat k * d).
Proof.
  intros Hd. induction k as [|k IH]; intros x Hx; [cbn [visited snd]; lia|]. cbn [visited].
  assert (A : again (- d) (x, x + 1) = if d <=? x then (x - d, x - d + 1) else (0, 0)).
  { unfold again, new_pair. cbn [fst snd]. change (0 <? 0) with false. cbn iota. replace (0 =? 1 - (x + 1 - x)) with true by lia.
    rewrite Bool.orb_true_r. unfold apply_sign. change (- 0) with 0.
    replace (x + 1 + 0 <? 0) with false by lia. replace (x + 1 + 0 + 0 <? 0) with false by lia.
    destruct (Z.leb_spec d x).
    - replace (x + - d <? 0) with false by lia. replace (x + 1 + 0 + 0 + - d <? 0) with false by lia. f_equal; lia.
    - replace (x + - d <? 0) with true by lia. destruct (Z.ltb_spec (x + 1 + 0 + 0 + - d) 0); f_equal; lia. }
  rewrite A. destruct (Z.leb_spec d x).
  - rewrite IH by lia. f_equal. lia.
  - rewrite visited_zero by lia. cbn [snd]. nia.
Qed.

Lemma nth_error_firstn_some' {A} (l : list A) a : forall k, (k < a)%nat -> nth_error (firstn a l) k = nth_error l k.
Proof. revert l. induction a as [|a IH]; intros l k H; [lia|]. destruct l as [|x l]; [now destruct k|]. destruct k as [|k]; [reflexivity|]. cbn. apply IH. lia. Qed.

Lemma nth_error_put {A} (l : list A) i v j : (i < length l)%nat ->
  nth_error (firstn i l ++ [v] ++ skipn (S i) l) j = if (i =? j)%nat then Some v else nth_error l j.
Proof.
  intros Hi. destruct (Nat.eqb_spec i j) as [<-|Hj].
  - rewrite nth_error_app2 by (rewrite firstn_length; lia). rewrite firstn_length. replace (i - Nat.min i (length l))%nat with 0%nat by lia. reflexivity.
  - destruct (Nat.lt_ge_cases j i).
    + rewrite nth_error_app1 by (rewrite firstn_length; lia). now apply nth_error_firstn_some'.
    + rewrite nth_error_app2 by (rewrite firstn_length; lia). rewrite firstn_length.
      replace (j - Nat.min i (length l))%nat with (S (j - S i)) by lia. cbn [app nth_error].
      rewrite nth_error_skipn'. f_equal. lia.
Qed.

Section Loop.
Variable al : list (Z * Z).
Variable w : Z.
Hypothesis Hw : 0 < w.
Hypothesis Hlen : w < zlen al.
Hypothesis Hal : forall i, (Z.to_nat w <= i)%nat -> (i < length al)%nat -> nth_error al i = Some (Z.of_nat i, Z.of_nat i + 1).

Local Notation lasti := (length al - 1)%nat.


Lemma loop cs : forall rs st st' v0 v,
  Forall single_byte cs -> Forall single_byte rs -> (length cs <= length rs)%nat ->
  t_runes st = rs -> w <= t_off st -> placed_in st -> length (seen st) = length al -> (0 < length al)%nat ->
  nth_error (seen st) 0 = Some v0 -> nth_error (seen st) lasti = Some v ->
  foldR (t_item al) (map (fun c => ([c], 0)) cs) st = Ok st' ->
  placed_in st' /\ length (seen st') = length al /\ nth_error (seen st') 0 = Some v0 /\
  nth_error (seen st') lasti = Some (visited (Z.to_nat (zlen cs - Z.max 0 (zlen al - 1 - t_off st))) (t_shift st) v).
Proof.
  induction cs as [|c cs IH]; intros rs st st' v0 v Fc Fr Hl Er Ho Pl Ln Lp H0 Hv E.
  - cbn [map foldR] in E. injection E as <-. rewrite H0, Hv. change (zlen []) with 0.
    replace (Z.to_nat _) with 0%nat by lia. auto.
  - destruct rs as [|r rs]; [cbn in Hl; lia|]. apply Forall_cons_iff in Fc, Fr. destruct Fc as (Hc & Fc), Fr as (Hr & Fr).
    cbn [map foldR] in E. set (i := Z.to_nat (Z.min (t_off st) (zlen al - 1))).
    assert (Hi : (Z.to_nat w <= i < length al)%nat) by (unfold zlen in *; lia).
    destruct (nth_error (seen st) i) as [[x y]|] eqn:Ei; [|apply nth_error_None in Ei; lia].
    destruct (one_step al st c r rs i x y) as (st1 & E1 & P1 & R1 & O1 & S1 & V1); auto.
    + unfold single_byte in Hr. lia.
    + lia.
    + apply Hal; lia.
    + unfold zlen; lia.
    + rewrite E1 in E. cbn [bind] in E. rewrite (single_rune r Hr) in *.
      assert (N0 : nth_error (seen st1) 0 = Some v0).
      { rewrite V1, nth_error_put by lia. destruct (Nat.eqb_spec i 0); [lia|exact H0]. }
      assert (L1 : length (seen st1) = length al).
      { rewrite V1, !app_length, firstn_length, skipn_length. cbn [length]. lia. }
      destruct (Nat.eqb_spec i lasti) as [Hx|Hx].
      * assert (Ev : (x, y) = v) by (rewrite <- Hx in Hv; congruence).
        destruct (IH rs st1 st' v0 (again (t_shift st) v)) as (A1 & A2 & A3 & A4); auto.
        -- cbn in Hl. lia.
        -- lia.
        -- rewrite V1, nth_error_put by lia. destruct (Nat.eqb_spec i lasti); [|lia]. subst v. reflexivity.
        -- split; [exact A1|]. split; [exact A2|]. split; [exact A3|]. rewrite A4. f_equal.
           rewrite O1, S1. replace (t_shift st + (1 - 1)) with (t_shift st) by lia.
           replace (Z.to_nat (zlen (c :: cs) - Z.max 0 (zlen al - 1 - t_off st))) with
             (S (Z.to_nat (zlen cs - Z.max 0 (zlen al - 1 - (t_off st + 1))))); [reflexivity|].
           unfold zlen in *. cbn [length]. lia.
      * destruct (IH rs st1 st' v0 v) as (A1 & A2 & A3 & A4); auto.
        -- cbn in Hl. lia.
        -- lia.
        -- rewrite V1, nth_error_put by lia. destruct (Nat.eqb_spec i lasti); [lia|]. exact Hv.
        -- split; [exact A1|]. split; [exact A2|]. split; [exact A3|]. rewrite A4. f_equal.
           rewrite O1, S1. replace (t_shift st + (1 - 1)) with (t_shift st) by lia. f_equal. f_equal.
           unfold zlen in *. cbn [length]. lia.
Qed.
End Loop.

(** The dropped character [z] and the single-byte text behind it. *)
Lemma single_aligns rs : Forall single_byte rs -> forall cur, aligns_from rs cur = map (fun i => (cur + Z.of_nat i, cur + Z.of_nat i + 1)) (seq 0 (length rs)).
Proof.
  induction 1 as [|r rs H F IH]; intros cur; [reflexivity|]. cbn [aligns_from length seq map].
  pose proof (single_rune r H) as L. unfold zlen in L. replace (length (encode_rune r)) with 1%nat by lia. cbn [repeat app].
  f_equal; [f_equal; lia|]. rewrite IH, <- seq_shift, map_map. apply map_ext. intros i. f_equal; lia.
Qed.


Lemma clear_repeat h ess a w : forall cells y, (a < length cells)%nat -> cell cells a = (0, y) -> y = h \/ y = 0 -> 0 <= h <= ess ->
  exists cells', fold_left (clear_cell h) (repeat a w) (ess, cells) = (ess, cells') /\ length cells' = length cells /\
    cell cells' a = (0, if (w =? 0)%nat then y else 0) /\ forall b, b <> a -> cell cells' b = cell cells b.
Proof.
  induction w as [|w IH]; intros cells y Ha Hc Hy Hh; [exists cells; auto|]. cbn [repeat fold_left]. unfold clear_cell at 2. rewrite Hc.
  replace (ess <? y) with false by lia. replace (apply_sign y (- h)) with 0 by (unfold apply_sign; destruct (Z.ltb_spec (y + - h) 0); lia).
  change (0 <? 0) with false. cbn iota. set (c1 := SliceModel.upd cells a (0, 0)).
  assert (L1 : length c1 = length cells) by (unfold c1; apply SliceProofs.upd_length).
  destruct (IH c1 0) as (cells' & E & L & C & O).
  - lia.
  - unfold c1. rewrite cell_upd by exact Ha. now rewrite Nat.eqb_refl.
  - now right.
  - exact Hh.
  - exists cells'. split; [exact E|]. split; [lia|]. split; [rewrite C; cbn [Nat.eqb]; now destruct (w =? 0)%nat|].
    intros b Hb. rewrite O by exact Hb. unfold c1. rewrite cell_upd by exact Ha. destruct (Nat.eqb_spec a b); [congruence|reflexivity].
Qed.

Lemma clean_led cc z s : scalar z -> dropped cc z = true -> Forall single_byte s -> Forall (fun c => dropped cc c = false) s -> s <> [] ->
  clean_items cc (z :: s) = (map (fun c => ([c], 0)) s, 1).
Proof.
  intros Sz Dz Fs Ds Hne. unfold clean_items. cbn [fold_right]. fold (clean_items cc s). rewrite clean_none by exact Ds.
  cbn [clean_step]. rewrite dropped_eq, Dz. f_equal. clear - Fs. induction Fs as [|c s H F IH]; [reflexivity|].
  cbn [same map flat_map]. rewrite <- IH. unfold exp_items. cbn [fst snd map app]. f_equal. f_equal.
  unfold encode_rune. unfold single_byte in H. destruct (N.ltb_spec c 128); [reflexivity|lia].
Qed.

Lemma nth_error_repeat' {A} (x : A) k i : (i < k)%nat -> nth_error (repeat x k) i = Some x.
Proof. revert i. induction k as [|k IH]; intros i H; [lia|]. destruct i as [|i]; [reflexivity|]. cbn. apply IH. lia. Qed.

Lemma led_cleaned cc z s n1 : scalar z -> z <> 0%N -> dropped cc z = true ->
  Forall single_byte s -> Forall (fun c => dropped cc c = false) s ->
  let w := zlen (encode_rune z) in w < zlen s ->
  clean_text cc (new_ns (encode (z :: s))) = Ok n1 ->
  expand (ns_ao_values n1) = Some (0, Z.max 0 (zlen s - 2 * w * (w - 1))).
Proof.
  intros Sz Nz Dz Fs Ds w Hw E. pose proof (zlen_rune z) as Wp. fold w in Wp.
  assert (Hne : s <> []) by (intros ->; cbn in Hw; lia).
  assert (Sc : Forall scalar (z :: s)) by (constructor; [exact Sz|now apply single_scalar]).
  unfold clean_text in E. cbn [new_ns ns_norm] in E. fold (new_ns (encode (z :: s))) in E.
  rewrite runes_encode, clean_led in E by assumption.
  pose proof (new_fresh (z :: s) Sc) as (Fo & Fn & Fal & Fv & Fa). set (n := new_ns (encode (z :: s))) in *.
  assert (Bs : bytes (z :: s) = w + zlen s).
  { rewrite bytes_cons. unfold bytes. now rewrite single_bytes. }
  assert (La : zlen (ns_al n) = w + zlen s) by (rewrite Fal, zlen_aligns; exact Bs).
  set (al := ns_al n) in *.
  assert (Al : al = repeat (0, w) (Z.to_nat w) ++ map (fun i => (w + Z.of_nat i, w + Z.of_nat i + 1)) (seq 0 (length s))).
  { rewrite Fal. cbn [aligns_from]. fold (zlen (encode_rune z)). fold w. rewrite single_aligns by exact Fs.
    replace (length (encode_rune z)) with (Z.to_nat w) by (unfold w, zlen; lia). reflexivity. }
  assert (Hal : forall i, (Z.to_nat w <= i)%nat -> (i < length al)%nat -> nth_error al i = Some (Z.of_nat i, Z.of_nat i + 1)).
  { intros i H1 H2. rewrite Al in H2 |- *. rewrite app_length, repeat_length, map_length, seq_length in H2.
    rewrite nth_error_app2 by (rewrite repeat_length; lia). rewrite repeat_length.
    erewrite map_nth_error; [|rewrite (nth_error_nth' _ 0%nat) by (rewrite seq_length; lia); rewrite seq_nth by lia; reflexivity].
    f_equal. f_equal; lia. }
  assert (Vl : forall i, (Z.to_nat w <= i)%nat -> (i < length al)%nat -> nth_error (ns_ao_values n) i = Some (Z.of_nat i, Z.of_nat i + 1)).
  { intros i. rewrite Fv, <- Fal. apply Hal. }
  assert (Ho : ns_orig n <> []) by (rewrite Fo; intros X; unfold bytes in Bs; rewrite X in Bs; cbn in Bs; pose proof (zlen_nonneg s); lia).
  assert (Ex : expand (ns_ao_values n) = Some (0, w + zlen s)).
  { rewrite Fv, <- exp_ao_same, exp_ao_expand by discriminate. rewrite exp_text_same. fold (bytes (z :: s)). now rewrite Bs. }
  unfold transform, transform_range in E. fold (target n (Rng 0 (zlen (ns_orig n)) OnOriginal)) in E.
  rewrite (target_full n) in E; [|rewrite Fv, Fo, zlen_aligns; reflexivity|exact Ho].
  rewrite Ex in E. cbn [bind r_start r_end] in E. cbn zeta in E. fold al in E. rewrite La, Z.ltb_irrefl, Fn in E.
  assert (Le : zlen (encode (z :: s)) = w + zlen s) by exact Bs.
  rewrite zslice_eq in E by lia. cbn [bind] in E. rewrite <- Le, part_all, runes_encode in E by exact Sc.
  replace (zlen (z :: s) <? 1) with false in E by (unfold zlen; cbn [length]; lia).
  change (Z.to_nat 1) with 1%nat in E. cbn [firstn fold_right clear_chars] in E. rewrite !Z.add_0_l, !Z.add_0_r in E. fold w in E.
  assert (Pa : part 0 w al = repeat (0, w) (Z.to_nat w)).
  { rewrite Al. apply (part_mid []); [reflexivity|]. unfold zlen. rewrite repeat_length. lia. }
  rewrite zslice_eq in E by lia. rewrite Pa in E. cbn [bind] in E.
  assert (Er : expand (repeat (0, w) (Z.to_nat w)) = Some (0, w)).
  { destruct (Z.to_nat w) as [|k] eqn:K; [lia|]. cbn [repeat expand fst]. change ((0, w) :: repeat (0, w) k) with (repeat (0, w) (S k)). now rewrite last_repeat. }
  rewrite Er in E.
  assert (Ao : ns_ao n = repeat 0%nat (Z.to_nat w) ++ addrs_from s 1).
  { unfold n. cbn [new_ns ns_ao]. rewrite runes_encode by exact Sc. cbn [addrs_from]. replace (length (encode_rune z)) with (Z.to_nat w) by (unfold w, zlen; lia). reflexivity. }
  assert (Lao : length (ns_ao n) = length al).
  { apply (f_equal (@length _)) in Fv. unfold ns_ao_values in Fv. rewrite map_length in Fv. rewrite Fv, Fal. reflexivity. }
  rewrite (zslice_eq (ns_ao n)) in E by (unfold zlen in *; lia).
  replace (part 0 w (ns_ao n)) with (repeat 0%nat (Z.to_nat w)) in E
    by (rewrite Ao; symmetry; apply (part_mid []); [reflexivity|unfold zlen; rewrite repeat_length; lia]).
  cbn [bind] in E.
  assert (C0 : cell (ns_cells n) 0%nat = (0, w)) by (unfold n; cbn [new_ns ns_cells]; rewrite runes_encode by exact Sc; reflexivity).
  assert (Lc : (0 < length (ns_cells n))%nat) by (unfold n; cbn [new_ns ns_cells]; rewrite runes_encode by exact Sc; cbn [cells_from length]; lia).
  destruct (clear_repeat w (w + zlen s) 0 (Z.to_nat w) (ns_cells n) w Lc C0) as (cells0 & Ec & Lc0 & Cz & Co); [now left|lia|].
  rewrite Le, Ec in E. cbn [bind] in E. rewrite ?Z.add_0_r in E.
  set (st0 := TS (ns_ao n) cells0 (z :: s) w (- w) [] []) in *.
  destruct (foldR (t_item al) (map (fun c => ([c], 0)) s) st0) as [st| | | |] eqn:El; try discriminate E. cbn [bind] in E.
  pose proof (end_shift_full al (t_shift st) (t_ao st) (t_cells st)) as Fin. rewrite La in Fin. rewrite Fin in E. cbn [bind] in E.
  injection E as <-. unfold ns_ao_values. cbn [ns_ao ns_cells]. fold (seen st).
  (* the state before the loop *)
  assert (P0 : placed_in st0). { unfold placed_in. cbn [st0 t_ao t_cells]. rewrite Lc0. exact Fa. }
  assert (Af : forall k rs, Forall (fun a => a <> 0%nat) (addrs_from rs (S k))).
  { intros k rs. revert k. induction rs as [|r rs IH]; intros k; [constructor|]. cbn [addrs_from]. apply Forall_app. split; [|apply IH].
    apply Forall_forall. intros a X. apply repeat_spec in X. lia. }
  assert (V0 : seen st0 = repeat (0, 0) (Z.to_nat w) ++ skipn (Z.to_nat w) (ns_ao_values n)).
  { unfold seen, ns_ao_values. cbn [st0 t_ao t_cells]. rewrite Ao, !map_app, skipn_app, map_length, repeat_length, Nat.sub_diag.
    rewrite skipn_all2 by (rewrite map_length, repeat_length; lia). cbn [skipn app]. f_equal.
    - destruct (Z.to_nat w) as [|k] eqn:K; [lia|]. rewrite map_repeat', Cz. reflexivity.
    - apply map_ext_in. intros a Ha. apply Co. pose proof (Af 0%nat s) as X. rewrite Forall_forall in X. now apply X. }
  assert (Ls : length (seen st0) = length al) by (unfold seen; cbn [st0 t_ao t_cells]; rewrite map_length; exact Lao).
  destruct s as [|c s]; [congruence|]. set (m := c :: s) in *.
  assert (Lm : zlen m = zlen s + 1) by (unfold m, zlen; cbn [length]; lia).
  pose proof Fs as Fs0. unfold m in Fs0. apply Forall_cons_iff in Fs0. destruct Fs0 as (Hc & Fs0).
  assert (Nv : forall i, (Z.to_nat w <= i)%nat -> (i < length al)%nat -> nth_error (seen st0) i = Some (Z.of_nat i, Z.of_nat i + 1)).
  { intros i H1 H2. rewrite V0, nth_error_app2 by (rewrite repeat_length; lia). rewrite repeat_length, nth_error_skipn'.
    replace (Z.to_nat w + (i - Z.to_nat w))%nat with i by lia. now apply Vl. }
  assert (Lm0 : (0 < length m)%nat) by (unfold m; cbn [length]; lia).
  assert (Lal : length al = (Z.to_nat w + length m)%nat) by (unfold zlen in *; lia).
  change (map (fun c0 : N => ([c0], 0)) m) with (([c], 0) :: map (fun c0 : N => ([c0], 0)) s) in El. cbn [foldR] in El.
  destruct (one_step al st0 c z m (Z.to_nat w) w (w + 1)) as (st1 & E1 & P1 & R1 & O1 & S1 & V1); auto.
  - cbn [st0 t_off]. lia.
  - cbn [st0 t_off]. rewrite Z.min_l by (unfold zlen in *; lia). rewrite Hal by lia. f_equal.
  - unfold zlen in *; lia.
  - rewrite Nv by lia. f_equal. f_equal; lia.
  - rewrite E1 in El. cbn [bind] in El. fold w in O1, S1, V1. cbn [st0 t_off t_shift] in O1, S1.
    destruct (loop al w ltac:(lia) ltac:(unfold zlen in *; lia) Hal s m st1 st (0, 0) (Z.of_nat (length al - 1), Z.of_nat (length al - 1) + 1)) as (A1 & A2 & A3 & A4); auto.
    + unfold m. cbn [length]. lia.
    + lia.
    + rewrite V1, !app_length, firstn_length, skipn_length. cbn [length]. lia.
    + lia.
    + rewrite V1, nth_error_put by lia. destruct (Nat.eqb_spec (Z.to_nat w) 0); [lia|]. rewrite V0.
      rewrite nth_error_app1 by (rewrite repeat_length; lia). apply nth_error_repeat'. lia.
    + rewrite V1, nth_error_put by lia. destruct (Nat.eqb_spec (Z.to_nat w) (length al - 1)); [unfold zlen in *; lia|].
      apply Nv; unfold zlen in *; lia.
    + rewrite O1, S1, La in A4.
      replace (Z.to_nat (zlen s - Z.max 0 (w + zlen m - 1 - (w + w)))) with (Z.to_nat w) in A4 by lia.
      set (v := visited _ _ _) in A4.
      assert (Sv : snd v = Z.max 0 (zlen m - 2 * w * (w - 1))).
      { unfold v. replace (- w + (1 - w)) with (- (2 * w - 1)) by lia. rewrite visited_end by (unfold zlen in *; lia).
        rewrite Z2Nat.id by lia. f_equal. unfold zlen in *. nia. }
      destruct (seen st) as [|a l] eqn:Es; [cbn [length] in A2; exfalso; lia|]. cbn [nth_error] in A3. injection A3 as ->. cbn [expand fst]. f_equal. f_equal.
      rewrite <- Sv. f_equal. apply nth_error_nth with (d := (0, 0)) in A4. rewrite <- A2 in A4.
      rewrite <- A4. symmetry. replace (length ((0, 0)%Z :: l) - 1)%nat with (length l) by (cbn [length]; lia).
      clear. revert l. assert (G : forall (l : list (Z * Z)) a d, nth (length l) (a :: l) d = last (a :: l) d).
      { induction l as [|b l IH]; intros a d; [reflexivity|]. cbn [length]. change (nth (S (length l)) (a :: b :: l) d) with (nth (length l) (b :: l) d).
        rewrite IH. reflexivity. }
      intros l. apply G.
Qed.

(** Everything behind the place where the text is thought to end is repeated. *)
Lemma whole_until n e items initial n' : wf n -> valid_items items -> ns_orig n <> [] -> 0 <= e <= zlen (ns_norm n) ->
  expand (ns_ao_values n) = Some (0, e) ->
  transform n items initial = Ok n' ->
  ns_norm n' = items_text items ++ skipn (Z.to_nat e) (ns_norm n).
Proof.
  intros W Vi Ho He X E. unfold transform in E.
  assert (L : zlen (ns_ao_values n) = zlen (ns_orig n)).
  { unfold ns_ao_values, zlen. rewrite map_length. f_equal. apply W. }
  apply transform_range_original_text in E; auto. destruct E as (nr & C & B & T & O & _).
  pose proof (target_full n L Ho) as Tf. unfold target in Tf. cbn [r_on] in Tf. rewrite C, X in Tf.
  injection Tf as ->. cbn [r_start r_end] in *. rewrite Z.min_l in T by lia. exact T.
Qed.

Lemma single_not_chinese c : single_byte c -> is_chinese c = false.
Proof. intros H. rewrite is_chinese_eq. unfold chinese, extension_a, single_byte in *. lia. Qed.

Lemma bert_repeats cc mn lower lc z s n' : scalar z -> z <> 0%N -> dropped cc z = true ->
  Forall single_byte s -> Forall (fun c => dropped cc c = false) s ->
  let w := length (encode_rune z) in (w < length s)%nat ->
  bert_normalize cc mn lower (BN true true false lc) (new_ns (encode (z :: s))) = Ok n' ->
  let t := s ++ skipn (length s - 2 * w * (w - 1)) s in
  ns_norm n' = if lc then lower t else t.
Proof.
  intros Sz Nz Dz Fs Ds w Hw E t. unfold bert_normalize in E. cbn [bn_clean bn_chinese bn_lower bn_accents] in E.
  destruct (clean_text cc (new_ns (encode (z :: s)))) as [n1| | | |] eqn:E1; try discriminate E. cbn [bind] in E.
  destruct (handle_chinese n1) as [n2| | | |] eqn:E2; try discriminate E. cbn [bind] in E.
  assert (Sc : Forall scalar (z :: s)) by (constructor; [exact Sz|now apply single_scalar]).
  assert (V : valid_utf8 (encode (z :: s))) by (exists (z :: s); auto).
  assert (Hl : zlen (encode_rune z) < zlen s) by (unfold zlen; unfold w in Hw; lia).
  pose proof (led_cleaned cc z s n1 Sz Nz Dz Fs Ds Hl E1) as X.
  assert (Wf : wf n1).
  { pose proof E1 as E1'. unfold clean_text in E1'. cbn [new_ns ns_norm] in E1'. fold (new_ns (encode (z :: s))) in E1'.
    pose proof (clean_inv cc (runes (encode (z :: s)))) as C. destruct (clean_items cc (runes (encode (z :: s)))) as [items removed]. destruct C as (_ & Vi & _).
    eapply transform_range_wf in E1'; [exact E1'|now apply new_ns_wf|exact Vi]. }
  destruct (clean_fresh cc _ n1 V E1) as (T1 & O1). rewrite runes_encode in T1 by exact Sc.
  assert (Cs : cleaned cc (z :: s) = s).
  { cbn [cleaned]. rewrite Dz. clear - Ds. induction Ds as [|c s H D IH]; [reflexivity|]. cbn [cleaned]. rewrite H, IH.
    replace (next_is (dropped cc) s) with false; [now rewrite Bool.andb_false_r|]. destruct D; [reflexivity|]. cbn. now symmetry. }
  rewrite Cs, single_bytes in T1 by exact Fs.
  assert (R1 : runes (ns_norm n1) = s).
  { rewrite T1. rewrite <- (single_bytes s Fs) at 1. apply runes_encode. now apply single_scalar. }
  unfold handle_chinese in E2. rewrite R1 in E2.
  assert (It : chinese_items s = map (fun c => (encode_rune c, 0)) s).
  { clear - Fs. induction Fs as [|c s H F IH]; [reflexivity|]. cbn [chinese_items flat_map map]. rewrite single_not_chinese by exact H.
    cbn [app]. f_equal. exact IH. }
  rewrite It in E2. set (e := Z.max 0 (zlen s - 2 * zlen (encode_rune z) * (zlen (encode_rune z) - 1))) in *.
  pose proof (zlen_rune z) as Wz.
  apply (whole_until n1 e) in E2; auto.
  - rewrite items_text_runes, single_bytes, T1 in E2 by exact Fs.
    replace (Z.to_nat e) with (length s - 2 * w * (w - 1))%nat in E2 by (unfold e, w, zlen in *; nia).
    injection E as <-. destruct lc; [cbn [case_map ns_norm]; now rewrite E2|exact E2].
  - apply Forall_map. apply Forall_forall. intros c _. apply valid_encode_rune.
  - rewrite O1. cbn [encode map concat]. intros Y. apply app_eq_nil in Y. destruct Y as (Y & _). unfold zlen in Wz. rewrite Y in Wz. cbn in Wz. lia.
  - rewrite T1. unfold e. pose proof (zlen_nonneg s). nia.
Qed.

(** ** Single-byte text with dropped characters anywhere *)

(** An item that leaves its character as it is changes no alignment. *)
Lemma same_step al st c rs st' : t_runes st = c :: rs -> c <> 0%N -> t_shift st = 0 -> placed_in st ->
  Forall (fun v => 0 <= fst v /\ 0 <= snd v) (seen st) ->
  t_item al st (encode_rune c, 0) = Ok st' ->
  seen st' = seen st /\ t_runes st' = rs /\ t_shift st' = 0 /\ placed_in st'.
Proof.
  intros Er Hc Hs Pl Nn E. unfold t_item in E. change (0 <? 0) with false in E. cbn iota in E. change (0 <=? 0) with true in E. cbn iota in E.
  destruct (if zlen al <=? t_off st then zindex al (zlen al - 1) else zindex al (t_off st)) as [[lo hi]| | | |]; try discriminate E. cbn [bind] in E.
  rewrite Er in E. cbn [next_rune] in E. apply N.eqb_neq in Hc. rewrite Hc in E. cbn [Z.opp Z.to_nat take_removed] in E.
  change ((0 <? 0) && _) with false in E. cbn iota in E. cbn [bind fst snd] in E.
  destruct (zslice (t_ao st) lo hi) as [addrs| | | |] eqn:Ez; try discriminate E. cbn [bind] in E.
  unfold zslice in Ez. destruct ((0 <=? lo) && (lo <=? hi) && (hi <=? zlen (t_ao st))) eqn:B; [|discriminate Ez]. injection Ez as Ea.
  assert (Hb : 0 <= lo /\ lo <= hi /\ hi <= zlen (t_ao st)) by lia. clear B. destruct Hb as (B1 & B2 & B3).
  rewrite Z.sub_diag, Hs in E. set (V := map (cell (t_cells st)) addrs) in *.
  assert (Pl' : Forall (fun a => (a < length (t_cells st))%nat) (t_ao st)) by exact Pl.
  assert (Sp : t_ao st = firstn (Z.to_nat lo) (t_ao st) ++ addrs ++ skipn (Z.to_nat hi) (t_ao st)).
  { rewrite <- Ea. exact (part_split (t_ao st) lo hi B1 B2 B3). }
  destruct (expand V) as [[olo ohi]|] eqn:Ex.
  - assert (Id : map (new_pair (zlen (encode_rune c)) 0 0 (zlen (encode_rune c) - (ohi - olo)) 0 0) V = V).
    { rewrite <- (map_id V) at 2. apply map_ext_in. intros [x y] Hv.
      assert (Nx : 0 <= x /\ 0 <= y).
      { assert (I : In (x, y) (seen st)). { unfold seen. rewrite Sp, !map_app. apply in_or_app. right. apply in_or_app. left. exact Hv. }
        rewrite Forall_forall in Nn. exact (Nn _ I). }
      assert (Sg : forall a, 0 <= a -> apply_sign a 0 = a) by (intros a Ha; unfold apply_sign; rewrite Z.add_0_r; now destruct (Z.ltb_spec a 0); [lia|]).
      unfold new_pair. cbn [fst snd]. change (0 <? 0) with false. cbn iota. change (- 0) with 0. rewrite (Sg x), !(Sg y) by lia. match goal with |- (if ?b then _ else _) = _ => destruct b end; reflexivity. }
    rewrite Id in E. unfold realloc in E. cbn [bind] in E. injection E as <-. unfold seen, placed_in. cbn [t_ao t_cells t_runes t_shift].
    assert (F1 : Forall (fun a => (a < length (t_cells st))%nat) (firstn (Z.to_nat lo) (t_ao st))) by now apply Forall_firstn.
    assert (F2 : Forall (fun a => (a < length (t_cells st))%nat) (skipn (Z.to_nat hi) (t_ao st))) by now apply Forall_skipn.
    split; [|split; [reflexivity|split; [lia|]]].
    + rewrite !map_app. rewrite (map_cell_app _ _ _ F1), (map_cell_app _ _ _ F2).
      assert (Rs : map (cell (t_cells st)) (t_ao st) = map (cell (t_cells st)) (firstn (Z.to_nat lo) (t_ao st)) ++ V ++ map (cell (t_cells st)) (skipn (Z.to_nat hi) (t_ao st)))
        by (rewrite Sp at 1; rewrite !map_app; reflexivity).
      rewrite Rs. refine (f_equal2 (@app _) eq_refl (f_equal2 (@app _) _ eq_refl)). clear. generalize (t_cells st) as cs. intros cs.
      assert (G : forall (v pre : list (Z * Z)), map (cell (pre ++ v)) (seq (length pre) (length v)) = v).
      { induction v as [|a v IH]; intros pre; [reflexivity|]. cbn [length seq map]. f_equal; [unfold cell; apply nth_middle|].
        replace (pre ++ a :: v) with ((pre ++ [a]) ++ v) by (rewrite <- app_assoc; reflexivity).
        replace (S (length pre)) with (length (pre ++ [a])) by (rewrite app_length; cbn; lia). apply IH. }
      apply G.
    + rewrite app_length. apply Forall_app. split; [|apply Forall_app; split].
      * eapply Forall_impl; [|exact F1]. intros; cbn in *; lia.
      * apply Forall_forall. intros a Ha. apply in_seq in Ha. lia.
      * eapply Forall_impl; [|exact F2]. intros; cbn in *; lia.
  - cbn [bind] in E. injection E as <-. unfold seen, placed_in. cbn [t_ao t_cells t_runes t_shift]. split; [reflexivity|split; [reflexivity|split; [lia|exact Pl']]].
Qed.
Lemma same_loop al cs : forall st st', Forall (fun c => c <> 0%N) cs -> t_runes st = cs -> t_shift st = 0 -> placed_in st ->
  Forall (fun v => 0 <= fst v /\ 0 <= snd v) (seen st) ->
  foldR (t_item al) (map (fun c => (encode_rune c, 0)) cs) st = Ok st' -> seen st' = seen st.
Proof.
  induction cs as [|c cs IH]; intros st st' NZ Er Hs Pl Nn E; cbn [map foldR] in E; [now injection E as <-|].
  apply Forall_cons_iff in NZ. destruct NZ as (Hc & NZ). destruct (t_item al st (encode_rune c, 0)) as [st1| | | |] eqn:E1; try discriminate E. cbn [bind] in E.
  destruct (same_step al st c cs st1 Er Hc Hs Pl Nn E1) as (S1 & R1 & H1 & P1). rewrite <- S1. apply IH; auto. now rewrite S1.
Qed.
Lemma same_values n n' rs : wf n -> ns_orig n <> [] -> Forall scalar rs -> Forall (fun c => c <> 0%N) rs -> ns_norm n = encode rs ->
  expand (ns_ao_values n) = Some (0, zlen (ns_norm n)) -> Forall (fun v => 0 <= fst v /\ 0 <= snd v) (ns_ao_values n) ->
  transform n (map (fun c => (encode_rune c, 0)) rs) 0 = Ok n' -> ns_ao_values n' = ns_ao_values n.
Proof.
  intros W Ho Sc NZ T X Nn E. pose proof W as (W1 & W2 & W3 & W4).
  assert (L : zlen (ns_ao_values n) = zlen (ns_orig n)) by (unfold ns_ao_values, zlen; rewrite map_length; f_equal; exact W3).
  unfold transform, transform_range in E. fold (target n (Rng 0 (zlen (ns_orig n)) OnOriginal)) in E.
  rewrite (target_full n L Ho), X in E. cbn [bind r_start r_end] in E. cbn zeta in E.
  assert (La : zlen (ns_al n) = zlen (ns_norm n)) by (unfold zlen; now rewrite W1). rewrite La, Z.ltb_irrefl in E.
  pose proof (zlen_nonneg (ns_norm n)). rewrite zslice_eq in E by lia. cbn [bind] in E. rewrite part_all, T, runes_encode in E by exact Sc.
  replace (zlen rs <? 0) with false in E by (pose proof (zlen_nonneg rs); lia). cbn [Z.to_nat firstn clear_chars bind fold_right] in E.
  destruct (foldR _ _ _) as [st| | | |] eqn:El; try discriminate E. cbn [bind] in E.
  pose proof (end_shift_full (ns_al n) (t_shift st) (t_ao st) (t_cells st)) as Fin. rewrite La, T in Fin. rewrite Fin in E. cbn [bind] in E. injection E as <-.
  unfold ns_ao_values at 1. cbn [ns_ao ns_cells]. fold (seen st). apply same_loop in El; auto; exact El.
Qed.

Lemma edit_ao_expand es : es <> [] -> forall d, expand (edit_ao es d) = Some (d, d + zlen (edit_text es)).
Proof.
  induction es as [|[r o] es IH]; intros H d; [congruence|].
  assert (T : edit_text ((r, o) :: es) = (match o with Some s => s | None => [] end) ++ edit_text es) by reflexivity.
  assert (V : edit_ao ((r, o) :: es) d = (d, d + zlen (match o with Some s => s | None => [] end)) :: edit_ao es (d + zlen (match o with Some s => s | None => [] end))).
  { destruct o; cbn [edit_ao]; [reflexivity|]. change (zlen (@nil N)) with 0. now rewrite Z.add_0_r. }
  rewrite V, T, zlen_app. set (k := zlen (match o with Some s => s | None => [] end)). destruct es as [|e es].
  - cbn [edit_ao expand last fst snd]. change (zlen (edit_text [])) with 0. f_equal. f_equal. lia.
  - specialize (IH ltac:(discriminate) (d + k)). destruct (edit_ao (e :: es) (d + k)) as [|a l]; [discriminate IH|].
    pose proof (f_equal (fun o => match o with Some p => snd p | None => 0 end) IH) as I2.
    change (snd (last (a :: l) a) = d + k + zlen (edit_text (e :: es))) in I2. unfold expand. cbn [fst]. f_equal. f_equal.
    change (last ((d, d + k) :: a :: l) (d, d + k)) with (last (a :: l) (d, d + k)). rewrite (last_indep (a :: l) (d, d + k) a) by discriminate.
    rewrite I2. lia.
Qed.
Lemma edit_ao_nonneg es : forall d, 0 <= d -> Forall (fun v => 0 <= fst v /\ 0 <= snd v) (edit_ao es d).
Proof.
  induction es as [|[r [s|]] es IH]; intros d H; cbn [edit_ao]; constructor; cbn [fst snd]; try (pose proof (zlen_nonneg s)); try lia; apply IH; lia.
Qed.
Lemma edit_al_bounds es : forall p, Forall (fun v => p <= fst v /\ p <= snd v) (edit_al es p).
Proof.
  induction es as [|[r [s|]] es IH]; intros p; cbn [edit_al]; [constructor| |eapply Forall_impl; [|apply IH]; cbn beta; intros; lia].
  apply Forall_app. split; [|eapply Forall_impl; [|apply IH]; cbn beta; intros; lia].
  apply Forall_forall. intros v Hv. apply repeat_spec in Hv. subst v. cbn [fst snd]. lia.
Qed.
Lemma edit_al_ordered es : forall p, ordered (edit_al es p).
Proof.
  induction es as [|[r [s|]] es IH]; intros p; cbn [edit_al]; [apply ordered_nil| |apply IH].
  apply ordered_app; [apply ordered_repeat|apply IH|]. intros v w Hv Hw. apply repeat_spec in Hv. subst v.
  pose proof (edit_al_bounds es (p + 1)) as B. rewrite Forall_forall in B. specialize (B w Hw). unfold ple. cbn [fst snd]. lia.
Qed.
Lemma cleaned_single cc rs : Forall single_byte rs -> Forall single_byte (cleaned cc rs).
Proof.
  induction 1 as [|c rs H F IH]; [constructor|]. cbn [cleaned]. destruct (dropped cc c); [exact IH|]. constructor; [|exact IH].
  destruct (white c && _); [unfold single_byte; lia|exact H].
Qed.
Lemma single_spaced s : Forall single_byte s -> spaced s = s.
Proof.
  induction 1 as [|c s H F IH]; [reflexivity|]. cbn [spaced flat_map]. fold (spaced s). rewrite IH.
  replace (chinese c) with false; [reflexivity|]. unfold chinese, extension_a, single_byte in *. lia.
Qed.
Lemma single_consumed (s : list N) : consumed (map (fun c => (encode_rune c, 0)) s) = zlen s.
Proof.
  induction s as [|c s IH]; [reflexivity|]. cbn [map]. rewrite consumed_cons, IH. change (0 <? 0) with false. cbn iota. unfold zlen. cbn [length]. lia.
Qed.

Lemma bert_single cc mn lower ch ac lc rs :
  rs <> [] -> Forall single_byte rs ->
  let t := cleaned cc rs in
  let t2 := if lc : bool then lower t else t in
  length t2 = length t -> PipelineSpec.clean t2 ->
  (ac = true -> next_is mn (runes t2) = false) ->
  exists n', bert_normalize cc mn lower (BN true ch ac lc) (new_ns rs) = Ok n' /\ ns_orig n' = rs /\
    ns_norm n' = bert_text ch lc ac mn lower t.
Proof.
  intros Ne Fs t t2 Hl C Hm. destruct (clean_single cc rs Fs) as (n1 & E1 & O1 & T1 & A1 & V1). fold t in T1.
  assert (Rs : runes rs = rs). { rewrite <- (single_bytes rs Fs) at 1. apply runes_encode. now apply single_scalar. }
  assert (Vr : valid_utf8 rs) by (exists rs; split; [now apply single_scalar|now rewrite single_bytes]).
  assert (Ft : Forall single_byte t) by now apply cleaned_single.
  assert (Rt : runes t = t). { rewrite <- (single_bytes t Ft) at 1. apply runes_encode. now apply single_scalar. }
  assert (NZ : Forall (fun c => c <> 0%N) t) by (eapply Forall_impl; [|exact Ft]; unfold single_byte; intros; lia).
  assert (W1 : wf n1).
  { pose proof E1 as E1'. unfold clean_text in E1'. cbn [new_ns ns_norm] in E1'. fold (new_ns rs) in E1'.
    pose proof (clean_inv cc (runes rs)) as K. destruct (clean_items cc (runes rs)) as [items removed]. destruct K as (_ & Vi & _).
    eapply transform_range_wf in E1'; [exact E1'|now apply new_ns_wf|exact Vi]. }
  assert (Or1 : ordered (ns_al n1)) by (rewrite A1; apply edit_al_ordered).
  assert (Ex1 : expand (ns_ao_values n1) = Some (0, zlen (ns_norm n1))).
  { rewrite V1, edit_ao_expand by (destruct rs; [congruence|discriminate]). rewrite clean_edits_text, T1. reflexivity. }
  assert (Nn1 : Forall (fun v => 0 <= fst v /\ 0 <= snd v) (ns_ao_values n1)) by (rewrite V1; apply edit_ao_nonneg; lia).
  assert (Ho1 : ns_orig n1 <> []) by now rewrite O1.
  assert (It : chinese_items t = map (fun c => (encode_rune c, 0)) t).
  { clear - Ft. induction Ft as [|c s H F IH]; [reflexivity|]. cbn [chinese_items flat_map map]. rewrite single_not_chinese by exact H. cbn [app]. f_equal. exact IH. }
  assert (Vi : valid_items (map (fun c => (encode_rune c, 0)) t)) by (apply Forall_map, Forall_forall; intros c _; apply valid_encode_rune).
  assert (S2 : exists n2, (if ch then handle_chinese n1 else Ok n1) = Ok n2 /\ wf n2 /\ ordered (ns_al n2) /\ ns_orig n2 = rs /\ ns_norm n2 = t /\
    expand (ns_ao_values n2) = Some (0, zlen (ns_norm n2))).
  { destruct ch; [|exists n1; auto 10]. unfold handle_chinese. rewrite T1, Rt, It.
    assert (Cs : consumed (map (fun c => (encode_rune c, 0)) t) <= zlen (runes (ns_norm n1))) by (rewrite single_consumed, T1, Rt; lia).
    assert (V2 : valid_utf8 (ns_norm n1)) by (rewrite T1; exists t; split; [now apply single_scalar|now rewrite single_bytes]).
    assert (Z2 : Forall (fun c => c <> 0%N) (runes (ns_norm n1))) by now rewrite T1, Rt.
    destruct (whole_ok n1 _ W1 Or1 Ho1 Ex1 V2 Z2 Cs) as (n2 & E2). exists n2. split; [exact E2|].
    destruct (whole_text n1 0 _ 0 n2 W1 Vi Ho1 Ex1 E2) as (_ & X & Y). cbn [Z.to_nat firstn app] in X. rewrite items_text_runes, single_bytes in X by exact Ft.
    assert (Vn : ns_ao_values n2 = ns_ao_values n1).
    { apply (same_values n1 n2 t); auto; [now apply single_scalar|now rewrite single_bytes]. }
    split; [eapply transform_range_wf in E2; [exact E2|exact W1|exact Vi]|]. split; [|split; [now rewrite Y|]; split; [exact X|]].
    - assert (L : zlen (ns_ao_values n1) = zlen (ns_orig n1)) by (unfold ns_ao_values, zlen; rewrite map_length; f_equal; apply W1).
      pose proof (target_full n1 L Ho1) as Tf. rewrite Ex1 in Tf.
      unfold transform in E2. apply (transform_range_ordered n1 _ _ 0 n2 _ W1 Or1 E2 Tf); cbn [r_start r_end]; rewrite Z.min_id, ?part_all; auto.
    - rewrite Vn, Ex1, X, T1. reflexivity. }
  destruct S2 as (n2 & E2 & W2 & Or2 & O2 & T2 & Ex2). unfold bert_normalize. cbn [bn_clean bn_chinese bn_lower bn_accents]. rewrite E1. cbn [bind]. rewrite E2. cbn [bind].
  set (n3 := if lc then case_map lower n2 else n2).
  assert (T3 : ns_norm n3 = t2) by (subst n3 t2; destruct lc; cbn [case_map ns_norm]; congruence).
  assert (N3 : ns_orig n3 = rs /\ wf n3 /\ ordered (ns_al n3) /\ expand (ns_ao_values n3) = Some (0, zlen (ns_norm n3))).
  { rewrite T3. rewrite T2 in Ex2. unfold zlen in *. rewrite Hl. subst n3. destruct lc.
    - split; [exact O2|]. split; [|split; [exact Or2|exact Ex2]]. apply case_map_wf; [exact W2|]. rewrite T2. exact Hl.
    - auto. }
  destruct N3 as (Og3 & W3 & Or3 & Ex3).
  assert (Bt : bert_text ch lc ac mn lower t = if ac then encode (filter (fun c => negb (mn c)) (runes t2)) else t2).
  { unfold bert_text. replace (if ch then spaced t else t) with t by (destruct ch; [now rewrite single_spaced|reflexivity]). rewrite (single_bytes t Ft). reflexivity. }
  rewrite Bt. destruct ac; [|exists n3; auto].
  specialize (Hm eq_refl). unfold remove_accents, ns_filter. set (f := fun r => negb (mn r)).
  destruct (PlacedProofs.clean_valid_runes _ C) as (rs2 & Sc2 & NZ2 & Et & Er). rewrite T3, Er.
  assert (Ho3 : ns_orig n3 <> []) by now rewrite Og3.
  pose proof (filter_items_text f rs2) as Fx. pose proof (valid_filter_items f rs2) as Fv. pose proof (filter_consumed f rs2) as Fc.
  assert (Fk : snd (filter_items f rs2) = 0).
  { destruct rs2 as [|c rs2']; [reflexivity|]. apply first_kept. rewrite Er in Hm. cbn [next_is] in *. subst f. cbn beta. now rewrite Hm. }
  destruct (filter_items f rs2) as [items removed]. cbn [fst snd] in *. subst removed.
  destruct (whole_ok n3 items W3 Or3 Ho3 Ex3) as (n' & E').
  - rewrite T3, Et. exists rs2. auto.
  - now rewrite T3, Er.
  - rewrite T3, Er. lia.
  - exists n'. split; [exact E'|]. destruct (whole_text n3 0 items 0 n' W3 Fv Ho3 Ex3 E') as (_ & X & Y).
    rewrite Y, Og3. split; [reflexivity|]. rewrite X, Fx. reflexivity.
Qed.
