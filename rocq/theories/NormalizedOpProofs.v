(** Proofs about normalized strings: offsets, slices, splits and the elementary
    operations. *)
From Verif Require Import Base Utf8Model Utf8Proofs SliceModel SliceProofs PatternModel PatternSpec
  PatternProofs NormalizedModel NormalizedSpec NormalizedProofs NormalizedInvProofs NormalizedExactProofs.
Local Open Scope Z_scope.

(** ** Texts *)
Lemma transform_range_text n s e items initial n' :
  wf n -> valid_items items -> 0 <= s -> e <= zlen (ns_norm n) ->
  transform_range n (Rng s e OnNormalized) items initial = Ok n' ->
  s <= e /\
  ns_norm n' = firstn (Z.to_nat s) (ns_norm n) ++ items_text items ++ skipn (Z.to_nat e) (ns_norm n) /\
  ns_orig n' = ns_orig n /\ ns_shift n' = ns_shift n.
Proof.
  intros W V Hs He E. apply transform_range_spec in E.
  destruct E as (nr & s' & e' & T & -> & -> & B1 & B2 & B3 & Ho & Hsh & Hn & _).
  unfold target, into_full_range in T. cbn [r_on r_start r_end] in T. injection T as <-. cbn [r_start r_end] in *.
  replace (s =? -1) with false in * by lia. replace (zlen (ns_norm n) <? e) with false in * by lia.
  assert (WL : zlen (ns_al n) = zlen (ns_norm n)) by (unfold zlen; f_equal; apply W).
  rewrite Z.min_l in * by lia. rewrite valid_items_text in Hn by assumption. repeat split; auto; lia.
Qed.

Lemma transform_fresh_text s items initial n' : valid_utf8 s -> valid_items items ->
  transform (new_ns s) items initial = Ok n' -> ns_norm n' = items_text items /\ ns_orig n' = s.
Proof.
  intros V Vi E. apply transform_range_spec in E.
  destruct E as (nr & s' & e' & T & -> & -> & B1 & B2 & B3 & Ho & Hsh & Hn & _).
  destruct (target_fresh s V) as (on & T'). change (zlen s) with (zlen (ns_orig (new_ns s))) in T' at 1.
  rewrite T' in T. injection T as <-. cbn [r_start r_end] in *.
  assert (La : zlen (ns_al (new_ns s)) = zlen s).
  { cbn. unfold create_aligns. rewrite zlen_aligns. unfold bytes. now rewrite valid_utf8_runes. }
  rewrite La, Z.min_id in Hn. rewrite valid_items_text in Hn by assumption.
  split; [|exact Ho]. rewrite Hn. cbn [new_ns ns_norm]. apply firstn_skipn_full.
Qed.

(** The part of the text a range on the original selects. *)
Lemma transform_range_original_text n a b items initial n' :
  wf n -> valid_items items ->
  transform_range n (Rng a b OnOriginal) items initial = Ok n' ->
  exists nr, convert_offset n (Rng a b OnOriginal) = Ok (Some nr) /\
    let e := Z.min (r_end nr) (zlen (ns_norm n)) in
    0 <= r_start nr <= e /\
    ns_norm n' = firstn (Z.to_nat (r_start nr)) (ns_norm n) ++ items_text items ++ skipn (Z.to_nat e) (ns_norm n) /\
    ns_orig n' = ns_orig n /\ ns_shift n' = ns_shift n.
Proof.
  intros W V E. apply transform_range_spec in E.
  destruct E as (nr & s' & e' & T & -> & -> & B1 & B2 & B3 & Ho & Hsh & Hn & _).
  exists nr. split; [exact T|]. rewrite valid_items_text in Hn by assumption.
  replace (zlen (ns_norm n)) with (zlen (ns_al n)) by (unfold zlen; f_equal; apply W). repeat split; auto; lia.
Qed.

(** ** Case mapping *)
Lemma case_map_wf f n : wf n -> (wf (case_map f n) <-> length (f (ns_norm n)) = length (ns_norm n)).
Proof.
  intros (W1 & W2 & W3 & W4). unfold wf, case_map. cbn. split; [intros (H & _); congruence|].
  intros H. rewrite H. auto.
Qed.
Lemma case_map_longer f n : wf n -> zlen (ns_norm n) < zlen (f (ns_norm n)) ->
  ns_slice (case_map f n) (Rng 0 (zlen (f (ns_norm n))) OnNormalized) = Panic.
Proof.
  intros (W1 & _) H. pose proof (zlen_nonneg (ns_norm n)) as Hn.
  assert (WL : zlen (ns_al n) = zlen (ns_norm n)) by (unfold zlen; now rewrite W1).
  set (L := zlen (f (ns_norm n))) in *.
  assert (Ev : validate_range (case_map f n) (Rng 0 L OnNormalized) = Ok (Some (Rng 0 L OnNormalized))).
  { unfold validate_range, into_full_range. cbn [r_on r_start r_end case_map ns_norm]. fold L.
    change (0 =? -1) with false. cbn iota. rewrite !Z.ltb_irrefl.
    replace (false || (L <? 0) || (L <? 0) || false) with false by lia.
    replace ((0 =? 0) && (L =? 0)) with false by lia. rewrite !Z.eqb_refl. reflexivity. }
  assert (Ec : convert_offset (case_map f n) (Rng 0 L OnNormalized) = Ok None).
  { unfold convert_offset, into_full_range. cbn [r_on r_start r_end case_map ns_norm ns_al]. fold L.
    change (0 =? -1) with false. cbn iota. rewrite !Z.ltb_irrefl. replace (0 =? L) with false by lia. rewrite WL.
    replace (false || (zlen (ns_norm n) <? 0) || (L <? 0) || (zlen (ns_norm n) <? L)) with true by lia. reflexivity. }
  unfold ns_slice. rewrite Ev. cbn [bind]. rewrite Ec. reflexivity.
Qed.

(** ** Conversion and slices *)
Lemma part_nth {A} (l : list A) s e i : 0 <= s -> s <= i < e -> e <= zlen l ->
  nth_error (part s e l) (Z.to_nat (i - s)) = nth_error l (Z.to_nat i).
Proof.
  intros H1 H2 H3. unfold part.
  assert (E : nth_error (firstn (Z.to_nat (e - s)) (skipn (Z.to_nat s) l)) (Z.to_nat (i - s))
              = nth_error (skipn (Z.to_nat s) l) (Z.to_nat (i - s))).
  { rewrite <- (firstn_skipn (Z.to_nat (e - s)) (skipn (Z.to_nat s) l)) at 2.
    rewrite nth_error_app1; [reflexivity|]. rewrite firstn_length, skipn_length. unfold zlen in *. lia. }
  rewrite E, nth_error_skipn'. f_equal. lia.
Qed.

Lemma expand_nth l : l <> [] -> exists p q, nth_error l 0 = Some p /\ nth_error l (length l - 1) = Some q /\
  expand l = Some (fst p, snd q).
Proof.
  intros H. destruct (exists_last H) as (l0 & q & E). destruct l as [|a l]; [congruence|].
  exists a, q. split; [reflexivity|]. cbn [expand]. rewrite E. split.
  - rewrite app_length, nth_error_app2 by (cbn; lia). cbn [length].
    replace (length l0 + 1 - 1 - length l0)%nat with 0%nat by lia. reflexivity.
  - now rewrite last_last.
Qed.

Lemma convert_normalized n s e : wf n -> 0 <= s -> s < e -> e <= zlen (ns_norm n) ->
  exists p q, nth_error (ns_al n) (Z.to_nat s) = Some p /\ nth_error (ns_al n) (Z.to_nat (e - 1)) = Some q /\
    convert_offset n (Rng s e OnNormalized) = Ok (Some (Rng (fst p) (snd q) OnOriginal)).
Proof.
  intros (W1 & W2 & _) H1 H2 H3.
  assert (WL : zlen (ns_al n) = zlen (ns_norm n)) by (unfold zlen; now rewrite W1).
  unfold convert_offset, into_full_range. cbn [r_on r_start r_end].
  replace (s =? -1) with false by lia. replace (zlen (ns_norm n) <? e) with false by lia.
  replace (s =? e) with false by lia. rewrite WL.
  replace ((s <? 0) || (zlen (ns_norm n) <? s) || (e <? 0) || (zlen (ns_norm n) <? e)) with false by lia.
  rewrite zslice_eq by lia. cbn [bind].
  assert (Lp : zlen (part s e (ns_al n)) = e - s) by (apply part_length; lia).
  destruct (expand_nth (part s e (ns_al n))) as (p & q & E1 & E2 & E3).
  { intros E. rewrite E in Lp. unfold zlen in Lp. cbn in Lp. lia. }
  exists p, q. rewrite E3. split; [|split; [|reflexivity]].
  - rewrite <- E1. rewrite <- (part_nth _ s e s) by lia. f_equal. lia.
  - rewrite <- E2. rewrite <- (part_nth _ s e (e - 1)) by lia. f_equal. unfold zlen in Lp. lia.
Qed.

(** For ordered alignments the converted range is inside the original text and covers
    the alignment of every selected byte. *)
Lemma convert_normalized_inside n s e : wf n -> ordered (ns_al n) -> 0 <= s -> s < e -> e <= zlen (ns_norm n) ->
  exists a b, convert_offset n (Rng s e OnNormalized) = Ok (Some (Rng a b OnOriginal)) /\
    0 <= a /\ a <= b /\ b <= zlen (ns_orig n) /\
    forall i p, s <= i < e -> nth_error (ns_al n) (Z.to_nat i) = Some p -> a <= fst p /\ snd p <= b.
Proof.
  intros W O H1 H2 H3. destruct (convert_normalized n s e W H1 H2 H3) as (p & q & Ep & Eq & Ec).
  exists (fst p), (snd q). split; [exact Ec|]. destruct W as (_ & F & _). rewrite Forall_forall in F.
  pose proof (F p (nth_error_In _ _ Ep)) as Fp. pose proof (F q (nth_error_In _ _ Eq)) as Fq. unfold inside in *.
  pose proof (O _ _ _ _ (ltac:(lia) : (Z.to_nat s <= Z.to_nat (e - 1))%nat) Ep Eq) as Opq. unfold ple in Opq.
  split; [lia|]. split; [lia|]. split; [lia|]. intros i x Hi Ex.
  pose proof (O _ _ _ _ (ltac:(lia) : (Z.to_nat s <= Z.to_nat i)%nat) Ep Ex) as O1.
  pose proof (O _ _ _ _ (ltac:(lia) : (Z.to_nat i <= Z.to_nat (e - 1))%nat) Ex Eq) as O2. unfold ple in *. lia.
Qed.

Lemma boundary_check s i : 0 <= i <= zlen s ->
  (boundary s i <-> (if i =? 0 then Ok true else if i =? zlen s then Ok true
                     else do x <- zindex s i; Ok (rune_start x)) = Ok true).
Proof.
  intros Hi. unfold boundary. destruct (Z.eqb_spec i 0) as [->|H0]; [split; auto|].
  destruct (Z.eqb_spec i (zlen s)) as [->|H1]; [split; auto|].
  destruct (zindex_eq s i) as (x & Ex & Ex'); [lia|]. rewrite Ex. cbn [bind]. split.
  - intros [?|[?|(b & _ & Eb & Rb)]]; try lia. rewrite Ex' in Eb. injection Eb as ->. now rewrite Rb.
  - intros [= E]. right. right. exists x. split; [lia|auto].
Qed.

Lemma validate_ok n s e : 0 <= s -> s < e -> e <= zlen (ns_norm n) ->
  boundary (ns_norm n) s -> boundary (ns_norm n) e ->
  validate_range n (Rng s e OnNormalized) = Ok (Some (Rng s e OnNormalized)).
Proof.
  intros H1 H2 H3 Bs Be. unfold validate_range, into_full_range. cbn [r_on r_start r_end].
  replace (s =? -1) with false by lia. replace (zlen (ns_norm n) <? e) with false by lia.
  replace ((s <? 0) || (e <? 0) || (zlen (ns_norm n) <? s) || (zlen (ns_norm n) <? e)) with false by lia.
  replace ((s =? 0) && (e =? 0)) with false by lia.
  apply boundary_check in Bs; [|lia]. apply boundary_check in Be; [|lia].
  replace (s =? zlen (ns_norm n)) with false in Bs by lia. rewrite Bs. cbn [bind negb].
  replace (e =? 0) with false in Be by lia. rewrite Be. reflexivity.
Qed.
Lemma validate_bad n s e : 0 <= s -> s < e -> e <= zlen (ns_norm n) ->
  ~ (boundary (ns_norm n) s /\ boundary (ns_norm n) e) ->
  validate_range n (Rng s e OnNormalized) = Ok None.
Proof.
  intros H1 H2 H3 B. unfold validate_range, into_full_range. cbn [r_on r_start r_end].
  replace (s =? -1) with false by lia. replace (zlen (ns_norm n) <? e) with false by lia.
  replace ((s <? 0) || (e <? 0) || (zlen (ns_norm n) <? s) || (zlen (ns_norm n) <? e)) with false by lia.
  replace ((s =? 0) && (e =? 0)) with false by lia.
  pose proof (boundary_check (ns_norm n) s ltac:(lia)) as Bs. pose proof (boundary_check (ns_norm n) e ltac:(lia)) as Be.
  replace (s =? zlen (ns_norm n)) with false in Bs by lia.
  replace (e =? 0) with false in Be by lia.
  assert (X : exists x y, (if s =? 0 then Ok true else do x <- zindex (ns_norm n) s; Ok (rune_start x)) = Ok x /\
                (if e =? zlen (ns_norm n) then Ok true else do x <- zindex (ns_norm n) e; Ok (rune_start x)) = Ok y).
  { destruct (Z.eqb_spec s 0), (Z.eqb_spec e (zlen (ns_norm n))).
    - eauto.
    - destruct (zindex_eq (ns_norm n) e) as (x & -> & _); [lia|]. cbn. eauto.
    - destruct (zindex_eq (ns_norm n) s) as (x & -> & _); [lia|]. cbn. eauto.
    - destruct (zindex_eq (ns_norm n) e) as (x & -> & _); [lia|].
      destruct (zindex_eq (ns_norm n) s) as (y & -> & _); [lia|]. cbn. eauto. }
  destruct X as (x & y & Ex & Ey). rewrite Ex in *. rewrite Ey in *. cbn [bind]. destruct x, y; cbn; try reflexivity.
  exfalso. apply B. tauto.
Qed.

Lemma range_normalized n s e : 0 <= s -> s <= e -> e <= zlen (ns_norm n) ->
  ns_range n (Rng s e OnNormalized) = Ok (part s e (ns_norm n)).
Proof.
  intros H1 H2 H3. unfold ns_range, into_full_range. cbn [r_on r_start r_end].
  replace (s =? -1) with false by lia. replace (zlen (ns_norm n) <? e) with false by lia. now apply zslice_eq.
Qed.

Lemma slice_normalized n s e : wf n -> ordered (ns_al n) -> 0 <= s -> s < e -> e <= zlen (ns_norm n) ->
  boundary (ns_norm n) s -> boundary (ns_norm n) e ->
  exists a b m, convert_offset n (Rng s e OnNormalized) = Ok (Some (Rng a b OnOriginal)) /\
    ns_slice n (Rng s e OnNormalized) = Ok (Some m) /\
    ns_norm m = part s e (ns_norm n) /\ ns_orig m = part a b (ns_orig n) /\
    ns_al m = map (fun p => (fst p - a, snd p - a)) (part s e (ns_al n)) /\
    ns_shift m = ns_shift n + a /\ wf m /\ ordered (ns_al m).
Proof.
  intros W O H1 H2 H3 Bs Be.
  destruct (convert_normalized_inside n s e W O H1 H2 H3) as (a & b & Ec & A1 & A2 & A3 & Hin).
  exists a, b. unfold ns_slice. rewrite validate_ok by assumption. cbn [bind]. rewrite Ec. cbn [bind r_on r_start r_end].
  destruct W as (W1 & W2 & W3 & W4).
  assert (WL : zlen (ns_al n) = zlen (ns_norm n)) by (unfold zlen; now rewrite W1).
  assert (WO : zlen (ns_ao_values n) = zlen (ns_orig n)) by (unfold ns_ao_values, zlen; now rewrite map_length, W3).
  rewrite zslice_eq by lia. cbn [bind].
  assert (Er : ns_range_original n (Rng s e OnNormalized) = Ok (part a b (ns_orig n))).
  { unfold ns_range_original. cbn [r_on]. rewrite Ec. cbn [bind r_start r_end]. now apply zslice_eq. }
  rewrite Er, range_normalized by lia. cbn [bind]. rewrite !zslice_eq by lia. cbn [bind].
  eexists. split; [reflexivity|]. split; [reflexivity|]. cbn [ns_norm ns_orig ns_al ns_shift].
  split; [reflexivity|]. split; [reflexivity|]. split; [reflexivity|]. split; [reflexivity|].
  assert (Lp : zlen (part s e (ns_al n)) = e - s) by (apply part_length; lia).
  assert (Lo : zlen (part a b (ns_orig n)) = b - a) by (apply part_length; lia).
  assert (Hpart : forall x, In x (part s e (ns_al n)) -> a <= fst x /\ fst x <= snd x /\ snd x <= b).
  { intros x Hx. apply In_nth_error in Hx. destruct Hx as (k & Hk).
    assert (k < length (part s e (ns_al n)))%nat by (apply nth_error_Some; congruence). unfold zlen in Lp.
    assert (Ex : nth_error (ns_al n) (Z.to_nat (s + Z.of_nat k)) = Some x).
    { rewrite <- (part_nth (ns_al n) s e (s + Z.of_nat k)) by (unfold zlen in *; lia). rewrite <- Hk. f_equal. lia. }
    destruct (Hin (s + Z.of_nat k) x ltac:(lia) Ex) as [X1 X2]. rewrite Forall_forall in W2.
    specialize (W2 x (nth_error_In _ _ Ex)). unfold inside in W2. lia. }
  split.
  - unfold wf. cbn [ns_norm ns_orig ns_al ns_ao ns_cells]. rewrite !map_length, seq_length.
    assert (Ln : zlen (part s e (ns_norm n)) = e - s) by (apply part_length; lia).
    assert (Lv : zlen (part a b (ns_ao_values n)) = b - a) by (apply part_length; lia).
    split; [unfold zlen in *; lia|]. split; [|split].
    + apply Forall_map, Forall_forall. intros x Hx. specialize (Hpart x Hx). unfold inside. cbn [fst snd]. lia.
    + unfold zlen in *. lia.
    + apply Forall_forall. intros x Hx. apply in_seq in Hx. lia.
  - intros i j p q Hij Ei Ej. rewrite nth_error_map in Ei, Ej.
    destruct (nth_error (part s e (ns_al n)) i) as [p'|] eqn:Ep; [|discriminate Ei].
    destruct (nth_error (part s e (ns_al n)) j) as [q'|] eqn:Eq; [|discriminate Ej].
    injection Ei as <-. injection Ej as <-.
    pose proof (ordered_part (ns_al n) s e O i j p' q' Hij Ep Eq) as Op. unfold ple in *. cbn. lia.
Qed.
Lemma slice_inside_char n s e : 0 <= s -> s < e -> e <= zlen (ns_norm n) ->
  ~ (boundary (ns_norm n) s /\ boundary (ns_norm n) e) ->
  ns_slice n (Rng s e OnNormalized) = Ok None.
Proof. intros H1 H2 H3 B. unfold ns_slice. now rewrite validate_bad. Qed.

(** An empty range is not converted. *)
Lemma convert_empty n s : 0 <= s <= zlen (ns_norm n) ->
  convert_offset n (Rng s s OnNormalized) = Ok (Some (Rng s s OnNormalized)).
Proof.
  intros H. unfold convert_offset, into_full_range. cbn [r_on r_start r_end].
  replace (s =? -1) with false by lia. replace (zlen (ns_norm n) <? s) with false by lia. now rewrite Z.eqb_refl.
Qed.
Lemma slice_empty_beyond n s : wf n -> zlen (ns_orig n) < s <= zlen (ns_norm n) -> boundary (ns_norm n) s ->
  ns_slice n (Rng s s OnNormalized) = Panic.
Proof.
  intros (W1 & W2 & W3 & W4) H B. pose proof (zlen_nonneg (ns_orig n)).
  unfold ns_slice, validate_range, into_full_range. cbn [r_on r_start r_end].
  replace (s =? -1) with false by lia. replace (zlen (ns_norm n) <? s) with false by lia.
  replace (zlen (ns_norm n) <? s) with false by lia. replace (s <? 0) with false by lia. cbn [orb].
  replace ((s =? 0) && (s =? 0)) with false by lia.
  apply boundary_check in B; [|lia]. replace (s =? 0) with false in * by lia.
  destruct (Z.eqb_spec s (zlen (ns_norm n))) as [E|E].
  - assert (X : zindex (ns_norm n) s = Panic).
    { unfold zindex. replace (0 <=? s) with true by lia.
      destruct (nth_error (ns_norm n) (Z.to_nat s)) eqn:En; [|reflexivity].
      assert (Z.to_nat s < length (ns_norm n))%nat by (apply nth_error_Some; congruence). unfold zlen in E. lia. }
    rewrite X. reflexivity.
  - rewrite B. cbn [bind negb]. rewrite convert_empty by lia. cbn [bind r_on r_start r_end].
    assert (X : zslice (ns_ao_values n) 0 s = Panic).
    { unfold zslice. assert (WO : zlen (ns_ao_values n) = zlen (ns_orig n)) by (unfold ns_ao_values, zlen; now rewrite map_length, W3).
      rewrite WO. replace ((0 <=? 0) && (0 <=? s) && (s <=? zlen (ns_orig n))) with false by lia. reflexivity. }
    rewrite X. reflexivity.
Qed.
Lemma slice_empty_end n : ns_norm n <> [] ->
  ns_slice n (Rng (zlen (ns_norm n)) (zlen (ns_norm n)) OnNormalized) = Panic.
Proof.
  intros Hne. set (s := zlen (ns_norm n)).
  assert (Hs : 0 < s) by (subst s; destruct (ns_norm n); [congruence|unfold zlen; cbn [length]; lia]).
  unfold ns_slice, validate_range, into_full_range. cbn [r_on r_start r_end]. fold s.
  replace (s =? -1) with false by lia. rewrite !Z.ltb_irrefl. replace (s <? 0) with false by lia. cbn [orb].
  replace ((s =? 0) && (s =? 0)) with false by lia. replace (s =? 0) with false by lia.
  assert (X : zindex (ns_norm n) s = Panic).
  { unfold zindex. replace (0 <=? s) with true by lia.
    destruct (nth_error (ns_norm n) (Z.to_nat s)) eqn:En; [|reflexivity].
    assert (Z.to_nat s < length (ns_norm n))%nat by (apply nth_error_Some; congruence). unfold zlen in s. lia. }
  rewrite X. reflexivity.
Qed.

(** ** Split *)
Lemma group_nonempty j l : Forall (fun g => g <> []) (group j l).
Proof.
  induction l as [|x l IH]; cbn [group]; [constructor|].
  destruct (group j l) as [|[|y g] gs]; [repeat constructor; discriminate| |].
  - constructor; [discriminate|exact IH].
  - inversion IH; subst. destruct (j (snd x) (snd y)); repeat (constructor; try discriminate); assumption.
Qed.
Lemma group_concat j l : concat (group j l) = l.
Proof.
  induction l as [|x l IH]; [reflexivity|]. cbn [group].
  pose proof (group_nonempty j l) as Ne. destruct (group j l) as [|[|y g] gs].
  - cbn in *. now rewrite <- IH.
  - inversion Ne; congruence.
  - destruct (j (snd x) (snd y)); cbn in *; now rewrite <- IH.
Qed.
Lemma group_snoc j l x : l <> [] ->
  exists gs g y, group j l = gs ++ [g ++ [y]] /\
    group j (l ++ [x]) = if j (snd y) (snd x) then gs ++ [g ++ [y; x]] else gs ++ [g ++ [y]; [x]].
Proof.
  induction l as [|z l IH]; [congruence|]. intros _. destruct l as [|z' l].
  - exists [], [], z. cbn. split; [reflexivity|]. destruct (j (snd z) (snd x)); reflexivity.
  - destruct IH as (gs & g & y & E1 & E2); [discriminate|].
    remember (z' :: l) as l1. cbn [app group]. rewrite E1, E2. destruct gs as [|g0 gs].
    + cbn [app]. destruct g as [|y0 g]; cbn [app].
      * destruct (j (snd y) (snd x)) eqn:Eyx; destruct (j (snd z) (snd y)) eqn:Ej.
        -- exists [], [z], y. rewrite Eyx. split; reflexivity.
        -- exists [[z]], [], y. rewrite Eyx. split; reflexivity.
        -- exists [], [z], y. rewrite Eyx. split; reflexivity.
        -- exists [[z]], [], y. rewrite Eyx. split; reflexivity.
      * destruct (j (snd z) (snd y0)) eqn:Ej.
        -- exists [], (z :: y0 :: g), y. split; [reflexivity|]. destruct (j (snd y) (snd x)); cbn [app]; rewrite Ej; reflexivity.
        -- exists [[z]], (y0 :: g), y. split; [reflexivity|]. destruct (j (snd y) (snd x)); cbn [app]; rewrite Ej; reflexivity.
    + pose proof (group_nonempty j l1) as Ne. rewrite E1 in Ne. cbn [app] in Ne. inversion Ne as [|? ? Hg0 _]; subst.
      destruct g0 as [|y0 g0]; [congruence|]. cbn [app].
      destruct (j (snd z) (snd y0)) eqn:Ej.
      * exists ((z :: y0 :: g0) :: gs), g, y. split; [reflexivity|].
        destruct (j (snd y) (snd x)); cbn [app]; rewrite Ej; reflexivity.
      * exists ([z] :: (y0 :: g0) :: gs), g, y. split; [reflexivity|].
        destruct (j (snd y) (snd x)); cbn [app]; rewrite Ej; reflexivity.
Qed.

Definition keep (r : Z * Z) : (Z * Z) * bool := (r, false).
Lemma span_snoc g y x : span (g ++ [y; x]) = (fst (span (g ++ [y])), snd (fst x)).
Proof.
  unfold span. cbn [fst snd]. f_equal.
  - destruct g; reflexivity.
  - rewrite last_app_ne by discriminate. reflexivity.
Qed.
Lemma last_snd_nonempty (ms : list offsets_match) : ms <> [] ->
  exists l y, ms = l ++ [y].
Proof. intros H. destruct (exists_last H) as (l & y & E). eauto. Qed.

Lemma group_last j l g y gs : group j l = gs ++ [g ++ [y]] -> exists l', l = l' ++ [y].
Proof.
  intros E. pose proof (group_concat j l) as C. rewrite E, concat_app in C. cbn in C. rewrite app_nil_r, app_assoc in C.
  eauto.
Qed.

Section LeftMerge.
  Variable j : bool -> bool -> bool.
  Variable step : list offsets_match * bool -> offsets_match -> list offsets_match * bool.
  Hypothesis step_ok : forall acc pm m, step (acc, pm) m =
    (if j pm (snd m) then match acc with [] => [(fst m, false)] | _ => set_last_end acc (snd (fst m)) end
     else (fst m, false) :: acc, snd m).

  Lemma left_merge ms : ms <> [] -> exists l y, ms = l ++ [y] /\
    fold_left step ms ([], false) = (rev (map keep (map span (group j ms))), snd y).
  Proof.
    induction ms as [|m ms IH] using rev_ind; [congruence|]. intros _. exists ms, m. split; [reflexivity|].
    rewrite fold_left_app. cbn [fold_left]. destruct ms as [|m0 ms'] eqn:Ems.
    - cbn [fold_left app group]. rewrite step_ok. unfold keep, span. cbn. destruct (fst m) as [a b] eqn:Em.
      destruct (j false (snd m)); cbn; reflexivity.
    - rewrite <- Ems in *. assert (Hne : ms <> []) by (rewrite Ems; discriminate). clear Ems m0 ms'.
      destruct (IH Hne) as (l & y & El & Ef). rewrite Ef, step_ok.
      destruct (group_snoc j ms m Hne) as (gs & g & y' & E1 & E2).
      assert (y' = y).
      { destruct (group_last j ms g y' gs E1) as (l' & El'). rewrite El in El'. apply app_inj_tail in El'. symmetry. apply El'. }
      subst y'. rewrite E1, E2. rewrite !map_app. cbn [map]. rewrite rev_app_distr. cbn [rev app].
      destruct (j (snd y) (snd m)).
      + f_equal. cbn [set_last_end]. unfold keep at 1. destruct (span (g ++ [y])) as [s0 e0] eqn:Es. cbn [set_last_end].
        rewrite !map_app. cbn [map]. rewrite rev_app_distr. cbn [rev app]. f_equal. rewrite span_snoc, Es. reflexivity.
      + f_equal. rewrite !map_app. cbn [map]. rewrite rev_app_distr. cbn [rev app]. do 2 f_equal.
        unfold keep, span. cbn. now destruct (fst m).
  Qed.
End LeftMerge.

Lemma merge_next_group ms :
  fold_left merge_next_step (rev ms) ([], false) =
  (map keep (map span (group (joins MergedWithNext) ms)), match ms with [] => false | m :: _ => snd m end).
Proof.
  induction ms as [|m ms IH]; [reflexivity|]. cbn [rev]. rewrite fold_left_app, IH. cbn [fold_left merge_next_step].
  f_equal. cbn [group]. destruct ms as [|m' ms].
  - cbn. unfold keep, span. cbn. destruct (snd m); cbn; now destruct (fst m).
  - pose proof (group_nonempty (joins MergedWithNext) (m' :: ms)) as Ne.
    pose proof (group_concat (joins MergedWithNext) (m' :: ms)) as C.
    destruct (group (joins MergedWithNext) (m' :: ms)) as [|[|y g] gs]; [discriminate C|inversion Ne; congruence|].
    injection C as -> _. cbn [joins]. destruct (snd m && negb (snd m')).
    + cbn [map keep]. unfold span at 1, keep at 1. cbn [hd set_last_start]. reflexivity.
    + cbn [map]. f_equal. unfold keep, span. cbn. now destruct (fst m).
Qed.

Lemma group_isolated l : map span (group (fun _ _ => false) l) = map fst l.
Proof.
  induction l as [|x l IH]; [reflexivity|]. cbn [group].
  pose proof (group_nonempty (fun _ _ => false) l) as Ne.
  destruct (group (fun _ _ => false) l) as [|[|y g] gs].
  - cbn in *. rewrite <- IH. unfold span. cbn. now destruct (fst x).
  - inversion Ne; congruence.
  - cbn [map] in *. rewrite IH. f_equal. unfold span. cbn. now destruct (fst x).
Qed.

Lemma split_ranges_spec b ms : b <> Removed -> split_ranges b ms = map keep (piece_ranges b ms).
Proof.
  intros Hb. destruct b; try congruence; unfold piece_ranges.
  - cbn [split_ranges joins]. rewrite group_isolated, map_map. reflexivity.
  - cbn [split_ranges]. destruct ms as [|m ms]; [reflexivity|].
    destruct (left_merge (joins MergedWithPrevious) merge_prev_step) with (ms := m :: ms) as (l & y & _ & Hf).
    + intros acc pm m0. cbn [merge_prev_step joins]. rewrite andb_comm. reflexivity.
    + discriminate.
    + rewrite Hf. cbn [fst]. apply rev_involutive.
  - cbn [split_ranges]. rewrite merge_next_group. reflexivity.
  - cbn [split_ranges]. destruct ms as [|m ms]; [reflexivity|].
    destruct (left_merge (joins Contiguous) contiguous_step) with (ms := m :: ms) as (l & y & _ & Hf).
    + intros acc pm m0. cbn [contiguous_step joins]. destruct (snd m0), pm; reflexivity.
    + discriminate.
    + rewrite Hf. cbn [fst]. apply rev_involutive.
Qed.

(** Pieces of a partition. *)
Lemma partition_app a c l1 l2 : partition a c (l1 ++ l2) <-> exists b, partition a b l1 /\ partition b c l2.
Proof.
  revert a; induction l1 as [|[[s e] k] l1 IH]; intros a; cbn [app partition].
  - split; [intros H; exists a; auto|]. intros (b & -> & H). exact H.
  - rewrite IH. split.
    + intros (-> & H1 & b & H2 & H3). exists b. auto.
    + intros (b & (-> & H1 & H2) & H3). repeat split; auto. exists b. auto.
Qed.
Lemma partition_le a b l : partition a b l -> a <= b.
Proof.
  revert a; induction l as [|[[s e] k] l IH]; intros a; cbn [partition]; [lia|].
  intros (-> & H & H1). apply IH in H1. lia.
Qed.
Lemma partition_span a b g : g <> [] -> partition a b g -> span g = (a, b).
Proof.
  intros Hg P. destruct (exists_last Hg) as (l & [[s e] k] & ->). apply partition_app in P.
  destruct P as (c & P1 & P2). cbn [partition] in P2. destruct P2 as (-> & _ & ->).
  unfold span. rewrite last_last. cbn [fst snd]. destruct l as [|[[s e] k'] l]; cbn in *; [now subst|].
  destruct P1 as (-> & _). reflexivity.
Qed.
Lemma partition_groups a b gs : Forall (fun g => g <> []) gs -> partition a b (concat gs) ->
  partition a b (map keep (map span gs)).
Proof.
  revert a; induction gs as [|g gs IH]; intros a Ne P; [exact P|]. inversion Ne as [|x y Hg Hgs]; subst.
  cbn [concat] in P. apply partition_app in P. destruct P as (c & P1 & P2).
  cbn [map]. rewrite (partition_span a c g Hg P1). cbn [keep partition].
  split; [reflexivity|]. split; [now apply partition_le in P1|]. now apply IH.
Qed.
Lemma piece_partition b a c ms : b <> Removed -> partition a c ms -> partition a c (map keep (piece_ranges b ms)).
Proof.
  intros Hb P. unfold piece_ranges. assert (G : partition a c (map keep (map span (group (joins b) ms)))).
  { apply partition_groups; [apply group_nonempty|]. now rewrite group_concat. }
  destruct b; try congruence; exact G.
Qed.
(** Piece ends are ends of the given ranges. *)
Lemma span_cut s g : g <> [] -> Forall (cut s) g -> (exists a b, partition a b g) -> cut s (span g, false).
Proof.
  intros Hg F (a & b & P). pose proof (partition_span a b g Hg P) as E.
  destruct (exists_last Hg) as (l & z & E2). rewrite E. destruct g as [|x g]; [congruence|].
  assert (Fz : cut s z) by (rewrite Forall_forall in F; apply F; rewrite E2; apply in_or_app; right; now left).
  inversion F as [|? ? Fx _]; subst.
  assert (Hx : fst (fst x) = a) by (destruct x as [[s0 e0] k0]; cbn in P; destruct P as (-> & _); reflexivity).
  assert (Hz : snd (fst z) = b).
  { rewrite E2 in P. apply partition_app in P. destruct P as (c & _ & P2). destruct z as [[s0 e0] k0]. cbn in P2. apply P2. }
  assert (Hab : a < b).
  { destruct x as [[s0 e0] k0]. cbn in P. destruct P as (-> & _ & P). apply partition_le in P.
    destruct Fx as (Fx & _). cbn in *. lia. }
  unfold cut in *. cbn [fst snd]. rewrite <- Hx, <- Hz. rewrite <- Hx, <- Hz in Hab. tauto.
Qed.
Lemma piece_cut b s a c ms : partition a c ms -> Forall (cut s) ms ->
  Forall (fun r => cut s (r, false)) (piece_ranges b ms).
Proof.
  intros P F.
  assert (G : forall j, Forall (fun r => cut s (r, false)) (map span (group j ms))).
  { intros j. apply Forall_map. pose proof (group_nonempty j ms) as Ne. pose proof (group_concat j ms) as C.
    rewrite <- C in P, F. clear C. revert a P. induction (group j ms) as [|g gs IH]; intros a P; [constructor|].
    inversion Ne as [|? ? Hg Hgs]; subst. cbn [concat] in *. rewrite Forall_app in F. destruct F as [F1 F2].
    apply partition_app in P. destruct P as (d & P1 & P2). constructor; [apply span_cut; eauto|]. eapply IH; eauto. }
  destruct b; try apply G. cbn [piece_ranges]. apply Forall_map. apply Forall_forall. intros m Hm.
  apply filter_In in Hm. rewrite Forall_forall in F. specialize (F m (proj1 Hm)). unfold cut in *. cbn. exact F.
Qed.

Lemma partition_bounds a c ms : partition a c ms -> Forall (fun m => a <= fst (fst m) /\ snd (fst m) <= c) ms.
Proof.
  revert a; induction ms as [|[[s e] k] ms IH]; intros a P; [constructor|]. cbn in P. destruct P as (-> & H & P).
  constructor; [cbn; apply partition_le in P; lia|]. eapply Forall_impl; [|exact (IH e P)]. cbn. intros; lia.
Qed.

Lemma slices_ok n rs : wf n -> ordered (ns_al n) ->
  Forall (fun r => cut (ns_norm n) (r, false) /\ 0 <= fst r /\ snd r <= zlen (ns_norm n)) rs ->
  exists ps, slices n (map keep rs) = Ok ps /\
    map ns_norm ps = map (fun r => part (fst r) (snd r) (ns_norm n)) rs /\
    Forall (fun m => wf m /\ ordered (ns_al m)) ps.
Proof.
  intros W O. induction rs as [|[a b] rs IH]; intros F; [exists []; repeat split; constructor|].
  inversion F as [|x y ((Hab & Ba & Bb) & H0 & H1) F']; subst. cbn [fst snd] in *.
  destruct (slice_normalized n a b W O H0 Hab H1 Ba Bb) as (a' & b' & m & _ & Es & Em & _ & _ & _ & Wm & Om).
  destruct (IH F') as (ps & Eps & Ep & Fp). cbn [map keep slices]. rewrite Es. cbn [bind]. rewrite Eps. cbn [bind].
  exists (m :: ps). split; [reflexivity|]. cbn [map fst snd]. rewrite Em, Ep. split; [reflexivity|]. constructor; auto.
Qed.

Lemma slices_removed n ms : slices n ms = slices n (map keep (map fst (filter (fun m => negb (snd m)) ms))).
Proof.
  induction ms as [|[[a b] [|]] ms IH]; [reflexivity| |]; cbn [slices filter negb snd map fst keep]; [exact IH|].
  cbn [slices]. now rewrite IH.
Qed.

Lemma split_slices n b ms : slices n (split_ranges b ms) = slices n (map keep (piece_ranges b ms)).
Proof.
  destruct b; try (rewrite split_ranges_spec by discriminate; reflexivity).
  cbn [split_ranges piece_ranges]. apply slices_removed.
Qed.

Lemma split_ok n p b ms : wf n -> ordered (ns_al n) -> find_matches p (ns_norm n) = Ok ms ->
  partition 0 (zlen (ns_norm n)) ms -> Forall (cut (ns_norm n)) ms ->
  exists ps, ns_split n p b = Ok ps /\
    map ns_norm ps = map (fun r => part (fst r) (snd r) (ns_norm n)) (piece_ranges b ms) /\
    Forall (fun m => wf m /\ ordered (ns_al m)) ps.
Proof.
  intros W O E P F. unfold ns_split. rewrite E. cbn [bind]. rewrite split_slices. apply slices_ok; auto.
  pose proof (piece_cut b _ _ _ _ P F) as C.
  assert (B : Forall (fun r => 0 <= fst r /\ snd r <= zlen (ns_norm n)) (piece_ranges b ms)).
  { assert (D : b = Removed \/ b <> Removed) by (destruct b; auto; right; discriminate).
    destruct D as [->|D].
    - cbn [piece_ranges]. apply partition_bounds in P. apply Forall_map, Forall_forall. intros m Hm.
      apply filter_In in Hm. rewrite Forall_forall in P. apply (P m), Hm.
    - pose proof (piece_partition b _ _ ms D P) as P'. apply partition_bounds in P'.
      apply Forall_map in P'. eapply Forall_impl; [|exact P']. intros [u v]. cbn. auto. }
  rewrite Forall_forall in *. intros r Hr. split; [now apply C|]. now apply B.
Qed.

Lemma parts_concat {A} (l : list A) rs : forall a c, 0 <= a -> c <= zlen l -> partition a c (map keep rs) ->
  concat (map (fun r => part (fst r) (snd r) l) rs) = part a c l.
Proof.
  induction rs as [|[s e] rs IH]; intros a c Ha Hc P.
  - cbn in P. subst. unfold part. rewrite Z.sub_diag. reflexivity.
  - cbn [map keep partition] in P. destruct P as (-> & H1 & P). cbn [map concat fst snd].
    pose proof (partition_le _ _ _ P). rewrite (IH e c) by (assumption || lia).
    unfold part. replace (Z.to_nat (c - a)) with (Z.to_nat (e - a) + Z.to_nat (c - e))%nat by lia.
    replace (skipn (Z.to_nat e) l) with (skipn (Z.to_nat (e - a)) (skipn (Z.to_nat a) l))
      by (rewrite skipn_plus; f_equal; lia).
    generalize (skipn (Z.to_nat a) l) (Z.to_nat (e - a)) (Z.to_nat (c - e)). clear. intros m k c. revert m.
    induction k as [|k IHk]; intros m; [reflexivity|].
    destruct m as [|x m]; [cbn; now rewrite firstn_nil|]. cbn. now rewrite IHk.
Qed.

Lemma split_concat n p b ms ps : wf n -> ordered (ns_al n) -> b <> Removed ->
  find_matches p (ns_norm n) = Ok ms -> partition 0 (zlen (ns_norm n)) ms -> Forall (cut (ns_norm n)) ms ->
  ns_split n p b = Ok ps -> concat (map ns_norm ps) = ns_norm n.
Proof.
  intros W O Hb E P F Es. destruct (split_ok n p b ms W O E P F) as (ps' & Es' & Et & _).
  rewrite Es in Es'. injection Es' as <-. rewrite Et.
  rewrite (parts_concat (ns_norm n) (piece_ranges b ms) 0 (zlen (ns_norm n))); [apply part_all|lia|lia|].
  now apply piece_partition.
Qed.

(** Matches of a function fall between characters. *)
Definition char_pos (rs : list N) (i : Z) : Prop := exists k, (k <= length rs)%nat /\ i = bytes (firstn k rs).
Lemma rune_start_head r : exists b l, encode_rune r = b :: l /\ rune_start b = true.
Proof.
  assert (G : forall c, scalar c -> exists b l, encode_rune c = b :: l /\ rune_start b = true).
  { clear. intros c Hc. apply scalarb_spec in Hc. unfold encode_rune. rewrite Hc.
    destruct (N.ltb_spec c 128); [|destruct (N.ltb_spec c 2048); [|destruct (N.ltb_spec c 65536)]];
      eexists _, _; (split; [reflexivity|]); unfold rune_start;
      match goal with |- negb (?a && ?b) = true => assert (X : a && b = false) end; try (rewrite X; reflexivity);
      apply andb_false_iff; try (left; apply N.leb_gt; lia); right; apply N.ltb_ge; lia. }
  destruct (scalarb r) eqn:E; [apply G; now apply scalarb_spec|].
  destruct (G rune_error) as (b & l & Eb & Hb); [unfold scalar, rune_error; lia|].
  exists b, l. split; [|exact Hb]. rewrite <- Eb. unfold encode_rune at 1. rewrite E. unfold scalarb in E.
  destruct (N.ltb_spec r 128); [lia|]. destruct (N.ltb_spec r 2048); [lia|]. reflexivity.
Qed.
Lemma char_pos_boundary rs i : char_pos rs i -> boundary (encode rs) i.
Proof.
  intros (k & Hk & ->). destruct (skipn k rs) as [|r rest] eqn:E.
  - right. left. rewrite <- (firstn_skipn k rs) at 2. rewrite E, app_nil_r. reflexivity.
  - right. right. destruct (rune_start_head r) as (b & l & Eb & Hb). exists b.
    split; [apply bytes_nonneg|]. split; [|exact Hb]. rewrite <- (firstn_skipn k rs) at 1. rewrite E, encode_app.
    unfold bytes, zlen. rewrite Nat2Z.id, nth_error_app2 by lia. rewrite Nat.sub_diag, encode_cons, Eb. reflexivity.
Qed.

Lemma fn_loop_cut f all : forall rest dn prev has, all = dn ++ rest -> char_pos all prev ->
  (has = true -> prev < bytes dn) -> (has = false -> prev <= bytes dn) ->
  let '(subs, (prev', has')) := fn_loop f (map (fun r => (r, length (encode_rune r))) rest) (bytes dn) prev has in
  Forall (fun m => fst (fst m) < snd (fst m) /\ char_pos all (fst (fst m)) /\ char_pos all (snd (fst m))) subs /\
  char_pos all prev' /\ (has' = true -> prev' < bytes all).
Proof.
  induction rest as [|r rest IH]; intros dn prev has Hall Hp H1 H2.
  - cbn. rewrite app_nil_r in Hall. subst. auto.
  - cbn [map fn_loop]. fold (zlen (encode_rune r)).
    assert (Hcur : char_pos all (bytes dn)).
    { exists (length dn). rewrite Hall. split; [rewrite app_length; lia|]. rewrite firstn_app, Nat.sub_diag, firstn_all. cbn. now rewrite app_nil_r. }
    assert (Hnext : bytes dn + zlen (encode_rune r) = bytes (dn ++ [r])).
    { rewrite bytes_app, bytes_cons. unfold bytes at 3. cbn. lia. }
    pose proof (zlen_rune r) as Hr. rewrite Hnext.
    assert (Hall' : all = (dn ++ [r]) ++ rest) by (rewrite <- app_assoc; exact Hall).
    assert (Hpn : char_pos all (bytes (dn ++ [r]))).
    { exists (length (dn ++ [r])). rewrite Hall'. split; [rewrite !app_length; lia|]. rewrite firstn_app, Nat.sub_diag, firstn_all. cbn. now rewrite app_nil_r. }
    destruct (f r).
    + specialize (IH (dn ++ [r]) (bytes (dn ++ [r])) false Hall' Hpn ltac:(discriminate) ltac:(lia)).
      destruct (fn_loop f _ (bytes (dn ++ [r])) _ false) as [subs [prev' has']]. destruct IH as (I1 & I2 & I3).
      split; [|auto]. apply Forall_app. split.
      * destruct has; [|constructor]. constructor; [|constructor]. cbn. auto.
      * constructor; [cbn; split; [lia|auto]|exact I1].
    + apply IH; auto; intros; [|discriminate].
      destruct has; [specialize (H1 eq_refl)|specialize (H2 eq_refl)]; lia.
Qed.

Lemma fn_matches_cut f s : valid_utf8 s -> s <> [] -> Forall (cut s) (fn_matches f s).
Proof.
  intros V Hne. pose proof (valid_utf8_runes s V) as E. pose proof V as V'. destruct V' as (rs & Sc & Ers).
  unfold fn_matches. destruct (Nat.eqb_spec (length s) 0); [destruct s; [congruence|discriminate]|].
  replace (runes_w s) with (map (fun r => (r, length (encode_rune r))) rs)
    by (rewrite Ers; symmetry; now apply runes_w_encode).
  pose proof (fn_loop_cut f rs rs [] 0 false eq_refl) as L.
  assert (P0 : char_pos rs 0) by (exists 0%nat; split; [lia|reflexivity]).
  specialize (L P0 ltac:(discriminate) ltac:(unfold bytes; cbn; lia)). change (bytes []) with 0 in L.
  destruct (fn_loop f _ 0 0 false) as [subs [prev has]]. destruct L as (L1 & L2 & L3).
  assert (Hc : forall m : offsets_match, fst (fst m) < snd (fst m) /\ char_pos rs (fst (fst m)) /\ char_pos rs (snd (fst m)) -> cut s m).
  { intros m (M1 & M2 & M3). unfold cut. rewrite Ers. auto using char_pos_boundary. }
  apply Forall_app. split.
  - eapply Forall_impl; [|exact L1]. exact Hc.
  - destruct has; [|constructor]. constructor; [|constructor]. apply Hc. cbn. specialize (L3 eq_refl).
    assert (Hb : bytes rs = zlen s) by (unfold bytes; now rewrite Ers). split; [lia|]. split; [exact L2|].
    exists (length rs). split; [lia|]. rewrite firstn_all. lia.
Qed.

(** ** Elementary operations *)
Lemma items_text_app a b : items_text (a ++ b) = items_text a ++ items_text b.
Proof. unfold items_text. now rewrite map_app, concat_app. Qed.
Lemma items_text_runes c rs : items_text (map (fun r => (encode_rune r, c)) rs) = encode rs.
Proof. induction rs as [|r rs IH]; [reflexivity|]. unfold items_text in *. cbn [map concat fst]. now rewrite IH, encode_cons. Qed.

Lemma filter_items_text f rs : items_text (fst (filter_items f rs)) = encode (filter f rs).
Proof.
  unfold filter_items. induction rs as [|r rs IH]; [reflexivity|]. cbn [fold_right filter].
  destruct (fold_right (filter_step f) ([], 0) rs) as [items removed]. cbn [filter_step fst] in *.
  destruct (f r); [|exact IH]. cbn [fst]. rewrite encode_cons, <- IH. reflexivity.
Qed.
Lemma filter_text f s n' : valid_utf8 s -> ns_filter f (new_ns s) = Ok n' -> ns_norm n' = encode (filter f (runes s)).
Proof.
  intros V E. unfold ns_filter in E. cbn [new_ns ns_norm] in E. fold (new_ns s) in E.
  pose proof (filter_items_text f (runes s)) as T. pose proof (valid_filter_items f (runes s)) as Vi.
  destruct (filter_items f (runes s)) as [items removed]. cbn [fst] in *.
  apply transform_fresh_text in E; auto. destruct E as [-> _]. exact T.
Qed.

Lemma strip_items_text rs lead trail :
  items_text (strip_items rs lead trail) = encode (firstn (length rs - trail - lead) (skipn lead rs)).
Proof.
  unfold strip_items. set (L := length rs).
  assert (G : forall l i, items_text (flat_map (fun ir : nat * N => let '(i, r) := ir in
      if (i <? lead)%nat || (L - trail <=? i)%nat then []
      else if (S i =? L - trail)%nat then [(encode_rune r, - Z.of_nat trail)] else [(encode_rune r, 0)])
      (combine (seq i (length l)) l)) = encode (firstn (L - trail - Nat.max lead i) (skipn (lead - i) l))).
  { induction l as [|r l IH]; intros i; [rewrite skipn_nil, firstn_nil; reflexivity|].
    cbn [length seq combine flat_map]. rewrite items_text_app, IH.
    destruct (Nat.ltb_spec i lead) as [H1|H1]; cbn [orb].
    - replace (lead - i)%nat with (S (lead - S i)) by lia. cbn [skipn].
      replace (Nat.max lead (S i)) with (Nat.max lead i) by lia. reflexivity.
    - replace (lead - i)%nat with 0%nat by lia. replace (lead - S i)%nat with 0%nat by lia. cbn [skipn].
      replace (Nat.max lead i) with i by lia. replace (Nat.max lead (S i)) with (S i) by lia.
      destruct (Nat.leb_spec (L - trail) i) as [H2|H2].
      + replace (L - trail - S i)%nat with 0%nat by lia. replace (L - trail - i)%nat with 0%nat by lia. reflexivity.
      + replace (L - trail - i)%nat with (S (L - trail - S i)) by lia. cbn [firstn]. rewrite encode_cons. f_equal.
        destruct (S i =? L - trail)%nat; unfold items_text; cbn; apply app_nil_r. }
  specialize (G rs 0%nat). fold L in G. rewrite G. rewrite Nat.max_0_r, Nat.sub_0_r. reflexivity.
Qed.

Lemma drop_while_skipn f rs : drop_while f rs = skipn (count_while f rs) rs.
Proof. induction rs as [|r rs IH]; [reflexivity|]. cbn. destruct (f r); [exact IH|reflexivity]. Qed.
Lemma count_while_le f rs : (count_while f rs <= length rs)%nat.
Proof. induction rs as [|r rs IH]; cbn; [lia|]. destruct (f r); lia. Qed.
Lemma rev_drop_rev f rs : rev (drop_while f (rev rs)) = firstn (length rs - count_while f (rev rs)) rs.
Proof. rewrite drop_while_skipn, skipn_rev, rev_involutive. reflexivity. Qed.
Lemma count_while_app f a b : count_while f (a ++ b) =
  if (count_while f a =? length a)%nat then (length a + count_while f b)%nat else count_while f a.
Proof.
  induction a as [|x a IH]; [reflexivity|]. cbn [app count_while length]. destruct (f x); [|reflexivity].
  rewrite IH. cbn [Nat.eqb]. destruct (count_while f a =? length a)%nat; lia.
Qed.
Lemma count_while_stop f rs : (count_while f rs < length rs)%nat -> exists r rest,
  skipn (count_while f rs) rs = r :: rest /\ f r = false.
Proof.
  induction rs as [|r rs IH]; cbn [length count_while]; [lia|]. intros H. destruct (f r) eqn:E.
  - destruct IH as (r' & rest & E1 & E2); [lia|]. exists r', rest. auto.
  - exists r, rs. auto.
Qed.
Lemma count_while_all f rs : count_while f rs = length rs -> Forall (fun r => f r = true) rs.
Proof.
  induction rs as [|r rs IH]; [constructor|]. cbn. destruct (f r) eqn:E; [|discriminate]. intros [= H]. constructor; auto.
Qed.

Lemma stripped_spec sp (l r : bool) rs :
  let lead := if l then count_while sp rs else O in
  let trail := if r then count_while sp (rev rs) else O in
  firstn (length rs - trail - lead) (skipn lead rs) = stripped sp l r rs.
Proof.
  cbn zeta. unfold stripped. destruct l.
  - cbn zeta. rewrite (drop_while_skipn sp rs). set (lead := count_while sp rs). set (X := skipn lead rs).
    assert (LX : length X = (length rs - lead)%nat) by apply skipn_length. destruct r.
    + rewrite rev_drop_rev. destruct (Nat.eq_dec (length X) 0) as [H0|H0].
      * destruct X; [|discriminate H0]. now rewrite !firstn_nil.
      * assert (Hl : (lead < length rs)%nat) by lia. destruct (count_while_stop sp rs Hl) as (c & rest & Ec & Hc).
        fold lead X in Ec.
        assert (E : count_while sp (rev rs) = count_while sp (rev X)).
        { rewrite <- (firstn_skipn lead rs) at 1. fold X. rewrite rev_app_distr, count_while_app.
          destruct (Nat.eqb_spec (count_while sp (rev X)) (length (rev X))) as [Ea|_]; [|reflexivity].
          exfalso. apply count_while_all in Ea. rewrite Forall_forall in Ea.
          specialize (Ea c). rewrite <- in_rev, Ec in Ea. specialize (Ea (or_introl eq_refl)). congruence. }
        rewrite E. f_equal. lia.
    + apply firstn_all2. lia.
  - cbn [skipn]. rewrite Nat.sub_0_r. destruct r; [now rewrite rev_drop_rev|]. rewrite Nat.sub_0_r. apply firstn_all.
Qed.

Lemma strip_text sp l r s n' : valid_utf8 s -> lrstrip sp l r (new_ns s) = Ok n' ->
  ns_norm n' = encode (stripped sp l r (runes s)).
Proof.
  intros V E. unfold lrstrip in E. cbn [new_ns ns_norm] in E. fold (new_ns s) in E.
  rewrite <- stripped_spec. cbn zeta.
  set (lead := if l then count_while sp (runes s) else O) in *.
  set (trail := if r then count_while sp (rev (runes s)) else O) in *.
  destruct ((0 <? lead) || (0 <? trail))%nat eqn:E0.
  - apply transform_fresh_text in E; [|exact V|apply valid_strip_items]. destruct E as [-> _]. apply strip_items_text.
  - injection E as <-. cbn [new_ns ns_norm]. replace lead with 0%nat by lia. replace trail with 0%nat by lia.
    cbn [skipn]. rewrite !Nat.sub_0_r, firstn_all. symmetry. now apply valid_utf8_runes.
Qed.

(** Prepend and Append. *)
Lemma consumed_inserts {A} (f : A -> str) l : consumed (map (fun c => (f c, 1)) l) = 0.
Proof. induction l as [|x l IH]; [reflexivity|]. cbn [map]. rewrite consumed_cons, IH. reflexivity. Qed.
Lemma consumed_app a b : consumed (a ++ b) = consumed a + consumed b.
Proof. induction a as [|[s c] a IH]; [reflexivity|]. cbn [app]. rewrite !consumed_cons, IH. lia. Qed.

Lemma prepend_ok p rs n : wf n -> ordered (ns_al n) -> ns_norm n = encode rs -> Forall scalar rs ->
  hd 1%N rs <> 0%N -> exists n', ns_prepend p n = Ok n' /\
    ns_norm n' = (if (length rs =? 0)%nat then [] else encode (runes p) ++ ns_norm n) /\
    wf n' /\ ordered (ns_al n').
Proof.
  intros W O En Sc NZ. unfold ns_prepend. rewrite En, runes_encode by assumption.
  destruct rs as [|next rs].
  - exists n. rewrite En. auto.
  - cbn [length Nat.eqb hd] in *. set (w := zlen (encode_rune next)).
    assert (Hw : 1 <= w) by apply zlen_rune.
    assert (Hl : w <= zlen (ns_norm n)) by (rewrite En, encode_cons, zlen_app; pose proof (zlen_nonneg (encode rs)); subst w; lia).
    assert (Hsel : part 0 w (ns_norm n) = encode_rune next).
    { rewrite En, encode_cons. apply (part_mid [] (encode_rune next)); [reflexivity|]. subst w. lia. }
    assert (Sn : scalar next) by (inversion Sc; assumption).
    assert (Hrs : runes (encode_rune next) = [next]).
    { pose proof (runes_encode [next] ltac:(constructor; [assumption|constructor])) as R. rewrite encode_cons, app_nil_r in R. exact R. }
    set (items := prepend_items p next).
    assert (Ci : consumed items <= 1).
    { subst items. unfold prepend_items. rewrite consumed_app. destruct (runes p) as [|r0 rs0]; [cbn; lia|].
      rewrite consumed_cons, consumed_inserts. cbn. lia. }
    assert (Vi : valid_items items).
    { subst items. unfold prepend_items. apply Forall_app. split.
      - destruct (runes p); [constructor|]. constructor; [apply valid_encode_rune|apply valid_rune_items].
      - repeat constructor. apply valid_encode_rune. }
    assert (T : target n (Rng 0 w OnNormalized) = Ok (Some (Rng 0 w OnNormalized))).
    { unfold target, into_full_range. cbn [r_on r_start r_end]. change (0 =? -1) with false. cbn iota.
      replace (zlen (ns_norm n) <? w) with false by lia. reflexivity. }
    destruct (transform_range_ok n (Rng 0 w OnNormalized) items _ W O T) as (n' & E'); cbn [r_start r_end].
    + lia.
    + rewrite Z.min_l by lia. rewrite Hsel. apply valid_encode_rune.
    + rewrite Z.min_l by lia. rewrite Hsel, Hrs. repeat constructor. exact NZ.
    + rewrite Z.min_l by lia. rewrite Hsel, Hrs. exact Ci.
    + exists n'. split; [exact E'|].
      assert (He : w <= zlen (ns_norm n)) by lia.
      pose proof (transform_range_text n 0 w items 0 n' W Vi (Z.le_refl 0) He E') as (_ & Ht & _).
      split; [|split; [eapply transform_range_wf; eassumption|]].
      * rewrite Ht. cbn [Z.to_nat firstn app].
        assert (Hsk : skipn (Z.to_nat w) (ns_norm n) = encode rs).
        { rewrite En, encode_cons. apply (skipn_app_z [] (encode_rune next)). subst w. reflexivity. }
        rewrite Hsk, encode_cons.
        assert (Hit : items_text items = encode (runes p) ++ encode_rune next).
        { subst items. unfold prepend_items. rewrite items_text_app. f_equal; [|unfold items_text; cbn; apply app_nil_r].
          destruct (runes p) as [|r0 rs0]; [reflexivity|]. rewrite encode_cons, <- (items_text_runes 1). reflexivity. }
        rewrite Hit, <- app_assoc. reflexivity.
      * eapply transform_range_ordered; [exact W|exact O|exact E'|exact T|..]; cbn [r_start r_end]; rewrite Z.min_l by lia; try rewrite Hsel.
        -- apply valid_encode_rune.
        -- rewrite Hrs. repeat constructor. exact NZ.
        -- rewrite Hrs. exact Ci.
        -- now left.
Qed.

Lemma last_rune_encode rs : forall i acc, Forall scalar rs -> rs <> [] ->
  exists rs0 r, rs = rs0 ++ [r] /\
    last_rune (map (fun r => (r, length (encode_rune r))) rs) i acc = (i + bytes rs0, r).
Proof.
  induction rs as [|r rs IH]; intros i acc Sc Hne; [congruence|]. cbn [map last_rune].
  inversion Sc as [|? ? S1 S2]; subst. destruct rs as [|r' rs].
  - exists [], r. split; [reflexivity|]. cbn. f_equal. unfold bytes. cbn. lia.
  - destruct (IH (i + Z.of_nat (length (encode_rune r))) (i, r) S2 ltac:(discriminate)) as (rs0 & z & E1 & E2).
    exists (r :: rs0), z. split; [now rewrite E1|]. rewrite E2, bytes_cons. f_equal. unfold zlen. lia.
Qed.

Lemma append_ok p rs n : wf n -> ordered (ns_al n) -> ns_norm n = encode rs -> Forall scalar rs ->
  last rs 1%N <> 0%N -> exists n', ns_append p n = Ok n' /\
    ns_norm n' = (if (length rs =? 0)%nat then [] else ns_norm n ++ encode (runes p)) /\
    wf n' /\ ordered (ns_al n').
Proof.
  intros W O En Sc NZ. unfold ns_append. destruct rs as [|r0 rs1] eqn:Ers.
  - rewrite En. cbn. exists n. rewrite En. auto.
  - rewrite <- Ers in *. assert (Hne : rs <> []) by (rewrite Ers; discriminate).
    replace (length rs =? 0)%nat with false by (rewrite Ers; reflexivity). clear Ers r0 rs1.
    destruct (ns_norm n) as [|b t] eqn:Enn.
    { exfalso. destruct rs as [|r rs]; [congruence|]. rewrite encode_cons in En. pose proof (zlen_rune r) as Hr.
      unfold zlen in Hr. destruct (encode_rune r); [cbn in Hr; lia|discriminate En]. }
    rewrite <- Enn in *. clear Enn b t. rewrite En, runes_w_encode by assumption.
    destruct (last_rune_encode rs 0 (0, 0%N) Sc Hne) as (rs0 & r & E1 & E2). rewrite E2, Z.add_0_l.
    rewrite E1, last_last in NZ.
    set (i := bytes rs0). set (items := (encode_rune r, 0) :: map (fun c => (encode_rune c, 1)) (runes p)).
    assert (Hi : 0 <= i) by apply bytes_nonneg.
    assert (Hl : zlen (ns_norm n) = i + zlen (encode_rune r)).
    { rewrite En, E1, encode_app, zlen_app. subst i. unfold bytes. rewrite (encode_cons r []). cbn [encode]. rewrite app_nil_r. reflexivity. }
    pose proof (zlen_rune r) as Hr. rewrite <- En.
    assert (Hsp : ns_norm n = encode rs0 ++ encode_rune r).
    { rewrite En, E1, encode_app, encode_cons. cbn [encode]. now rewrite app_nil_r. }
    assert (Hsel : part i (zlen (ns_norm n)) (ns_norm n) = encode_rune r).
    { rewrite Hsp at 2. rewrite <- (app_nil_r (encode_rune r)) at 1. apply part_mid; [reflexivity|]. lia. }
    assert (Sr : scalar r) by (rewrite E1, Forall_app in Sc; destruct Sc as [_ Sc]; inversion Sc; assumption).
    assert (Hrs : runes (encode_rune r) = [r]).
    { pose proof (runes_encode [r] ltac:(constructor; [assumption|constructor])) as R. rewrite encode_cons, app_nil_r in R. exact R. }
    assert (Ci : consumed items <= 1) by (subst items; rewrite consumed_cons, consumed_inserts; cbn; lia).
    assert (Vi : valid_items items) by (constructor; [apply valid_encode_rune|apply valid_rune_items]).
    assert (T : target n (Rng i (zlen (ns_norm n)) OnNormalized) = Ok (Some (Rng i (zlen (ns_norm n)) OnNormalized))).
    { unfold target, into_full_range. cbn [r_on r_start r_end]. replace (i =? -1) with false by lia.
      rewrite Z.ltb_irrefl. reflexivity. }
    destruct (transform_range_ok n (Rng i (zlen (ns_norm n)) OnNormalized) items _ W O T) as (n' & E'); cbn [r_start r_end]; rewrite ?Z.min_id.
    + lia.
    + rewrite Hsel. apply valid_encode_rune.
    + rewrite Hsel, Hrs. repeat constructor. exact NZ.
    + rewrite Hsel, Hrs. exact Ci.
    + exists n'. split; [exact E'|].
      pose proof (transform_range_text n i (zlen (ns_norm n)) items 0 n' W Vi Hi (Z.le_refl _) E') as (_ & Ht & _).
      split; [|split; [eapply transform_range_wf; eassumption|]].
      * rewrite Ht. rewrite skipn_all2 by (unfold zlen; lia). rewrite app_nil_r. rewrite Hsp at 1.
        rewrite firstn_app_z by reflexivity. rewrite Hsp, <- app_assoc. f_equal.
        subst items. rewrite <- (items_text_runes 1). reflexivity.
      * eapply transform_range_ordered; [exact W|exact O|exact E'|exact T|..]; cbn [r_start r_end]; rewrite ?Z.min_id; try rewrite Hsel.
        -- apply valid_encode_rune.
        -- rewrite Hrs. repeat constructor. exact NZ.
        -- rewrite Hrs. exact Ci.
        -- now left.
Qed.

(** Clear. *)
Lemma clear_fatal s : valid_utf8 s -> (length (runes s) < length s)%nat -> ns_clear (new_ns s) = Fatal.
Proof.
  intros V H. unfold ns_clear, transform, transform_range.
  fold (target (new_ns s) (Rng 0 (zlen (ns_orig (new_ns s))) OnOriginal)).
  destruct (target_fresh s V) as (on & T). cbn [new_ns ns_orig]. fold (new_ns s). rewrite T. cbn [bind r_start r_end].
  cbn zeta. cbn [new_ns ns_al ns_norm].
  assert (La : zlen (create_aligns s) = zlen s).
  { unfold create_aligns. rewrite zlen_aligns. unfold bytes. now rewrite valid_utf8_runes. }
  rewrite La, Z.ltb_irrefl. pose proof (zlen_nonneg s). rewrite zslice_eq by lia. cbn [bind]. rewrite part_all.
  replace (zlen (runes s) <? zlen s) with true by (unfold zlen; lia). reflexivity.
Qed.

(** Replace. *)
Lemma firstn_part_skipn {A} (l : list A) a b : 0 <= a -> a <= b -> b <= zlen l ->
  skipn (Z.to_nat a) l = part a b l ++ skipn (Z.to_nat b) l.
Proof.
  intros H1 H2 H3. unfold part. rewrite <- (firstn_skipn (Z.to_nat (b - a)) (skipn (Z.to_nat a) l)) at 1. f_equal.
  rewrite skipn_plus. f_equal. lia.
Qed.

Lemma replace_loop content s ms : valid_utf8 content -> forall a out n off st',
  partition a (zlen s) ms -> 0 <= a -> wf n ->
  ns_norm n = out ++ skipn (Z.to_nat a) s -> off = zlen out - a ->
  foldR (replace_step content) ms (n, off) = Ok st' ->
  ns_norm (fst st') = out ++ replaced s content ms /\ wf (fst st').
Proof.
  intros Vc. induction ms as [|[[x y] k] ms IH]; intros a out n off st' P Ha W En Eo E.
  - cbn in P, E. injection E as <-. cbn [fst]. subst a. rewrite En. unfold zlen. rewrite Nat2Z.id, skipn_all. cbn. auto.
  - cbn [partition] in P. destruct P as (-> & Hxy & P). pose proof (partition_le _ _ _ P) as Hy.
    cbn [foldR replace_step snd fst] in E. pose proof (zlen_nonneg out) as Ho.
    unfold replaced. cbn [map concat snd fst]. fold (replaced s content ms).
    rewrite (firstn_part_skipn s a y) in En by lia.
    destruct k.
    + assert (E1 : apply_sign a off = zlen out) by (unfold apply_sign; replace (a + off <? 0) with false by lia; lia).
      assert (E2 : apply_sign y off = zlen out + (y - a)) by (unfold apply_sign; replace (y + off <? 0) with false by lia; lia).
      rewrite E1, E2 in E.
      destruct (zslice (ns_norm n) _ _) as [sub| | | |] eqn:Ez; cbn [bind] in E; try discriminate E.
      match type of E with (do s' <- (do n' <- ?x; _); _) = _ => destruct x as [n'| | | |] eqn:En' end; cbn [bind] in E; try discriminate E.
      apply zslice_ok in Ez. destruct Ez as (_ & _ & Hb & _).
      assert (Vi : valid_items (map (fun c => (encode_rune c, 1)) (runes content))) by apply valid_rune_items.
      pose proof (transform_range_text n (zlen out) (zlen out + (y - a)) _ _ n' W Vi Ho Hb En') as (_ & Ht & _).
      assert (W' : wf n') by (eapply transform_range_wf; eassumption).
      rewrite items_text_runes, runes_valid_id in Ht by assumption.
      rewrite app_assoc. eapply (IH y (out ++ content) n'); [exact P|lia|exact W'| | |exact E].
      * rewrite Ht, En. rewrite firstn_app_z by reflexivity. rewrite <- app_assoc. do 2 f_equal.
        apply skipn_app_z. rewrite part_length by lia. lia.
      * rewrite zlen_app, runes_valid_id by assumption. lia.
    + rewrite app_assoc. eapply (IH y (out ++ part a y s) n); [exact P|lia|exact W| | |exact E].
      * now rewrite <- app_assoc.
      * rewrite zlen_app, part_length by lia. lia.
Qed.

Lemma replace_text p content n ms n' : wf n -> valid_utf8 content ->
  find_matches p (ns_norm n) = Ok ms -> partition 0 (zlen (ns_norm n)) ms ->
  ns_replace p content n = Ok n' -> ns_norm n' = replaced (ns_norm n) content ms.
Proof.
  intros W V E P. unfold ns_replace. rewrite E. cbn [bind].
  destruct (foldR (replace_step content) ms (n, 0)) as [st| | | |] eqn:Ef; cbn [bind]; try discriminate.
  intros [= <-]. refine (proj1 (replace_loop content (ns_norm n) ms V 0 [] n 0 st P (Z.le_refl 0) W _ _ Ef)); reflexivity.
Qed.

(** A pattern that matches the empty text at the end. *)
Lemma split_empty_end n : wf n -> ordered (ns_al n) -> ns_norm n <> [] ->
  ns_split n (PRegexp (fun s => [(zlen s, zlen s)])) Isolated = Panic.
Proof.
  intros W O Hne. set (L := zlen (ns_norm n)).
  assert (HL : 0 < L) by (subst L; destruct (ns_norm n); [congruence|unfold zlen; cbn [length]; lia]).
  unfold ns_split.
  assert (E : find_matches (PRegexp (fun s => [(zlen s, zlen s)])) (ns_norm n) = Ok [((0, L), false); ((L, L), true)]).
  { cbn [find_matches]. destruct (Nat.eqb_spec (length (ns_norm n)) 0) as [E|_]; [destruct (ns_norm n); [congruence|discriminate E]|].
    unfold re_matches. fold L. cbn [re_loop fst snd]. replace (0 <? L) with true by lia.
    try (replace (L =? 0) with false by lia). rewrite ?Z.ltb_irrefl, ?Z.sub_diag, ?Z.add_0_r.
    cbn. fold L. rewrite ?Z.ltb_irrefl. reflexivity. }
  rewrite E. cbn [bind split_ranges map fst slices].
  destruct (slice_normalized n 0 L W O) as (a & b & m & _ & Es & _); [lia|lia|reflexivity|now left|right; now left|].
  rewrite Es. cbn [bind]. rewrite slice_empty_end by assumption. reflexivity.
Qed.

(** Regexp matches that fall between characters cut the text between characters. *)
Lemma re_loop_cut s ms : forall total cur, ms <> [] -> cur = fst (hd (0, 0) ms) ->
  ordered_matches cur total ms -> Forall (fun m => cut s (m, true)) ms ->
  Forall (cut s) (fst (re_loop ms cur)) /\ snd (re_loop ms cur) = snd (last ms (0, 0)).
Proof.
  induction ms as [|[a b] ms IH]; intros total cur Hne Hc O F; [congruence|]. cbn [hd fst] in Hc. subst cur.
  cbn [ordered_matches] in O. destruct O as (O1 & O2). inversion F as [|? ? Fm F']; subst. cbn [re_loop fst snd].
  replace (a + (b - a)) with b by lia. destruct ms as [|[a2 b2] ms].
  - cbn. split; [|reflexivity]. constructor; [exact Fm|constructor].
  - cbn [ordered_matches] in O2. assert (O3 : ordered_matches a2 total ((a2, b2) :: ms)) by (cbn [ordered_matches]; intuition lia).
    specialize (IH total a2 ltac:(discriminate) eq_refl O3 F'). change (last ((a, b) :: (a2, b2) :: ms) (0, 0)) with (last ((a2, b2) :: ms) (0, 0)).
    inversion F' as [|? ? Fm2 _]; subst. cbn [fst snd] in *. destruct (Z.eqb_spec b a2) as [->|Hn].
    + destruct (re_loop ((a2, b2) :: ms) a2) as [subs c]. cbn [fst snd] in *. destruct IH as [I1 I2]. split; [|exact I2].
      constructor; [exact Fm|exact I1].
    + match goal with |- context [re_loop ((a2, b2) :: ms) ?x] => replace x with a2 by lia end.
      destruct (re_loop ((a2, b2) :: ms) a2) as [subs c]. cbn [fst snd] in *. destruct IH as [I1 I2]. split; [|exact I2].
      constructor; [exact Fm|]. constructor; [|exact I1]. unfold cut in *. cbn [fst snd] in *. intuition lia.
Qed.

Lemma re_matches_cut s ms : s <> [] -> ordered_matches 0 (zlen s) ms -> Forall (fun m => cut s (m, true)) ms ->
  Forall (cut s) (re_matches ms s).
Proof.
  intros Hne O F. assert (HL : 0 < zlen s) by (destruct s; [congruence|unfold zlen; cbn [length]; lia]).
  assert (B0 : boundary s 0) by now left. assert (BL : boundary s (zlen s)) by (right; now left).
  unfold re_matches. destruct ms as [|[a b] ms].
  - constructor; [|constructor]. unfold cut. cbn. auto.
  - cbn [ordered_matches] in O. destruct O as (O1 & O2).
    assert (O3 : ordered_matches a (zlen s) ((a, b) :: ms)) by (cbn [ordered_matches]; intuition lia).
    pose proof (re_loop_cut s ((a, b) :: ms) (zlen s) a ltac:(discriminate) eq_refl O3 F) as L.
    inversion F as [|? ? (Fm1 & Fm2 & Fm3) _]; subst. cbn [fst snd] in *.
    assert (Hlast : boundary s (snd (last ((a, b) :: ms) (0, 0)))).
    { assert (G : In (last ((a, b) :: ms) (0, 0)) ((a, b) :: ms)).
      { destruct (exists_last (l := (a, b) :: ms) ltac:(discriminate)) as (l & z & ->). rewrite last_last. apply in_or_app. right. now left. }
      rewrite Forall_forall in F. apply F in G. apply G. }
    assert (Fin : forall subs c, Forall (cut s) subs -> boundary s c ->
      Forall (cut s) (subs ++ (if c <? zlen s then [((c, zlen s), false)] else []))).
    { intros subs c H1 H2. apply Forall_app. split; [exact H1|]. destruct (Z.ltb_spec c (zlen s)); [|constructor].
      constructor; [|constructor]. unfold cut. cbn. auto. }
    destruct (Z.ltb_spec 0 a).
    + destruct (re_loop ((a, b) :: ms) a) as [subs c]. cbn [fst snd] in L. destruct L as [L1 L2].
      constructor; [unfold cut; cbn; auto|]. apply Fin; [exact L1|]. now rewrite L2.
    + replace a with 0 in * by lia. destruct (re_loop ((0, b) :: ms) 0) as [subs c]. cbn [fst snd] in L. destruct L as [L1 L2].
      apply Fin; [exact L1|]. now rewrite L2.
Qed.

Lemma cut_invert s ms : Forall (cut s) ms -> Forall (cut s) (invert ms).
Proof. unfold invert. intros F. apply Forall_map. eapply Forall_impl; [|exact F]. intros [r k]. exact id. Qed.

Lemma find_matches_cut p s : valid_utf8 s -> s <> [] -> well_behaved p -> supported p -> between_chars s p ->
  exists ms, find_matches p s = Ok ms /\ partition 0 (zlen s) ms /\ Forall (cut s) ms.
Proof.
  intros V Hne W Su B.
  assert (Sa : safe_on s p) by (destruct p as [| | | |[]|]; cbn; auto; now left).
  destruct (find_matches_partition p s W Su Sa) as (ms & E & P). exists ms. split; [exact E|]. split; [exact P|].
  assert (R : forall find, ordered_matches 0 (zlen s) (find s) -> Forall (fun m => cut s (m, true)) (find s) -> Forall (cut s) (re_matches (find s) s))
    by (intros find; now apply re_matches_cut).
  assert (All : Forall (cut s) [((0, zlen s), false)]).
  { constructor; [|constructor]. unfold cut. cbn. split; [destruct s; [congruence|unfold zlen; cbn [length]; lia]|]. split; [now left|right; now left]. }
  assert (L0 : (length s =? 0)%nat = false) by (destruct s; [congruence|reflexivity]).
  destruct p as [r|q find|find|f|[r|q find|find|f|p|find]|find]; cbn [find_matches bind well_behaved supported between_chars] in *;
    rewrite ?L0 in E; try contradiction; try (injection E as <-).
  - now apply fn_matches_cut.
  - destruct (length q =? 0)%nat; injection E as <-; auto.
  - auto.
  - now apply fn_matches_cut.
  - apply cut_invert. now apply fn_matches_cut.
  - destruct (length q =? 0)%nat; injection E as <-; [exact (cut_invert s _ All)|apply cut_invert; auto].
  - apply cut_invert; auto.
  - apply cut_invert. now apply fn_matches_cut.
  - exact B.
Qed.

Lemma split_pattern n p b : wf n -> ordered (ns_al n) -> valid_utf8 (ns_norm n) -> ns_norm n <> [] ->
  well_behaved p -> supported p -> between_chars (ns_norm n) p ->
  exists ms ps, find_matches p (ns_norm n) = Ok ms /\ ns_split n p b = Ok ps /\
    map ns_norm ps = map (fun r => part (fst r) (snd r) (ns_norm n)) (piece_ranges b ms) /\
    (b <> Removed -> concat (map ns_norm ps) = ns_norm n) /\
    Forall (fun m => wf m /\ ordered (ns_al m)) ps.
Proof.
  intros W O V Hne Wb Su B. destruct (find_matches_cut p (ns_norm n) V Hne Wb Su B) as (ms & E & P & C).
  destruct (split_ok n p b ms W O E P C) as (ps & Es & Et & Fp). exists ms, ps.
  split; [exact E|]. split; [exact Es|]. split; [exact Et|]. split; [|exact Fp].
  intros Hb. exact (split_concat n p b ms ps W O Hb E P C Es).
Qed.

(** ** Filter, strip and clear of single-byte text *)
Lemma single_rune r : single_byte r -> encode_rune r = [r].
Proof.
  intros [H1 H2]. unfold encode_rune, scalarb. destruct (N.ltb_spec r 128); [|lia].
  replace (r <? 55296)%N with true by lia. reflexivity.
Qed.
Lemma single_runes rs : Forall single_byte rs -> encode rs = rs /\ runes rs = rs /\ valid_utf8 rs.
Proof.
  intros F. assert (E : encode rs = rs).
  { induction F as [|r rs Hr F IH]; [reflexivity|]. now rewrite encode_cons, IH, single_rune. }
  assert (Sc : Forall scalar rs) by (eapply Forall_impl; [|exact F]; unfold single_byte, scalar; intros; lia).
  split; [exact E|]. split; [rewrite <- E at 1; now apply runes_encode|]. now exists rs.
Qed.
Lemma map_fst_keep_if f rs : map fst (keep_if f rs) = rs.
Proof. unfold keep_if. rewrite map_map. apply map_id. Qed.
Lemma filter_items_edit f rs : Forall single_byte rs -> filter_items f rs = edit_items (keep_if f rs).
Proof.
  unfold filter_items. induction 1 as [|r rs Hr F IH]; [reflexivity|]. cbn [fold_right keep_if map edit_items].
  rewrite IH. fold (keep_if f rs). destruct (edit_items (keep_if f rs)) as [items removed]. cbn [filter_step].
  destruct (f r); [now rewrite single_rune|reflexivity].
Qed.
Lemma keep_if_text f rs : edit_text (keep_if f rs) = filter f rs.
Proof.
  unfold edit_text, keep_if. rewrite map_map. cbn [snd]. induction rs as [|r rs IH]; [reflexivity|].
  cbn [map concat filter]. rewrite IH. destruct (f r); reflexivity.
Qed.
Lemma single_valid r : single_byte r -> valid_utf8 [r].
Proof. intros H. rewrite <- (single_rune r H). apply valid_encode_rune. Qed.

Lemma filter_exact f rs : Forall single_byte rs ->
  exists n', ns_filter f (new_ns rs) = Ok n' /\ ns_orig n' = rs /\ ns_norm n' = filter f rs /\
    ns_al n' = edit_al (keep_if f rs) 0 /\ ns_ao_values n' = edit_ao (keep_if f rs) 0.
Proof.
  intros F. destruct (single_runes rs F) as (_ & R & _).
  unfold ns_filter. cbn [new_ns ns_norm]. fold (new_ns rs). rewrite R, filter_items_edit by assumption.
  destruct (edit_items (keep_if f rs)) as [items removed] eqn:E.
  destruct (edit_exact (keep_if f rs) items removed) as (n' & E1 & E2 & E3 & E4 & E5); rewrite ?map_fst_keep_if in *.
  - exact F.
  - unfold keep_if. apply Forall_map. eapply Forall_impl; [|exact F]. intros r Hr s. cbn.
    destruct (f r); [|discriminate]. intros [= <-]. now apply single_valid.
  - exact E.
  - exists n'. rewrite E3, keep_if_text. auto.
Qed.

Lemma combine_app {A B} (a1 : list A) (b1 : list B) a2 b2 : length a1 = length b1 ->
  combine (a1 ++ a2) (b1 ++ b2) = combine a1 b1 ++ combine a2 b2.
Proof.
  revert b1; induction a1 as [|x a1 IH]; intros [|y b1] H; try discriminate H; [reflexivity|].
  cbn. rewrite IH; auto.
Qed.
Lemma strip_items_mid pre mid post : mid <> [] -> Forall single_byte (pre ++ mid ++ post) ->
  edit_items (keep_mid pre mid post) =
    (strip_items (pre ++ mid ++ post) (length pre) (length post), Z.of_nat (length pre)).
Proof.
  intros Hm F. unfold keep_mid. rewrite edit_items_drops with (items := strip_items (pre ++ mid ++ post) (length pre) (length post)); [reflexivity|].
  rewrite !Forall_app in F. destruct F as (_ & Fm & _).
  set (L := length (pre ++ mid ++ post)). set (p := length pre). set (t := length post).
  assert (HL : L = (p + (length mid + t))%nat) by (subst L; rewrite !app_length; reflexivity).
  unfold strip_items. fold L.
  set (g := fun ir : nat * N => let '(i, r) := ir in
      if (i <? p)%nat || (L - t <=? i)%nat then []
      else if (S i =? L - t)%nat then [(encode_rune r, - Z.of_nat t)] else [(encode_rune r, 0)]).
  assert (Cs : combine (seq 0 L) (pre ++ mid ++ post) =
     combine (seq 0 p) pre ++ combine (seq p (length mid)) mid ++ combine (seq (p + length mid) t) post).
  { rewrite HL, seq_app. rewrite combine_app by (rewrite seq_length; reflexivity). f_equal.
    rewrite seq_app, combine_app by (rewrite seq_length; reflexivity). reflexivity. }
  assert (G1 : flat_map g (combine (seq 0 p) pre) = []).
  { assert (X : forall l i, (i + length l <= p)%nat -> flat_map g (combine (seq i (length l)) l) = []).
    { induction l as [|r l IH]; intros i Hi; [reflexivity|]. cbn [length seq combine flat_map] in *. rewrite IH by lia.
      unfold g. replace (i <? p)%nat with true by lia. reflexivity. }
    apply (X pre 0%nat). subst p. lia. }
  assert (G3 : flat_map g (combine (seq (p + length mid) t) post) = []).
  { assert (X : forall l i, (L - t <= i)%nat -> flat_map g (combine (seq i (length l)) l) = []).
    { induction l as [|r l IH]; intros i Hi; [reflexivity|]. cbn [length seq combine flat_map] in *. rewrite IH by lia.
      unfold g. replace (L - t <=? i)%nat with true by lia. now rewrite orb_true_r. }
    apply (X post). lia. }
  rewrite Cs, !flat_map_app, G1, G3, app_nil_r. cbn [app].
  assert (Lm : (L - t = p + length mid)%nat) by lia.
  clear Cs G1 G3 HL. clearbody L. assert (Hp : (p <= p)%nat) by lia. revert Hp Lm. generalize p at 2 3 4. intros i Hi Lm.
  revert i Hi Lm. induction mid as [|r mid IH]; [congruence|]. intros i Hi Lm. inversion Fm as [|? ? Fr Fm']; subst.
  cbn [length seq combine flat_map] in *. unfold g at 1.
  replace (i <? p)%nat with false by lia. replace (L - t <=? i)%nat with false by lia. cbn [orb].
  rewrite single_rune by assumption. cbn [map app edit_items].
  destruct mid as [|r' mid].
  - cbn [length] in Lm. replace (S i =? L - t)%nat with true by lia. cbn [map app combine seq length flat_map].
    match goal with |- context [edit_items ?x] =>
      assert (D : edit_items x = ([], Z.of_nat t)) by (rewrite <- (app_nil_r x); now apply edit_items_drops) end.
    rewrite D. reflexivity.
  - cbn [length] in Lm. replace (S i =? L - t)%nat with false by lia.
    rewrite (IH ltac:(discriminate) Fm' (S i)); [reflexivity|lia|cbn [length]; lia].
Qed.

Lemma strip_split sp l r rs : exists pre post, rs = pre ++ stripped sp l r rs ++ post /\
  (stripped sp l r rs <> [] -> length pre = (if l then count_while sp rs else O) /\
     length post = (if r then count_while sp (rev rs) else O)).
Proof.
  pose proof (stripped_spec sp l r rs) as S0. cbn zeta in S0.
  set (lead := if l then count_while sp rs else O) in *. set (trail := if r then count_while sp (rev rs) else O) in *.
  assert (Hl : (lead <= length rs)%nat) by (subst lead; destruct l; [apply count_while_le|lia]).
  assert (Ht : (trail <= length rs)%nat) by (subst trail; destruct r; [rewrite <- (rev_length rs); apply count_while_le|lia]).
  exists (firstn lead rs), (skipn (length rs - trail - lead) (skipn lead rs)). rewrite <- S0.
  rewrite firstn_skipn, firstn_skipn. split; [reflexivity|]. intros Hne.
  rewrite firstn_length, !skipn_length.
  assert (lead < length rs - trail)%nat.
  { destruct (Nat.lt_ge_cases lead (length rs - trail)); [assumption|]. elim Hne.
    replace (length rs - trail - lead)%nat with 0%nat by lia. reflexivity. }
  lia.
Qed.

Lemma strip_exact sp l r rs : Forall single_byte rs -> stripped sp l r rs <> [] ->
  exists pre post n', rs = pre ++ stripped sp l r rs ++ post /\
    lrstrip sp l r (new_ns rs) = Ok n' /\ ns_orig n' = rs /\ ns_norm n' = stripped sp l r rs /\
    ns_al n' = edit_al (keep_mid pre (stripped sp l r rs) post) 0 /\
    ns_ao_values n' = edit_ao (keep_mid pre (stripped sp l r rs) post) 0.
Proof.
  intros F Hne. destruct (strip_split sp l r rs) as (pre & post & E & H). specialize (H Hne).
  destruct H as [H1 H2]. exists pre, post. set (mid := stripped sp l r rs) in *.
  destruct (single_runes rs F) as (_ & R & V).
  assert (Mf : map fst (keep_mid pre mid post) = rs).
  { unfold keep_mid. rewrite !map_app, !map_map, !map_id. now symmetry. }
  assert (Mt : edit_text (keep_mid pre mid post) = mid).
  { unfold edit_text, keep_mid. rewrite !map_app, !concat_app, !map_map. cbn [snd].
    assert (Z0 : forall q : list N, concat (map (fun _ : N => @nil N) q) = []) by (induction q; auto).
    rewrite !Z0, app_nil_r. cbn [app]. clear. induction mid; cbn; f_equal; auto. }
  pose proof (strip_items_mid pre mid post Hne) as Si. rewrite <- E in Si. specialize (Si F).
  destruct (fun X Y => edit_exact (keep_mid pre mid post) _ _ X Y Si) as (n' & E1 & E2 & E3 & E4 & E5).
  - now rewrite Mf.
  - apply Forall_forall. intros [x o] Hx s. cbn [snd]. intros ->.
    unfold keep_mid in Hx. rewrite !in_app_iff in Hx. destruct Hx as [Hx|[Hx|Hx]]; apply in_map_iff in Hx;
      destruct Hx as (y & Ey & Hy); try discriminate Ey. injection Ey as _ <-.
    apply single_valid. rewrite Forall_forall in F. apply F. rewrite E, !in_app_iff. auto.
  - rewrite Mf in *.
    unfold lrstrip. cbn [new_ns ns_norm]. fold (new_ns rs). rewrite R, <- H1, <- H2.
    destruct ((0 <? length pre) || (0 <? length post))%nat eqn:E0.
    + exists n'. rewrite Mt in E3. repeat (split; [assumption|]). assumption.
    + destruct pre; [|cbn in E0; lia]. destruct post; [|cbn in E0; lia].
      cbn [app] in E. rewrite app_nil_r in E. exists (new_ns rs). split; [now rewrite app_nil_r|]. split; [reflexivity|]. split; [reflexivity|].
      cbn [new_ns ns_norm ns_al]. split; [exact E|]. rewrite new_ns_values. unfold create_aligns. rewrite R.
      unfold keep_mid. cbn [map app]. rewrite app_nil_r, <- E.
      assert (G : forall q p, Forall single_byte q ->
         aligns_from q p = edit_al (map (fun r => (r, Some [r])) q) p /\
         aligns_from q p = edit_ao (map (fun r => (r, Some [r])) q) p).
      { induction q as [|x q IH]; intros p Fq; [auto|]. inversion_clear Fq as [|? ? Fx Fq']. destruct (IH (p + 1)) as [I1 I2]; [assumption|].
        cbn [aligns_from map edit_al edit_ao]. rewrite single_rune by assumption. cbn. now rewrite <- I1, <- I2. }
      split; [apply G|apply G]; exact F.
Qed.

Lemma clear_exact rs : Forall single_byte rs ->
  exists n', ns_clear (new_ns rs) = Ok n' /\ ns_orig n' = rs /\ ns_norm n' = [] /\
    ns_ao_values n' = repeat (0, 0) (length rs).
Proof.
  intros F. unfold ns_clear. cbn [new_ns ns_norm]. fold (new_ns rs).
  assert (Ei : edit_items (map (fun r : N => (r, None)) rs) = ([], zlen rs)).
  { rewrite <- (app_nil_r (map _ rs)). now apply edit_items_drops. }
  destruct (fun X Y => edit_exact (map (fun r => (r, None)) rs) _ _ X Y Ei) as (n' & E1 & E2 & E3 & E4 & E5).
  - rewrite map_map, map_id. exact F.
  - apply Forall_map. apply Forall_forall. intros x _ s. discriminate.
  - rewrite map_map, map_id in *. exists n'. split; [exact E1|]. split; [exact E2|]. rewrite E3, E5. split.
    + unfold edit_text. rewrite map_map. clear. induction rs; auto.
    + clear. induction rs as [|r rs IH]; [reflexivity|]. cbn [map edit_ao length repeat]. now rewrite IH.
Qed.
