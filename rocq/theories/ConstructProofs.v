(** Proofs about encodings made from tokens and about merging (C86, C87). *)
From Verif Require Import Base BaseProofs EncodingModel EncodingSpec EncodingProofs BpeModel ConstructModel ConstructSpec.
Open Scope Z_scope.

Lemma from_holds l t : holds l (from_tokens l t).
Proof.
  unfold holds, from_tokens. cbn [ids tokens offsets special attention overflowing]. rewrite !map_length, !repeat_length.
  do 5 (split; [reflexivity|]). split; [|reflexivity]. intros i k H.
  assert (L : (i < length l)%nat) by (apply nth_error_Some; congruence).
  assert (R : forall x : Z, nth_error (repeat x (length l)) i = Some x).
  { intros x. destruct (nth_error (repeat x (length l)) i) eqn:E; [apply nth_error_In, repeat_spec in E; now subst|].
    apply nth_error_None in E. rewrite repeat_length in E. lia. }
  rewrite !nth_error_map, H, !R. cbn. tauto.
Qed.
Lemma from_types l t : typed 0 (from_tokens l t).
Proof.
  unfold typed, from_tokens. cbn [ids type_ids]. rewrite map_length, repeat_length. split; [reflexivity|].
  apply Forall_forall. intros x H. apply repeat_spec in H. now subst.
Qed.
Lemma from_typed l t : l <> [] -> t <> 0 -> ~ typed t (from_tokens l t).
Proof. intros Hl Ht [_ F]. destruct l as [|k l]; [congruence|]. cbn in F. apply Forall_cons_iff in F as [F _]. congruence. Qed.
Lemma from_words l t : l <> [] -> ~ wordless (from_tokens l t).
Proof. intros Hl [F _]. destruct l; [congruence|]. discriminate F. Qed.

Lemma from_fits l t max stride : stride < max -> max <> 0 -> zlen l <= max -> truncate (from_tokens l t) max stride = Ok (from_tokens l t, false).
Proof.
  intros H H0 L. unfold truncate. replace (_ || _)%bool with false by (symmetry; apply Bool.orb_false_iff; split; lia).
  cbn [ids from_tokens]. unfold zlen in *. rewrite map_length. now replace (_ <=? _) with true by lia.
Qed.
Lemma zslice_in {A} (l : list A) a b : 0 <= a -> a <= b -> b <= zlen l -> exists r, zslice l a b = Ok r.
Proof. intros. unfold zslice. replace (_ && _)%bool with true by (symmetry; rewrite !Bool.andb_true_iff; lia). eauto. Qed.
Lemma from_truncated l t max stride : stride < max -> 0 < max < zlen l -> truncate (from_tokens l t) max stride = Panic.
Proof.
  intros H L. unfold truncate. replace (_ || _)%bool with false by (symmetry; apply Bool.orb_false_iff; split; lia).
  cbn [ids type_ids tokens offsets special attention words from_tokens].
  assert (E : zlen (map t_id l) = zlen l) by (unfold zlen; now rewrite map_length). replace (zlen (map t_id l) <=? max) with false by lia.
  assert (S : forall A (k : list A), length k = length l -> (exists r, zslice k 0 max = Ok r) /\ (exists r, zslice k max (zlen k) = Ok r)).
  { intros A k Ek. unfold zlen in *. split; apply zslice_in; unfold zlen; rewrite ?Ek; lia. }
  repeat (match goal with |- context [zslice ?k 0 max] => destruct (S _ k) as [[? ->] [? ->]]; [now rewrite ?map_length, ?repeat_length|]; cbn [bind] end).
  unfold zslice. cbn. replace (_ && _)%bool with false; [reflexivity|]. symmetry. rewrite !Bool.andb_false_iff. lia.
Qed.

Lemma loop_spec : forall l i tok, token2word_loop l i tok = if i <=? tok then nth_error l (Z.to_nat (tok - i)) else None.
Proof.
  induction l as [|w l IH]; intros i tok; cbn [token2word_loop].
  - destruct (i <=? tok); [|reflexivity]. symmetry. apply nth_error_None. cbn. lia.
  - destruct (i =? tok) eqn:E; [replace (i <=? tok) with true by lia; now replace (Z.to_nat (tok - i)) with O by lia|].
    rewrite IH. destruct (i <=? tok) eqn:E1; [|now replace (i + 1 <=? tok) with false by lia].
    replace (i + 1 <=? tok) with true by lia. replace (Z.to_nat (tok - i)) with (Datatypes.S (Z.to_nat (tok - (i + 1)))) by lia. reflexivity.
Qed.
Lemma from_merged l t g p m i k : merge_with g (from_tokens l t) p = Ok m -> nth_error l i = Some k ->
  nth_error (ids m) i = Some (t_id k) /\ token2word m (Z.of_nat i) = nth_error (words p) i.
Proof.
  intros H E. apply merge_with_flat in H. unfold flat, enc_append in H. injection H as H1 _ _ _ _ _ H2. rewrite H1. split.
  - cbn [ids from_tokens]. rewrite nth_error_app1 by (rewrite map_length; apply nth_error_Some; congruence). now rewrite nth_error_map, E.
  - unfold token2word. rewrite H2, loop_spec. replace (0 <=? Z.of_nat i) with true by lia. cbn [words from_tokens app].
    f_equal. lia.
Qed.

(** ** Merging *)
Lemma joined_spec n mine : 0 <= n -> forall t acc, Forall (fun kl => interval (snd kl)) t -> NoDup (map fst t) ->
  exists m, foldR (fun acc kr => let '(k, r) := kr in do r0 <- zindex r 0; do rl <- zindex r (zlen r - 1); do nr <- new_range (n + r0) (n + rl + 1);
                     Ok (aset Z.eqb k (match aget Z.eqb k mine with Some old => old | None => [] end ++ nr) acc)) t acc = Ok m /\
    forall k, aget Z.eqb k m = match aget Z.eqb k t with
      | Some r => Some (match aget Z.eqb k mine with Some old => old | None => [] end ++ map (Z.add n) r) | None => aget Z.eqb k acc end.
Proof.
  intros Hn. induction t as [|[k r] t IH]; intros acc Ht Hnd; cbn [foldR].
  - exists acc. split; [reflexivity|]. intros k. reflexivity.
  - apply Forall_cons_iff in Ht as [(a & c & Ha & Hc & Er) Ht]. cbn [snd] in Er. subst r.
    destruct (interval_cons a c Hc) as (l & Hl). pose proof (zrange_last c a Hc) as HL. rewrite Hl in HL |- *.
    rewrite zindex_0. cbn [bind]. rewrite zindex_last, HL. cbn [bind]. rewrite new_range_Ok by lia. cbn [bind].
    inversion Hnd as [|? ? Hk Hnd']; subst.
    destruct (IH (aset Z.eqb k (match aget Z.eqb k mine with Some old => old | None => [] end ++ zrange (Z.to_nat (n + (a + Z.of_nat c - 1) + 1 - (n + a))) (n + a)) acc) Ht Hnd') as (m' & Hm' & Hg).
    exists m'. split; [exact Hm'|]. intros k'. rewrite Hg. cbn [aget]. destruct (k' =? k) eqn:E.
    + assert (k' = k) by lia. subst k'. replace (aget Z.eqb k t) with (@None (list Z)).
      2:{ symmetry. apply (ag_none Z.eqb Z.eqb_eq). exact Hk. }
      rewrite aget_aset, Z.eqb_refl. do 2 f_equal. rewrite <- Hl, zrange_map_add. f_equal. lia.
    + now rewrite aget_aset, E.
Qed.

Lemma enc_len_nonneg e : 0 <= enc_len e.
Proof. unfold enc_len, zlen. lia. Qed.

Lemma merged_outcome e p g : ranged p ->
  (overflowing e = [] /\ overflowing p = [] /\ exists m, merge_encoding e p g = Ok m) \/ ((overflowing e <> [] \/ overflowing p <> []) /\ merge_encoding e p g = Fatal).
Proof.
  intros R. unfold merge_encoding. destruct (overflowing e); [|right; split; [left; discriminate|reflexivity]].
  destruct (overflowing p); [|right; split; [right; discriminate|reflexivity]]. left. split; [reflexivity|]. split; [reflexivity|].
  unfold ranged in R. destruct (seq_ranges p) as [[|kr t]|]; try (eexists; reflexivity). destruct R as [R1 R2].
  destruct (joined_spec (enc_len e) (match seq_ranges e with Some m => m | None => [] end) (enc_len_nonneg e) (kr :: t) [] R2 R1) as (m & E & _).
  unfold joined_ranges. rewrite E. eexists. reflexivity.
Qed.
Lemma merged_inv e p g m : merge_encoding e p g = Ok m -> exists rs, overflowing e = [] /\ overflowing p = [] /\
  match seq_ranges p with
  | Some ((_ :: _) as theirs) => do m <- joined_ranges (enc_len e) (match seq_ranges e with Some m => m | None => [] end) theirs; Ok (Some m)
  | _ => Ok (seq_ranges e)
  end = Ok rs /\
  m = mkEnc (ids e ++ ids p) (type_ids e ++ type_ids p) (tokens e ++ tokens p) (offsets e ++ shift_offsets (starting_offset g (offsets e)) (offsets p))
        (special e ++ special p) (attention e ++ attention p) (words e ++ words p) [] rs.
Proof.
  unfold merge_encoding. destruct (overflowing e); [|discriminate]. destruct (overflowing p); [|discriminate]. intros H.
  apply bind_Ok_inv in H as (rs & H1 & H2). injection H2 as <-. exists rs. auto.
Qed.
Lemma merged_flat e p g m : merge_encoding e p g = Ok m -> flat m = enc_append e p (growth g e) /\ overflowing m = [].
Proof.
  intros H. apply merged_inv in H as (rs & _ & _ & _ & ->). split; [|reflexivity]. unfold flat, enc_append, shift_offsets.
  cbn [ids type_ids tokens offsets special attention words]. now rewrite starting_offset_growth.
Qed.
Lemma merged_ranges e p g m : merge_encoding e p g = Ok m -> ranged p -> forall k,
  range_of m k = match range_of p k with
    | Some r => Some (positions e k ++ map (Z.add (enc_len e)) r)
    | None => match seq_ranges p with Some (_ :: _) => None | _ => range_of e k end end.
Proof.
  intros H R k. apply merged_inv in H as (rs & _ & _ & H & ->). unfold positions, range_of in *. cbn [seq_ranges]. unfold ranged in R.
  destruct (seq_ranges p) as [[|kr t]|]; [now injection H as <-| |now injection H as <-]. destruct R as [R1 R2].
  destruct (joined_spec (enc_len e) (match seq_ranges e with Some m => m | None => [] end) (enc_len_nonneg e) (kr :: t) [] R2 R1) as (m & E & G).
  unfold joined_ranges in H. rewrite E in H. injection H as <-. rewrite G. destruct (aget Z.eqb k (kr :: t)); [|reflexivity].
  now destruct (seq_ranges e).
Qed.
Lemma merged_remembered e p g m k : merge_encoding e p g = Ok m -> ranged p ->
  range_of p k <> None \/ (forall j, range_of p j = None) -> remembered e p m k.
Proof.
  intros H R K. pose proof (merged_ranges _ _ _ _ H R k) as M. unfold remembered. unfold positions at 1 3. rewrite M.
  destruct (range_of p k) as [r|] eqn:E; [reflexivity|]. destruct K as [K|K]; [congruence|].
  destruct (seq_ranges p) as [[|[j l] t]|] eqn:S; try (rewrite app_nil_r; reflexivity).
  exfalso. specialize (K j). unfold range_of in K. rewrite S in K. cbn in K. now rewrite Z.eqb_refl in K.
Qed.
Lemma merged_lost e p g m k j : merge_encoding e p g = Ok m -> ranged p ->
  positions e k <> [] -> range_of p k = None -> range_of p j <> None -> positions m k = [] /\ ~ remembered e p m k.
Proof.
  intros H R K E J. pose proof (merged_ranges _ _ _ _ H R k) as M. rewrite E in M.
  assert (P : positions m k = []).
  { unfold positions. rewrite M. unfold range_of in J. destruct (seq_ranges p) as [[|? t]|]; [now cbn in J| |now cbn in J]. reflexivity. }
  split; [exact P|]. unfold remembered. rewrite P. intros Q. symmetry in Q. apply app_eq_nil in Q as [Q _]. contradiction.
Qed.

Lemma with_ranges g e p r : merge_with g e p = Ok r -> ranged p -> forall k, range_of r k =
    match range_of p k with Some l => Some (map (Z.add (enc_len e)) l) | None => range_of e k end.
Proof.
  intros H R. unfold ranged in R. apply (merge_with_ranges g e p r H).
  - intros k l I. destruct (seq_ranges p); [|destruct I]. destruct R as [_ R]. rewrite Forall_forall in R. exact (R _ I).
  - destruct (seq_ranges p); [apply R|constructor].
Qed.
Lemma with_remembered g e p m k : merge_with g e p = Ok m -> ranged p ->
  positions e k = [] \/ range_of p k = None -> remembered e p m k.
Proof.
  intros H R K. pose proof (with_ranges _ _ _ _ H R k) as M. unfold remembered. unfold positions at 1. rewrite M.
  destruct (range_of p k) as [l|] eqn:E.
  - destruct K as [K|K]; [|discriminate K]. rewrite K. unfold positions. now rewrite E.
  - unfold positions. rewrite E. cbn [map]. now rewrite app_nil_r.
Qed.
Lemma with_lost g e p m k : merge_with g e p = Ok m -> ranged p ->
  positions e k <> [] -> range_of p k <> None -> positions m k = map (Z.add (enc_len e)) (positions p k) /\ ~ remembered e p m k.
Proof.
  intros H R K E. pose proof (with_ranges _ _ _ _ H R k) as M. destruct (range_of p k) as [l|] eqn:E1; [|congruence].
  assert (P : positions m k = map (Z.add (enc_len e)) (positions p k)) by (unfold positions; now rewrite M, E1).
  split; [exact P|]. unfold remembered. rewrite P. intros Q. apply K. apply (f_equal (@length Z)) in Q. rewrite app_length in Q.
  destruct (positions e k); [reflexivity|cbn in Q; lia].
Qed.
