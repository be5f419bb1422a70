(** Proofs about the encoding pipeline. *)
From Verif Require Import Base BaseProofs Utf8Model Utf8Proofs NormalizedModel NormalizedSpec NormalizedProofs NormalizedInvProofs
  NormalizedExactProofs NormalizedOpProofs EncodingModel EncodingSpec EncodingProofs BpeModel AddedVocabModel AddedVocabSpec AddedFindProofs
  PreTokenizedModel PreTokenizedSpec PreTokenizedProofs ProcessorModel ProcessorSpec ExpandedProofs PipelineModel PipelineSpec.
Open Scope Z_scope.

(** ** Boundaries and characters *)
Lemma rune_tail r b l : encode_rune r = b :: l -> Forall (fun x => rune_start x = false) l.
Proof.
  assert (K : forall x, rune_start (128 + x mod 64)%N = false).
  { intros x. unfold rune_start. pose proof (N.mod_upper_bound x 64 ltac:(lia)).
    assert (X : ((128 <=? 128 + x mod 64) && (128 + x mod 64 <? 192))%N = true) by
      (apply andb_true_intro; split; [apply N.leb_le|apply N.ltb_lt]; lia).
    now rewrite X. }
  unfold encode_rune. destruct (r <? 128)%N; [intros [= <- <-]; constructor|].
  destruct (r <? 2048)%N; [intros [= <- <-]; repeat constructor; apply K|].
  destruct (negb (scalarb r)); [intros [= <- <-]; repeat constructor|].
  destruct (r <? 65536)%N; intros [= <- <-]; repeat constructor; apply K.
Qed.

Lemma boundary_char_pos rs : forall i, boundary (encode rs) i -> 0 <= i -> char_pos rs i.
Proof.
  induction rs as [|r rs IH]; intros i B Hi.
  - exists 0%nat. split; [lia|]. destruct B as [->|[->|(b & _ & E & _)]]; [reflexivity|reflexivity|].
    destruct (Z.to_nat i); discriminate E.
  - destruct (Z.eq_dec i 0) as [->|Hi0]; [exists 0%nat; split; [lia|reflexivity]|].
    destruct (rune_start_head r) as (b0 & l0 & E0 & _). pose proof (rune_tail r b0 l0 E0) as T.
    set (w := zlen (encode_rune r)). assert (Hw : 1 <= w) by apply zlen_rune.
    assert (G : w <= i -> char_pos (r :: rs) i).
    { intros Hw2. assert (B' : boundary (encode rs) (i - w)).
      { destruct B as [->|[->|(b & _ & E & Hb)]]; [lia| |].
        - right. left. rewrite encode_cons, zlen_app. subst w. lia.
        - right. right. exists b. split; [lia|]. split; [|exact Hb]. rewrite encode_cons in E.
          rewrite nth_error_app2 in E by (subst w; unfold zlen in Hw2; lia). rewrite <- E. f_equal. subst w. unfold zlen. lia. }
      destruct (IH _ B' ltac:(lia)) as (k & Hk & Ek). exists (S k). split; [cbn; lia|]. cbn [firstn]. rewrite bytes_cons. subst w. lia. }
    destruct (Z.le_gt_cases w i) as [Hw2|Hw2]; [auto|]. exfalso.
    destruct B as [->|[->|(b & _ & E & Hb)]]; [lia| |].
    + rewrite encode_cons, zlen_app in Hw2. pose proof (zlen_nonneg (encode rs)). subst w. lia.
    + rewrite encode_cons in E. rewrite nth_error_app1 in E by (subst w; unfold zlen in Hw2; lia). rewrite E0 in E.
      destruct (Z.to_nat i) as [|j] eqn:Ej; [lia|]. cbn in E. apply nth_error_In in E. rewrite Forall_forall in T.
      specialize (T b E). congruence.
Qed.

Lemma firstn_add {A} (l : list A) : forall i k, firstn (i + k) l = firstn i l ++ firstn k (skipn i l).
Proof. induction l as [|x l IH]; intros [|i] k; cbn; rewrite ?firstn_nil; auto. now rewrite IH. Qed.
Lemma encode_part rs a b : char_pos rs a -> char_pos rs b -> a <= b ->
  exists pre mid post, rs = pre ++ mid ++ post /\ part a b (encode rs) = encode mid.
Proof.
  intros (i & Hi & ->) (j & Hj & ->) H.
  assert (D : (i <= j)%nat \/ (j < i)%nat) by lia. destruct D as [D|D].
  - exists (firstn i rs), (firstn (j - i) (skipn i rs)), (skipn (j - i) (skipn i rs)).
    rewrite !firstn_skipn. split; [reflexivity|].
    set (mid := firstn (j - i) (skipn i rs)).
    assert (E : firstn j rs = firstn i rs ++ mid).
    { subst mid. rewrite <- firstn_add. f_equal. lia. }
    replace (encode rs) with (encode (firstn i rs) ++ encode mid ++ encode (skipn (j - i) (skipn i rs))).
    2:{ rewrite <- !encode_app. subst mid. now rewrite !firstn_skipn. }
    rewrite E. rewrite bytes_app. apply part_mid; unfold bytes; lia.
  - exists [], [], rs. split; [reflexivity|].
    assert (E : bytes (firstn i rs) = bytes (firstn j rs) + bytes (firstn (i - j) (skipn j rs))).
    { rewrite <- bytes_app, <- firstn_add. do 2 f_equal. lia. }
    pose proof (bytes_nonneg (firstn (i - j) (skipn j rs))). unfold part.
    replace (Z.to_nat (bytes (firstn j rs) - bytes (firstn i rs))) with 0%nat by lia. reflexivity.
Qed.

Lemma clean_nil : clean [].
Proof. exists []. repeat split; constructor. Qed.
Lemma clean_valid s : clean s -> valid_utf8 s.
Proof. intros (rs & H & _ & E). exists rs. auto. Qed.
Lemma clean_part s a b : clean s -> 0 <= a -> a <= b -> boundary s a -> boundary s b -> clean (part a b s).
Proof.
  intros (rs & H1 & H2 & ->) H0 Hab Ba Bb. apply boundary_char_pos in Ba, Bb; [|lia|lia].
  destruct (encode_part rs a b Ba Bb Hab) as (pre & mid & post & E & ->). exists mid.
  assert (I : forall x, In x mid -> In x rs) by (intros x Hx; rewrite E; apply in_or_app; right; apply in_or_app; now left).
  rewrite Forall_forall in H1, H2. split; [|split; [|reflexivity]]; apply Forall_forall; auto.
Qed.
Lemma clean_runes s : clean s -> Forall (fun c => c <> 0%N) (runes s).
Proof. intros (rs & H1 & H2 & ->). now rewrite runes_encode. Qed.

(** ** Slices *)
Lemma part_map {A B} (f : A -> B) l s e : part s e (map f l) = map f (part s e l).
Proof. unfold part. now rewrite skipn_map, firstn_map. Qed.

Lemma slice_in_place orig n s e : in_place orig n -> 0 <= s -> s < e -> e <= zlen (ns_norm n) ->
  boundary (ns_norm n) s -> boundary (ns_norm n) e ->
  exists m, ns_slice n (Rng s e OnNormalized) = Ok (Some m) /\ in_place orig m /\
    ns_norm m = part s e (ns_norm n) /\ sources m = part s e (sources n).
Proof.
  intros (W & O & C & S0 & S1) H1 H2 H3 B1 B2.
  destruct (slice_normalized n s e W O H1 H2 H3 B1 B2) as (a & b & m & Ec & Es & En & Eo & Ea & Esh & Wm & Om).
  destruct (convert_normalized_inside n s e W O H1 H2 H3) as (a' & b' & Ec' & A1 & A2 & A3 & _).
  rewrite Ec in Ec'. injection Ec' as <- <-.
  exists m. split; [exact Es|]. split; [|split; [exact En|]].
  - unfold in_place. split; [exact Wm|]. split; [exact Om|]. split; [rewrite En; apply clean_part; auto; lia|].
    rewrite Esh, Eo, part_length by lia. lia.
  - unfold sources. rewrite Esh, Ea, part_map, map_map. apply map_ext. intros p. cbn. f_equal; lia.
Qed.
Lemma slice_empty orig n : in_place orig n -> ns_norm n = [] ->
  exists m, ns_slice n (Rng 0 0 OnNormalized) = Ok (Some m) /\ ns_norm m = [].
Proof.
  intros _ E. unfold ns_slice, validate_range. cbn [r_on]. rewrite E. cbn.
  unfold convert_offset. cbn [r_on r_start r_end into_full_range]. try rewrite E. cbn.
  unfold ns_range_original, ns_range. cbn. unfold convert_offset. cbn. try rewrite E. cbn.
  assert (Z0 : forall A (l : list A), zslice l 0 0 = Ok []).
  { intros A l. pose proof (zlen_nonneg l); rewrite zslice_eq by lia; reflexivity. }
  rewrite !Z0. cbn. rewrite ?Z0. cbn. eexists. split; [reflexivity|]. reflexivity.
Qed.

(** Slices of an unchanged text. *)
Lemma same_app a b : NormalizedSpec.same (a ++ b) = NormalizedSpec.same a ++ NormalizedSpec.same b.
Proof. unfold NormalizedSpec.same. apply map_app. Qed.
Lemma expanded_untouched rs n : Forall scalar rs -> expanded (NormalizedSpec.same rs) n -> untouched n.
Proof.
  intros Sc (E1 & E2 & E3 & E4). exists rs. rewrite map_fst_same in E1. rewrite exp_text_same in E2. rewrite exp_al_same in E3. rewrite exp_ao_same in E4. auto.
Qed.
Lemma untouched_expanded n : untouched n -> exists rs, Forall scalar rs /\ expanded (NormalizedSpec.same rs) n.
Proof.
  intros (rs & Sc & E1 & E2 & E3 & E4). exists rs. split; [exact Sc|]. unfold expanded. rewrite map_fst_same, exp_text_same, exp_al_same, exp_ao_same. auto.
Qed.
Lemma new_untouched s : valid_utf8 s -> untouched (new_ns s).
Proof.
  intros (rs & Sc & ->). apply (expanded_untouched rs); [exact Sc|]. apply fresh_expanded, new_fresh, Sc.
Qed.
Lemma slice_untouched n a b m : wf n -> ordered (ns_al n) -> untouched n -> 0 <= a -> a < b -> b <= zlen (ns_norm n) ->
  boundary (ns_norm n) a -> boundary (ns_norm n) b ->
  ns_slice n (Rng a b OnNormalized) = Ok (Some m) -> untouched m /\ ns_shift m = ns_shift n + a /\ zlen (ns_orig m) = b - a.
Proof.
  intros W O Un H1 H2 H3 B1 B2 E. destruct (untouched_expanded n Un) as (rs & Sc & X).
  assert (En : ns_norm n = encode rs) by (destruct X as (_ & X & _); now rewrite exp_text_same in X). rewrite En in *.
  destruct (boundary_char_pos rs a B1 H1) as (i & Hi & Ea). destruct (boundary_char_pos rs b B2 ltac:(lia)) as (j & Hj & Eb).
  assert (Hij : (i < j)%nat).
  { destruct (Nat.lt_ge_cases i j) as [|G]; [assumption|]. exfalso. replace i with (j + (i - j))%nat in Ea by lia. rewrite firstn_add, bytes_app in Ea.
    pose proof (bytes_nonneg (firstn (i - j) (skipn j rs))). lia. }
  set (mid := firstn (j - i) (skipn i rs)).
  assert (Er : rs = firstn i rs ++ mid ++ skipn (j - i) (skipn i rs)) by (unfold mid; now rewrite !firstn_skipn).
  assert (Ej : firstn j rs = firstn i rs ++ mid) by (replace j with (i + (j - i))%nat at 1 by lia; apply firstn_add).
  assert (Sm : Forall scalar mid) by (rewrite Er, !Forall_app in Sc; tauto).
  rewrite Er, !same_app in X.
  destruct (slice_expanded n _ _ _ W O X) as (m' & E' & X' & Sh & _).
  { intros Z. apply map_eq_nil in Z. apply (f_equal (@length N)) in Z. unfold mid in Z. rewrite firstn_length, skipn_length in Z. cbn in Z. lia. }
  { rewrite <- same_app. apply written_same. }
  rewrite !exp_text_same in E'. rewrite map_fst_same in Sh.
  assert (Eb' : b = zlen (encode (firstn i rs)) + zlen (encode mid)) by (rewrite Eb, Ej, bytes_app; reflexivity).
  change (zlen (encode (firstn i rs))) with (bytes (firstn i rs)) in E', Eb'. rewrite <- Ea in E', Eb', Sh. rewrite <- Eb' in E'. rewrite E in E'. injection E' as <-.
  split; [exact (expanded_untouched mid m Sm X')|]. split; [exact Sh|]. destruct X' as (X' & _). rewrite map_fst_same in X'. rewrite X'. lia.
Qed.

(** ** Lists of pieces *)
Lemma ordered_in_app a b x y : ordered (a ++ b) -> In x a -> In y b -> ple x y.
Proof.
  intros H Hx Hy. apply In_nth_error in Hx, Hy. destruct Hx as (i & Ex). destruct Hy as (j & Ey).
  assert (i < length a)%nat by (apply nth_error_Some; congruence).
  apply (H i (length a + j)%nat x y); [lia|now rewrite nth_error_app1 by lia|].
  rewrite nth_error_app2 by lia. rewrite <- Ey. f_equal. lia.
Qed.
Lemma ordered_app_l a b : ordered (a ++ b) -> ordered a.
Proof. intros H i j p q Hij Ei Ej. assert (i < length a)%nat by (apply nth_error_Some; congruence).
  assert (j < length a)%nat by (apply nth_error_Some; congruence). apply (H i j); auto; now rewrite nth_error_app1 by lia. Qed.
Lemma ordered_app_r a b : ordered (a ++ b) -> ordered b.
Proof.
  intros H i j p q Hij Ei Ej. apply (H (length a + i)%nat (length a + j)%nat); [lia| |];
    rewrite nth_error_app2 by lia; (rewrite <- Ei || rewrite <- Ej); f_equal; lia.
Qed.

(** Replacing each list of an ordered sequence by an ordered list of some of its elements. *)
Lemma ordered_drawn ls ls' : Forall2 (fun l l' => ordered l' /\ incl l' l) ls ls' ->
  ordered (concat ls) -> ordered (concat ls').
Proof.
  assert (I : forall ls ls', Forall2 (fun l l' => ordered l' /\ incl l' l) ls ls' -> incl (concat ls') (concat ls)).
  { clear. induction 1 as [|l l' ls ls' [_ H] _ IH]; [apply incl_refl|]. cbn. apply incl_app; [now apply incl_appl|now apply incl_appr]. }
  induction 1 as [|l l' ls ls' [O J] F IH]; [auto|]. cbn. intros H. apply ordered_app; [exact O|apply IH; eapply ordered_app_r, H|].
  intros x y Hx Hy. apply (ordered_in_app l (concat ls)); auto. apply (I _ _ F), Hy.
Qed.

(** The same for lists inside disjoint zones. *)
Lemma ordered_zones (zs : list (Z * Z)) ls :
  Forall2 (fun z l => ordered l /\ Forall (fun p => fst z <= fst p /\ fst p <= snd p /\ snd p <= snd z) l) zs ls ->
  ForallOrdPairs (fun z z' => snd z <= fst z') zs -> ordered (concat ls).
Proof.
  induction 1 as [|z l zs ls [O I] F IH]; intros P; [apply ordered_nil|]. cbn. inversion P as [|? ? P1 P2]; subst.
  apply ordered_app; [exact O|now apply IH|]. intros x y Hx Hy. rewrite Forall_forall in I. specialize (I x Hx).
  assert (K : exists z', In z' zs /\ fst z' <= fst y /\ fst y <= snd y).
  { clear -F Hy. induction F as [|z l zs ls [_ J] F IH]; [destruct Hy|]. cbn in Hy. apply in_app_or in Hy. destruct Hy as [Hy|Hy].
    - exists z. rewrite Forall_forall in J. specialize (J y Hy). split; [now left|lia].
    - destruct (IH Hy) as (z' & H1 & H2). exists z'. split; [now right|exact H2]. }
  destruct K as (z' & K1 & K2). rewrite Forall_forall in P1. specialize (P1 z' K1). unfold ple. lia.
Qed.

Definition nonempty (sp : split) : bool := match ns_norm (sp_ns sp) with [] => false | _ => true end.
Definition all_good orig (l : list split) : Prop :=
  Forall (fun sp => in_place orig (sp_ns sp) /\ tokens_of (sp_text sp) (toks_in sp) /\ sp_text sp <> []) l.

Lemma split_pieces_news f l : forall i l', split_pieces f i l = Ok l' ->
  exists news, l' = concat news /\ Forall2 (fun sp new => match sp_toks sp with
    | Some _ => new = [sp]
    | None => exists i new0, f i (sp_ns sp) = Ok new0 /\ new = filter nonempty new0 end) l news.
Proof.
  induction l as [|sp l IH]; intros i l'; cbn [split_pieces]; [intros [= <-]; exists []; split; constructor|].
  destruct (sp_toks sp) as [t|] eqn:Et.
  - destruct (split_pieces f (S i) l) as [rest| | | |] eqn:E; cbn [bind]; try discriminate. intros [= <-].
    destruct (IH _ _ E) as (news & -> & F). exists ([sp] :: news). split; [reflexivity|]. constructor; [now rewrite Et|exact F].
  - destruct (f i (sp_ns sp)) as [new| | | |] eqn:Ef; cbn [bind]; try discriminate.
    destruct (split_pieces f (S i) l) as [rest| | | |] eqn:E; cbn [bind]; try discriminate. intros [= <-].
    destruct (IH _ _ E) as (news & -> & F). exists (filter nonempty new :: news). split; [reflexivity|].
    constructor; [|exact F]. rewrite Et. eauto.
Qed.

Lemma all_sources_app a b : all_sources (a ++ b) = all_sources a ++ all_sources b.
Proof. unfold all_sources. apply flat_map_app. Qed.
Lemma all_sources_concat ls : all_sources (concat ls) = concat (map all_sources ls).
Proof. induction ls as [|l ls IH]; [reflexivity|]. cbn. now rewrite all_sources_app, IH. Qed.
Lemma all_sources_map l : all_sources l = concat (map (fun sp => sources (sp_ns sp)) l).
Proof. unfold all_sources. now rewrite flat_map_concat_map. Qed.
Lemma all_sources_kept orig l : all_good orig (filter nonempty l) -> incl (all_sources (filter nonempty l)) (all_sources l).
Proof.
  intros _ x Hx. unfold all_sources in *. apply in_flat_map in Hx. destruct Hx as (sp & Hs & Hx). apply filter_In in Hs.
  apply in_flat_map. exists sp. tauto.
Qed.

(** A split function that cuts or rewrites pieces without moving them. *)
Definition refines (orig : str) (n : ns) (new : list split) : Prop :=
  all_good orig new /\ ordered (all_sources new) /\ incl (all_sources new) (sources n).
Definition refiner (f : nat -> ns -> res (list split)) : Prop :=
  forall orig i n new, in_place orig n -> ns_norm n <> [] -> f i n = Ok new -> refines orig n (filter nonempty new).

Lemma sources_ordered orig n : in_place orig n -> ordered (sources n).
Proof.
  intros (_ & O & _). intros i j p q Hij Ei Ej. unfold sources in *.
  rewrite nth_error_map in Ei, Ej. destruct (nth_error (ns_al n) i) as [p0|] eqn:Ep; [|discriminate Ei].
  destruct (nth_error (ns_al n) j) as [q0|] eqn:Eq; [|discriminate Ej]. injection Ei as <-. injection Ej as <-. specialize (O i j p0 q0 Hij Ep Eq). unfold ple in *. cbn. lia.
Qed.

(** ** Added tokens *)
Lemma fill_ends (P : Z -> Prop) ids total l : forall start, P start -> P total ->
  (forall p, In p l -> P (fst (snd p)) /\ P (snd (snd p))) ->
  Forall (fun x => P (fst (snd x)) /\ P (snd (snd x))) (fill ids start total l).
Proof.
  induction l as [|[k [a b]] l IH]; intros start Hs Ht H; cbn [fill].
  - destruct (start =? total); repeat constructor; assumption.
  - destruct (H _ (or_introl eq_refl)) as [Ha Hb]. cbn in Ha, Hb. apply Forall_app. split.
    + destruct (start <? a); repeat constructor; assumption.
    + constructor; [auto|]. apply IH; auto. intros p Hp. apply H. now right.
Qed.

Lemma tokens_none s : tokens_of s [].
Proof. split; [constructor|]. apply ordered_nil. Qed.
Lemma tokens_one s id v : s <> [] -> tokens_of s [Tok id v (0, zlen s)].
Proof.
  intros H. split.
  - constructor; [|constructor]. cbn. assert (0 < zlen s) by (destruct s; [congruence|unfold zlen; cbn; lia]). lia.
  - apply (ordered_repeat (0, zlen s) 1).
Qed.

Lemma mapR_cons {A B} (f : A -> res B) x l : mapR f (x :: l) = (do y <- f x; do ys <- mapR f l; Ok (y :: ys)).
Proof. reflexivity. Qed.

Lemma indexed_pieces orig n l : in_place orig n -> forall from, 0 <= from -> from <= zlen (ns_norm n) -> pieces from (zlen (ns_norm n)) l ->
  Forall (fun x => boundary (ns_norm n) (fst (snd x)) /\ boundary (ns_norm n) (snd (snd x))) l ->
  exists sps, mapR (indexed_piece n) l = Ok sps /\ all_good orig sps /\
    all_sources sps = part from (zlen (ns_norm n)) (sources n) /\
    map sp_text sps = map (fun x => part (fst (snd x)) (snd (snd x)) (ns_norm n)) l /\
    Forall (fun sp => nonempty sp = true) sps /\
    Forall2 (fun x sp => ns_slice n (Rng (fst (snd x)) (snd (snd x)) OnNormalized) = Ok (Some (sp_ns sp))) l sps.
Proof.
  intros P. set (L := zlen (ns_norm n)) in *.
  assert (LS : zlen (sources n) = L).
  { destruct P as ((W & _) & _). unfold sources, zlen, L. now rewrite map_length, W. }
  induction l as [|[o [a b]] l IH]; intros from H0 H1 Hp F.
  - cbn in Hp. subst from. exists []. split; [reflexivity|]. split; [constructor|]. split; [|repeat split; constructor].
    unfold part. rewrite Z.sub_diag. reflexivity.
  - cbn in Hp. destruct Hp as (-> & Hab & Hp). inversion F as [|? ? [Ba Bb] F']; subst. cbn [fst snd] in Ba, Bb.
    assert (Hb : b <= L).
    { clear -Hp. revert b Hp. induction l as [|[o [c d]] l IHl]; intros b; cbn; [lia|]. intros (-> & H & K). specialize (IHl d K). lia. }
    destruct (slice_in_place orig n from b P H0 Hab Hb Ba Bb) as (m & Em & Pm & Tm & Sm).
    destruct (IH b ltac:(lia) Hb Hp F') as (sps & Es & G & S1 & T1 & N1 & L1).
    rewrite mapR_cons. unfold indexed_piece at 1. cbn [fst snd]. rewrite Em. cbn [bind]. rewrite Es. cbn [bind].
    assert (Ne : ns_norm m <> []).
    { intros E. pose proof (part_length (ns_norm n) from b H0 ltac:(lia) Hb) as X. rewrite <- Tm, E in X. unfold zlen in X. cbn in X. lia. }
    eexists. split; [reflexivity|]. split; [|split; [|split; [|split]]].
    + constructor; [|exact G]. cbn [sp_ns]. split; [exact Pm|]. unfold sp_text, toks_in. cbn [sp_ns sp_toks].
      split; [|exact Ne]. destruct o; [now apply tokens_one|apply tokens_none].
    + unfold all_sources in *. cbn [flat_map sp_ns]. rewrite S1, Sm. unfold part.
      replace (Z.to_nat (L - from)) with (Z.to_nat (b - from) + Z.to_nat (L - b))%nat by lia.
      rewrite firstn_add. f_equal. f_equal. rewrite skipn_plus. f_equal. lia.
    + cbn [map fst snd]. unfold sp_text at 1. cbn [sp_ns]. now rewrite Tm, T1.
    + constructor; [|exact N1]. unfold nonempty. cbn [sp_ns]. destruct (ns_norm m); [congruence|reflexivity].
    + constructor; [|exact L1]. cbn. exact Em.
Qed.

Lemma filter_true {A} (f : A -> bool) l : Forall (fun x => f x = true) l -> filter f l = l.
Proof. induction 1 as [|x l Hx F IH]; [reflexivity|]. cbn. now rewrite Hx, IH. Qed.

Section Encode.
  Variable sort_start sort_id : list io_pair -> list io_pair.
  Hypothesis HS : sorts start_key sort_start.
  Hypothesis HI : sorts id_key sort_id.

  Lemma indices_ok_at orig set n : matching_ok set -> in_place orig n -> ns_norm n <> [] ->
    let l := AddedVocabModel.find_matches sort_start sort_id (zlen (ns_norm n)) (mt_ids set) (mt_find set (ns_norm n)) in
    exists sps, split_with_indices sort_start sort_id set n = Ok sps /\ pieces 0 (zlen (ns_norm n)) l /\
    Forall (fun x => boundary (ns_norm n) (fst (snd x)) /\ boundary (ns_norm n) (snd (snd x))) l /\
    all_good orig sps /\ all_sources sps = sources n /\
    map sp_text sps = map (fun x => part (fst (snd x)) (snd (snd x)) (ns_norm n)) l /\
    Forall (fun sp => nonempty sp = true) sps /\
    Forall2 (fun x sp => ns_slice n (Rng (fst (snd x)) (snd (snd x)) OnNormalized) = Ok (Some (sp_ns sp))) l sps.
  Proof.
    intros M P Ne l. set (L := zlen (ns_norm n)).
    assert (HL : 0 < L) by (subst L; destruct (ns_norm n); [congruence|unfold zlen; cbn; lia]).
    destruct (M (ns_norm n)) as [M1 M2]. { destruct P as (_ & _ & C & _). now apply clean_valid. }
    assert (B : Forall (fun x => boundary (ns_norm n) (fst (snd x)) /\ boundary (ns_norm n) (snd (snd x))) l).
    { subst l. fold L. rewrite (find_matches_eq sort_start sort_id HI) by lia. apply fill_ends.
      - now left.
      - right. now left.
      - intros p Hp. apply (greedy_incl) in Hp. apply (candidates_in sort_start sort_id HS HI) in Hp.
        destruct Hp as (r & E & I). apply nth_error_In in E. rewrite Forall_forall in M2. specialize (M2 r E).
        rewrite Forall_forall in M2. exact (M2 _ I). }
    assert (Pc : pieces 0 L l) by (apply (find_pieces sort_start sort_id HS HI); assumption).
    destruct (indexed_pieces orig n l P 0 ltac:(lia) ltac:(lia) Pc B) as (sps & E & G & S1 & T & N1 & K).
    exists sps. split; [exact E|]. split; [exact Pc|]. split; [exact B|]. split; [exact G|]. split; [|auto].
    rewrite S1. assert (LS : zlen (sources n) = L).
    { destruct P as ((W & _) & _). unfold sources, zlen, L. now rewrite map_length, W. }
    change (zlen (ns_norm n)) with L. rewrite <- LS. apply part_all.
  Qed.
  Lemma indices_ok orig set n : matching_ok set -> in_place orig n -> ns_norm n <> [] ->
    exists (l : list (option Z * (Z * Z))) sps, split_with_indices sort_start sort_id set n = Ok sps /\ pieces 0 (zlen (ns_norm n)) l /\
    Forall (fun x => boundary (ns_norm n) (fst (snd x)) /\ boundary (ns_norm n) (snd (snd x))) l /\
    all_good orig sps /\ all_sources sps = sources n /\
    map sp_text sps = map (fun x => part (fst (snd x)) (snd (snd x)) (ns_norm n)) l /\
    Forall (fun sp => nonempty sp = true) sps /\
    Forall2 (fun x sp => ns_slice n (Rng (fst (snd x)) (snd (snd x)) OnNormalized) = Ok (Some (sp_ns sp))) l sps.
  Proof. intros M P Ne. eexists. exact (indices_ok_at orig set n M P Ne). Qed.
  Lemma indices_empty orig set n : in_place orig n -> ns_norm n = [] ->
    exists sps, split_with_indices sort_start sort_id set n = Ok sps /\ filter nonempty sps = [].
  Proof.
    intros P E. destruct (slice_empty orig n P E) as (m & Em & Nm). unfold split_with_indices.
    rewrite E. change (zlen (@nil N)) with 0. unfold AddedVocabModel.find_matches. cbn [Z.eqb mapR]. unfold indexed_piece. cbn [fst snd].
    rewrite Em. cbn. eexists. split; [reflexivity|]. cbn. unfold nonempty. cbn [sp_ns]. now rewrite Nm.
  Qed.
End Encode.

(** ** Splitting keeps the pieces laid *)
Lemma laid_drawn orig l news :
  all_good orig l -> ordered (all_sources l) ->
  Forall2 (fun sp new => all_good orig new /\ ordered (all_sources new) /\ incl (all_sources new) (sources (sp_ns sp))) l news ->
  all_good orig (concat news) /\ ordered (all_sources (concat news)).
Proof.
  intros G O F. split.
  - clear O G. induction F as [|sp new l news (G & _) F IH]; [constructor|]. cbn. apply Forall_app. split; assumption.
  - rewrite all_sources_concat. rewrite all_sources_map in O. apply (ordered_drawn (map (fun sp => sources (sp_ns sp)) l)); [|exact O].
    clear -F. induction F as [|sp new l news (_ & O & I) F IH]; [constructor|]. cbn. constructor; auto.
Qed.

Lemma own_piece orig sp : in_place orig (sp_ns sp) -> tokens_of (sp_text sp) (toks_in sp) /\ sp_text sp <> [] ->
  all_good orig [sp] /\ ordered (all_sources [sp]) /\ incl (all_sources [sp]) (sources (sp_ns sp)).
Proof.
  intros P T. split; [constructor; [split; assumption|constructor]|]. unfold all_sources. cbn. rewrite app_nil_r.
  split; [eapply sources_ordered, P|apply incl_refl].
Qed.

Lemma split_laid f p p' : refiner f -> laid p -> pt_split f p = Ok p' -> laid p' /\ pt_orig p' = pt_orig p.
Proof.
  intros R [G O]. unfold pt_split. destruct (split_pieces f 0 (pt_splits p)) as [l'| | | |] eqn:E; cbn [bind]; try discriminate.
  intros [= <-]. split; [|reflexivity]. unfold laid. cbn [pt_splits pt_orig].
  destruct (split_pieces_news f _ _ _ E) as (news & -> & F). apply (laid_drawn _ (pt_splits p)); auto.
  clear E O. induction F as [|sp new l news H F IH]; [constructor|]. inversion G as [|? ? [P T] G']; subst. constructor; [|now apply IH].
  destruct (sp_toks sp) as [t|] eqn:Et; [subst new; now apply own_piece|]. destruct H as (i & new0 & H & ->).
  exact (R _ _ _ _ P (proj2 T) H).
Qed.

(** ** Offsets *)
Definition token_at (n : ns) (t : token) (o : Z * Z) : Prop :=
  exists p q, nth_error (sources n) (Z.to_nat (fst (t_off t))) = Some p /\
    nth_error (sources n) (Z.to_nat (snd (t_off t) - 1)) = Some q /\ o = (fst p, snd q).

Lemma byte_offsets_at orig n t o : in_place orig n -> 0 <= fst (t_off t) -> fst (t_off t) < snd (t_off t) ->
  snd (t_off t) <= zlen (ns_norm n) -> byte_offsets n (t_off t) = Ok o -> token_at n t o.
Proof.
  intros (W & _) H1 H2 H3. unfold byte_offsets. destruct (convert_normalized n _ _ W H1 H2 H3) as (p & q & Ep & Eq & ->).
  cbn. intros [= <-]. exists (ns_shift n + fst p, ns_shift n + snd p), (ns_shift n + fst q, ns_shift n + snd q).
  unfold sources. rewrite !nth_error_map, Ep, Eq. auto.
Qed.

Lemma laid_good p : laid p -> good_pieces p.
Proof.
  intros [G _]. unfold good_pieces. eapply Forall_impl; [|exact G]. intros sp ((W & O & C & S1 & S2) & (T & _) & _).
  split; [exact (conj W (conj O (conj S1 S2)))|]. eapply Forall_impl; [|exact T]. intros t H. exact H.
Qed.

Lemma forall2_flat {A B C} (g : A -> list B) (R : B -> C -> Prop) l : forall rows, Forall2 R (flat_map g l) rows ->
  exists rs, rows = concat rs /\ Forall2 (fun a r => Forall2 R (g a) r) l rs.
Proof.
  induction l as [|a l IH]; intros rows F; cbn in F.
  - inversion F; subst. exists []. split; constructor.
  - apply Forall2_app_inv_l in F. destruct F as (r1 & r2 & F1 & F2 & ->). destruct (IH _ F2) as (rs & -> & F3).
    exists (r1 :: rs). split; [reflexivity|]. now constructor.
Qed.

Lemma piece_offsets_ordered orig n toks os : in_place orig n -> tokens_of (ns_norm n) toks -> Forall2 (token_at n) toks os ->
  ordered os /\ forall o, In o os -> exists p q, In p (sources n) /\ In q (sources n) /\ ple p q /\ o = (fst p, snd q).
Proof.
  intros P [T O] F. assert (So := sources_ordered _ _ P). split.
  - intros i j x y Hij Ex Ey.
    assert (K : forall k o, nth_error os k = Some o -> exists t, nth_error toks k = Some t /\ token_at n t o).
    { clear -F. induction F as [|t o toks os H F IH]; intros [|k] x E; try discriminate; cbn in *; [injection E as <-; eauto|auto]. }
    destruct (K _ _ Ex) as (t1 & E1 & p1 & q1 & A1 & B1 & ->). destruct (K _ _ Ey) as (t2 & E2 & p2 & q2 & A2 & B2 & ->).
    assert (Ho : ple (t_off t1) (t_off t2)). { apply (O i j); [exact Hij| |]; rewrite nth_error_map; [now rewrite E1|now rewrite E2]. }
    destruct Ho as [Ho1 Ho2]. rewrite Forall_forall in T. pose proof (T _ (nth_error_In _ _ E1)). pose proof (T _ (nth_error_In _ _ E2)).
    assert (X1 : ple p1 p2) by (apply (So (Z.to_nat (fst (t_off t1))) (Z.to_nat (fst (t_off t2)))); auto; lia).
    assert (X2 : ple q1 q2) by (apply (So (Z.to_nat (snd (t_off t1) - 1)) (Z.to_nat (snd (t_off t2) - 1))); auto; lia).
    unfold ple in *. cbn. lia.
  - clear O. induction F as [|t o toks os H F IH]; intros x Hx; [destruct Hx|]. inversion T as [|? ? T1 T2]; subst. destruct Hx as [<-|Hx]; [|now apply IH].
    destruct H as (p & q & Ep & Eq & ->). exists p, q. split; [eapply nth_error_In, Ep|]. split; [eapply nth_error_In, Eq|]. split; [|reflexivity].
    apply (So (Z.to_nat (fst (t_off t))) (Z.to_nat (snd (t_off t) - 1))); auto. lia.
Qed.

Lemma into_ordered p ty wi e : laid p -> into_encoding p ty wi OByte = Ok e -> ordered (offsets e).
Proof.
  intros [G O] E. destruct (into_ok _ _ _ _ _ E) as (rows & m & -> & -> & _ & _ & F). cbn [offsets]. clear E.
  unfold located in F. apply forall2_flat in F. destruct F as (rs & -> & F).
  assert (K : exists oss, map snd (concat rs) = concat oss /\ Forall2 (fun sp os => Forall2 (token_at (sp_ns sp)) (toks_in sp) os) (pt_splits p) oss).
  { exists (map (map snd) rs). split; [apply concat_map|]. clear O. induction F as [|sp r l rs H F IH]; [constructor|].
    inversion G as [|? ? [P [[T _] _]] G']; subst. constructor; [|now apply IH].
    clear -H P T. unfold sp_text in T. revert r H. induction (toks_in sp) as [|t toks IHt]; intros r H; cbn in H; inversion H; subst; [constructor|].
    inversion T as [|? ? T1 T2]; subst. cbn. constructor; [|now apply IHt]. match goal with X : exists o, byte_offsets _ _ = Ok o /\ _ |- _ => destruct X as (o & B & Ex) end.
    cbn in B. match type of Ex with ?u = _ => change (u = o) in Ex end. rewrite Ex. eapply byte_offsets_at; [exact P| | | |exact B]; lia. }
  destruct K as (oss & -> & K). clear F.
  induction K as [|sp os l oss H K IH]; [apply ordered_nil|]. inversion G as [|? ? [P T] G']; subst.
  cbn [concat]. change (all_sources (sp :: l)) with (sources (sp_ns sp) ++ all_sources l) in O.
  destruct (piece_offsets_ordered _ _ _ _ P (proj1 T) H) as [O1 I1].
  apply ordered_app; [exact O1|apply IH; [exact G'|eapply ordered_app_r, O]|].
  intros x y Hx Hy. destruct (I1 x Hx) as (p1 & q1 & A1 & B1 & C1 & ->).
  assert (Y : exists p2 q2, In p2 (all_sources l) /\ In q2 (all_sources l) /\ ple p2 q2 /\ y = (fst p2, snd q2)).
  { clear -K G' Hy. induction K as [|sp' os' l oss H K IH]; [destruct Hy|]. inversion G' as [|? ? [P T] G'']; subst.
    cbn in Hy. apply in_app_or in Hy. change (all_sources (sp' :: l)) with (sources (sp_ns sp') ++ all_sources l). destruct Hy as [Hy|Hy].
    - destruct (piece_offsets_ordered _ _ _ _ P (proj1 T) H) as [_ I]. destruct (I y Hy) as (p2 & q2 & A & B & C & D). exists p2, q2.
      split; [apply in_or_app; auto|]. split; [apply in_or_app; auto|]. auto.
    - destruct (IH G'' Hy) as (p2 & q2 & A & B & C & D). exists p2, q2.
      split; [apply in_or_app; auto|]. split; [apply in_or_app; auto|]. auto. }
  destruct Y as (p2 & q2 & A2 & B2 & C2 & ->).
  pose proof (ordered_in_app _ _ _ _ O A1 A2) as X1. pose proof (ordered_in_app _ _ _ _ O B1 B2) as X2. unfold ple in *. cbn. lia.
Qed.

Lemma into_inside p ty wi e : laid p -> into_encoding p ty wi OByte = Ok e ->
  Forall (fun o => 0 <= fst o /\ fst o <= snd o /\ snd o <= zlen (pt_orig p)) (offsets e).
Proof.
  intros L E. pose proof (into_bytes p ty wi e (laid_good p L) E) as F. clear E L.
  induction F as [|nt o l os H F IH]; constructor; [|exact IH]. destruct H as (a & b & -> & H). cbn. lia.
Qed.

(** ** Tokenizing *)
Lemma tokenize_laid f p p' : (forall n toks, clean (ns_norm n) -> ns_norm n <> [] -> f n = Ok (Some toks) -> tokens_of (ns_norm n) toks) ->
  laid p -> pt_tokenize f p = Ok p' -> laid p' /\ pt_orig p' = pt_orig p.
Proof.
  intros M [G O]. unfold pt_tokenize. destruct (tokenize_pieces f (pt_splits p)) as [l'| | | |] eqn:E; cbn [bind]; try discriminate.
  intros [= <-]. split; [|reflexivity]. unfold laid. cbn [pt_splits pt_orig].
  assert (K : all_good (pt_orig p) l' /\ all_sources l' = all_sources (pt_splits p)).
  { clear O. revert l' E. induction (pt_splits p) as [|sp l IH]; cbn [tokenize_pieces]; intros l' E; [injection E as <-; split; [constructor|reflexivity]|].
    inversion G as [|? ? [P T] G']; subst.
    destruct (match sp_toks sp with Some _ => Ok sp | None => do t <- f (sp_ns sp); Ok (Spl (sp_ns sp) t) end) as [sp'| | | |] eqn:Es; cbn [bind] in E; try discriminate.
    destruct (tokenize_pieces f l) as [rest| | | |] eqn:Er; cbn [bind] in E; try discriminate. injection E as <-.
    destruct (IH G' _ eq_refl) as [G1 S1].
    assert (X : sp_ns sp' = sp_ns sp /\ tokens_of (ns_norm (sp_ns sp)) (toks_in sp')).
    { destruct (sp_toks sp) as [t|] eqn:Et; [injection Es as <-; split; [reflexivity|apply T]|].
      destruct (f (sp_ns sp)) as [t| | | |] eqn:Ef; cbn [bind] in Es; try discriminate. injection Es as <-. cbn. split; [reflexivity|].
      unfold toks_in. cbn. destruct t as [t|]; [|apply tokens_none]. apply M; [apply P|apply T|exact Ef]. }
    destruct X as [X1 X2]. split.
    - constructor; [|exact G1]. unfold sp_text. rewrite X1. split; [exact P|]. split; [exact X2|apply T].
    - unfold all_sources in *. cbn. now rewrite X1, S1. }
  destruct K as [K1 K2]. split; [exact K1|]. now rewrite K2.
Qed.

(** ** Added tokens and normalizer *)
Lemma new_in_place s : clean s -> in_place s (new_ns s).
Proof.
  intros C. pose proof (clean_valid s C) as V. split; [now apply new_ns_wf|]. split; [apply new_ns_ordered|]. split; [exact C|].
  cbn [ns_shift ns_orig new_ns]. lia.
Qed.
Lemma sources_zone orig n : in_place orig n ->
  Forall (fun p => ns_shift n <= fst p /\ fst p <= snd p /\ snd p <= ns_shift n + zlen (ns_orig n)) (sources n).
Proof.
  intros ((_ & F & _) & _). unfold sources. apply Forall_map. eapply Forall_impl; [|exact F]. unfold inside. cbn. intros a H. lia.
Qed.

Lemma pieces_zones {A} (l : list (A * (Z * Z))) : forall from upto, pieces from upto l ->
  ForallOrdPairs (fun z z' => snd z <= fst z') (map snd l) /\ Forall (fun z => from <= fst z /\ fst z < snd z /\ snd z <= upto) (map snd l) /\ from <= upto.
Proof.
  induction l as [|[o [a b]] l IH]; intros from upto; cbn [pieces map snd].
  - intros ->. split; [constructor|]. split; [constructor|lia].
  - intros (-> & Hab & Hp). destruct (IH _ _ Hp) as (H1 & H2 & H3). split; [|split].
    + constructor; [|exact H1]. eapply Forall_impl; [|exact H2]. cbn. lia.
    + constructor; [cbn; lia|]. eapply Forall_impl; [|exact H2]. cbn. lia.
    + lia.
Qed.

(** Pieces in disjoint zones, one after the other. *)
Definition apart (orig : str) (l : list split) : Prop :=
  all_good orig l /\
  ForallOrdPairs (fun a b => ns_shift (sp_ns a) + zlen (ns_orig (sp_ns a)) <= ns_shift (sp_ns b)) l.

(** The slices an untouched piece is cut into. *)
Lemma slices_untouched n (l : list (option Z * (Z * Z))) sps at_ : wf n -> ordered (ns_al n) -> untouched n -> ns_shift n = at_ ->
  Forall2 (fun x sp => ns_slice n (Rng (fst (snd x)) (snd (snd x)) OnNormalized) = Ok (Some (sp_ns sp))) l sps ->
  Forall (fun z => 0 <= fst z /\ fst z < snd z /\ snd z <= zlen (ns_norm n)) (map snd l) ->
  Forall (fun x => boundary (ns_norm n) (fst (snd x)) /\ boundary (ns_norm n) (snd (snd x))) l ->
  Forall2 (fun z sp => untouched (sp_ns sp) /\ ns_shift (sp_ns sp) = at_ + fst z /\
    ns_shift (sp_ns sp) + zlen (ns_orig (sp_ns sp)) = at_ + snd z) (map snd l) sps.
Proof.
  intros W O U Sh K. induction K as [|x sp l sps H K IH]; intros Z B; [constructor|]. cbn [map] in *. inversion Z; subst. inversion B; subst.
  constructor; [|now apply IH].
  destruct (slice_untouched n (fst (snd x)) (snd (snd x)) (sp_ns sp)) as (Q0 & Q1 & Q2); try assumption; try tauto; try lia. split; [exact Q0|]. lia.
Qed.

Section Extract.
  Variable sort_start sort_id : list io_pair -> list io_pair.
  Hypothesis HS : sorts start_key sort_start.
  Hypothesis HI : sorts id_key sort_id.

  Lemma indices_refine set orig n new : matching_ok set -> in_place orig n -> split_with_indices sort_start sort_id set n = Ok new ->
    refines orig n (filter nonempty new).
  Proof.
    intros M P E. destruct (ns_norm n) as [|c s] eqn:En.
    - destruct (indices_empty sort_start sort_id orig set n P En) as (sps & E' & F). rewrite E in E'. injection E' as <-. rewrite F.
      split; [constructor|]. split; [apply ordered_nil|intros x []].
    - destruct (indices_ok sort_start sort_id HS HI orig set n M P ltac:(congruence)) as (l & sps & E' & _ & _ & G & S1 & _ & N1 & _).
      rewrite E in E'. injection E' as <-. rewrite (filter_true _ _ N1). split; [exact G|]. rewrite S1. split; [eapply sources_ordered, P|apply incl_refl].
  Qed.

  Lemma indices_untouched set orig n new : matching_ok set -> in_place orig n -> untouched n -> split_with_indices sort_start sort_id set n = Ok new ->
    Forall (fun sp => untouched (sp_ns sp)) (filter nonempty new).
  Proof.
    intros M P U E. destruct (ns_norm n) as [|c s] eqn:En.
    - destruct (indices_empty sort_start sort_id orig set n P En) as (sps & E' & F). rewrite E in E'. injection E' as <-. rewrite F. constructor.
    - destruct (indices_ok sort_start sort_id HS HI orig set n M P ltac:(congruence)) as (l & sps & E' & Pc & B & G & S1 & _ & N1 & K).
      rewrite E in E'. injection E' as <-. rewrite (filter_true _ _ N1). destruct (pieces_zones _ _ _ Pc) as (Z1 & Z2 & _).
      destruct P as (W & O & _). pose proof (slices_untouched n l new _ W O U eq_refl K Z2 B) as Q.
      clear -Q. induction Q as [|z sp zs sps H Q IH]; [constructor|]. constructor; [apply H|exact IH].
  Qed.

  Lemma raw_apart set s : matching_ok set -> clean s ->
    exists p, pt_split (fun _ n => split_with_indices sort_start sort_id set n) (pt_new s) = Ok p /\ pt_orig p = s /\ apart s (pt_splits p) /\
      Forall (fun sp => untouched (sp_ns sp)) (pt_splits p).
  Proof.
    intros M C. pose proof (new_in_place s C) as P. unfold pt_split, pt_new, pt_from_ns. cbn [pt_splits pt_orig split_pieces sp_toks sp_ns].
    destruct s as [|c s'] eqn:Es.
    - destruct (indices_empty sort_start sort_id [] set (new_ns []) P eq_refl) as (sps & E & F). rewrite E. cbn [bind].
      rewrite (F : filter (fun sp => match ns_norm (sp_ns sp) with [] => false | _ => true end) sps = []).
      cbn. eexists. split; [reflexivity|]. split; [reflexivity|]. split; [split; constructor|constructor].
    - rewrite <- Es in *. assert (Ne : ns_norm (new_ns s) <> []) by (cbn [ns_norm new_ns]; congruence).
      destruct (indices_ok sort_start sort_id HS HI s set (new_ns s) M P Ne) as (l & sps & E & Pc & B & G & S1 & T & N1 & K).
      rewrite E. cbn [bind]. fold nonempty. rewrite (filter_true _ _ N1). rewrite app_nil_r. eexists. split; [reflexivity|]. split; [reflexivity|].
      cbn [pt_splits]. destruct (pieces_zones _ _ _ Pc) as (Z1 & Z2 & _).
      pose proof (clean_valid s C) as V. assert (Q : Forall2 (fun z sp => untouched (sp_ns sp) /\ ns_shift (sp_ns sp) = fst z /\
        ns_shift (sp_ns sp) + zlen (ns_orig (sp_ns sp)) = snd z) (map snd l) sps).
      { destruct P as (W & O & _). exact (slices_untouched (new_ns s) l sps 0 W O (new_untouched s V) eq_refl K Z2 B). }
      split; [|clear -Q; induction Q as [|z sp zs sps H Q IH]; [constructor|]; constructor; [apply H|exact IH]].
      split; [exact G|].
      clear -Q Z1. revert Z1. generalize dependent (map snd l). intros zs Q. induction Q as [|z sp zs sps H Q IH]; intros Z1; [constructor|].
      inversion Z1 as [|? ? X1 X2]; subst. constructor; [|now apply IH]. clear -H X1 Q. induction Q as [|z' sp' zs sps H' Q IH]; [constructor|].
      inversion X1; subst. constructor; [lia|now apply IH].
  Qed.

  Lemma apply_ok t orig n m : with_default normalizer_ok (tk_normalizer t) -> in_place orig n -> untouched n -> apply_normalizer (tk_normalizer t) n = Ok m ->
    in_place orig m /\ ns_orig m = ns_orig n /\ ns_shift m = ns_shift n.
  Proof.
    unfold apply_normalizer. destruct (tk_normalizer t) as [f|]; cbn [with_default].
    - intros H P U E. apply (H orig n m P U). destruct (f n); congruence.
    - intros _ P _ [= <-]. auto.
  Qed.

  Lemma apart_zones orig l news : apart orig l ->
    Forall2 (fun sp new => all_good orig new /\ ordered (all_sources new) /\
      Forall (fun p => ns_shift (sp_ns sp) <= fst p /\ fst p <= snd p /\ snd p <= ns_shift (sp_ns sp) + zlen (ns_orig (sp_ns sp))) (all_sources new)) l news ->
    all_good orig (concat news) /\ ordered (all_sources (concat news)).
  Proof.
    intros [G A] F. split.
    - clear A G. induction F as [|sp new l news (G & _) F IH]; [constructor|]. cbn. apply Forall_app. split; assumption.
    - rewrite all_sources_concat. apply (ordered_zones (map (fun sp => (ns_shift (sp_ns sp), ns_shift (sp_ns sp) + zlen (ns_orig (sp_ns sp)))) l)).
      + clear -F. induction F as [|sp new l news (_ & O & I) F IH]; [constructor|]. cbn [map]. constructor; [|exact IH]. cbn. auto.
      + clear -A. induction A as [|sp l H A IH]; [constructor|]. cbn [map]. constructor; [|exact IH]. apply Forall_map. exact H.
  Qed.

  Lemma extract_laid t s p : matching_ok (tk_raw t) -> matching_ok (tk_normalized t) -> with_default normalizer_ok (tk_normalizer t) ->
    clean s -> extract_and_normalize sort_start sort_id t s = Ok p ->
    laid p /\ pt_orig p = s /\ (tk_normalizer t = None -> Forall (fun sp => untouched (sp_ns sp)) (pt_splits p)).
  Proof.
    intros M1 M2 N C. unfold extract_and_normalize. destruct (raw_apart (tk_raw t) s M1 C) as (p1 & E1 & O1 & A1 & U1). rewrite E1. cbn [bind].
    unfold pt_split. destruct (split_pieces _ 0 (pt_splits p1)) as [l'| | | |] eqn:E; cbn [bind]; try discriminate. intros [= <-].
    destruct (split_pieces_news _ _ _ _ E) as (news & -> & F). clear E E1. split; [|split; [exact O1|]].
    2:{ cbn [pt_splits]. intros Nn. rewrite Nn in F. destruct A1 as [G _]. apply Forall_concat. induction F as [|sp new l news H F IH]; [constructor|].
        inversion G as [|? ? [P T] G']; subst. inversion U1 as [|? ? Us U1']; subst. constructor; [|now apply IH].
        destruct (sp_toks sp) as [tk|]; [subst new; constructor; [exact Us|constructor]|]. destruct H as (i & new0 & H & ->). cbn [apply_normalizer bind] in H.
        exact (indices_untouched _ _ _ _ M2 P Us H). }
    unfold laid. cbn [pt_splits pt_orig]. rewrite O1. apply (apart_zones s (pt_splits p1)); [exact A1|].
    destruct A1 as [G _]. induction F as [|sp new l news H F IH]; [constructor|]. inversion G as [|? ? [P T] G']; subst. inversion U1 as [|? ? Us U1']; subst.
    constructor; [|now apply IH].
    destruct (sp_toks sp) as [tk|] eqn:Et.
    - subst new. destruct (own_piece _ _ P T) as (X1 & X2 & X3). split; [exact X1|]. split; [exact X2|]. unfold all_sources. cbn. rewrite app_nil_r.
      eapply sources_zone, P.
    - destruct H as (i & new0 & H & ->). destruct (apply_normalizer (tk_normalizer t) (sp_ns sp)) as [m| | | |] eqn:Em; cbn [bind] in H; try discriminate.
      destruct (apply_ok t _ _ m N P Us Em) as (Pm & Om & Sm). destruct (indices_refine (tk_normalized t) _ m new0 M2 Pm H) as (X1 & X2 & X3).
      split; [exact X1|]. split; [exact X2|]. apply Forall_forall. intros x Hx. pose proof (sources_zone _ _ Pm) as Z.
      rewrite Forall_forall in Z. rewrite <- Om, <- Sm. apply Z, X3, Hx.
  Qed.

  Lemma text_laid t ty wi ot s e : components_ok t -> clean s -> encode_text sort_start sort_id t ty wi ot s = Ok e ->
    exists p, laid p /\ pt_orig p = s /\ into_encoding p ty wi ot = Ok e.
  Proof.
    intros (M1 & M2 & N & Pr & Md) C. unfold encode_text, do_tokenize.
    destruct (extract_and_normalize sort_start sort_id t s) as [p| | | |] eqn:E1; cbn [bind]; try discriminate.
    destruct (extract_laid t s p M1 M2 N C E1) as (L1 & O1 & U1).
    destruct (match tk_pre t with None => Ok p | Some f => f p end) as [p2| | | |] eqn:E2; cbn [bind]; try discriminate.
    assert (X2 : laid p2 /\ pt_orig p2 = s).
    { destruct (tk_pre t) as [f|]; [|injection E2 as <-; auto]. destruct Pr as [Pr|[Nn Pr]].
      - destruct (Pr p p2 L1 E2) as [L2 O2]. split; congruence.
      - destruct (Pr p p2 L1 (U1 Nn) E2) as [L2 O2]. split; congruence. }
    destruct X2 as [L2 O2].
    destruct (pt_tokenize _ p2) as [p3| | | |] eqn:E3; cbn [bind]; try discriminate. intros E4.
    exists p3. match type of E3 with pt_tokenize ?g _ = _ => destruct (tokenize_laid g p2 p3) as [L3 O3]; [|exact L2|exact E3|] end.
    { intros n toks Cn Nn. destruct (tk_model t) as [f|]; [|discriminate]. intros Ef. exact (Md _ _ Cn Nn Ef). }
    split; [exact L3|]. split; [congruence|exact E4].
  Qed.

  Lemma text_offsets t ty wi s e : components_ok t -> clean s -> encode_text sort_start sort_id t ty wi OByte s = Ok e ->
    Forall (inside (zlen s)) (offsets e) /\ ordered (offsets e) /\ overflowing e = [].
  Proof.
    intros K C E. destruct (text_laid _ _ _ _ _ _ K C E) as (p & L & O & I). split; [|split].
    - rewrite <- O. exact (into_inside _ _ _ _ L I).
    - exact (into_ordered _ _ _ _ L I).
    - destruct (into_ok _ _ _ _ _ I) as (rows & m & _ & -> & _). reflexivity.
  Qed.
End Extract.
