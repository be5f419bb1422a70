(** Proofs about normalized strings: well-formedness and order over histories. *)
From Verif Require Import Base Utf8Model Utf8Proofs SliceModel SliceProofs PatternModel PatternSpec
  PatternProofs NormalizedModel NormalizedSpec NormalizedProofs.
Local Open Scope Z_scope.

Lemma valid_encode_rune r : valid_utf8 (encode_rune r).
Proof.
  destruct (scalarb r) eqn:E.
  - exists [r]. split; [constructor; [now apply scalarb_spec|constructor]|]. cbn. now rewrite app_nil_r.
  - exists [rune_error]. split.
    + constructor; [|constructor]. unfold scalar, rune_error. lia.
    + unfold encode_rune at 1. rewrite E. unfold scalarb in E.
      destruct (N.ltb_spec r 128); [lia|]. destruct (N.ltb_spec r 2048); [lia|]. reflexivity.
Qed.
Lemma valid_encode rs : valid_utf8 (encode rs).
Proof.
  induction rs as [|r rs IH]; [exists []; split; [constructor|reflexivity]|].
  rewrite encode_cons. apply valid_utf8_app; [apply valid_encode_rune|exact IH].
Qed.

(** ** Well-formedness *)
Lemma Forall_firstn {A} (P : A -> Prop) k l : Forall P l -> Forall P (firstn k l).
Proof. intros H. rewrite <- (firstn_skipn k l), Forall_app in H. apply H. Qed.
Lemma Forall_skipn {A} (P : A -> Prop) k l : Forall P l -> Forall P (skipn k l).
Proof. intros H. rewrite <- (firstn_skipn k l), Forall_app in H. apply H. Qed.

Lemma transform_range_wf n r items initial n' :
  wf n -> valid_items items -> transform_range n r items initial = Ok n' -> wf n'.
Proof.
  intros (L & F & W) V E. apply transform_range_spec in E.
  destruct E as (nr & s & e & _ & -> & -> & B1 & B2 & B3 & Ho & _ & Hn & (extra & Ha & Le & Fe) & W').
  set (e := Z.min (r_end nr) (zlen (ns_al n))) in *. unfold wf. rewrite Ho, Hn, Ha.
  rewrite valid_items_text by assumption. split; [|split].
  - rewrite !app_length, !firstn_length, !skipn_length, items_len_text, Le, L. lia.
  - rewrite !Forall_app. repeat split; [now apply Forall_firstn| |now apply Forall_skipn].
    eapply Forall_impl; [|exact Fe]. intros p [->|Hp].
    + unfold inside. cbn. pose proof (zlen_nonneg (ns_orig n)). lia.
    + rewrite Forall_forall in F. now apply F.
  - rewrite <- Ho. now apply W'.
Qed.

Lemma valid_rune_items c rs : valid_items (map (fun r => (encode_rune r, c)) rs).
Proof. apply Forall_map, Forall_forall. intros r _. apply valid_encode_rune. Qed.
Lemma valid_segment_items seg : valid_items (segment_items seg).
Proof. destruct seg as [|r rs]; [constructor|]. constructor; [apply valid_encode_rune|apply valid_rune_items]. Qed.
Lemma valid_flat_map {A} (f : A -> list (str * Z)) l : (forall x, valid_items (f x)) -> valid_items (flat_map f l).
Proof. intros H. induction l as [|x l IH]; [constructor|]. cbn. apply Forall_app. split; [apply H|exact IH]. Qed.
Lemma valid_filter_items f rs : valid_items (fst (filter_items f rs)).
Proof.
  unfold filter_items. induction rs as [|r rs IH]; [constructor|]. cbn [fold_right].
  destruct (fold_right (filter_step f) ([], 0) rs) as [items removed]. cbn in *.
  destruct (f r); [constructor; [apply valid_encode_rune|exact IH]|exact IH].
Qed.
Lemma valid_strip_items rs l t : valid_items (strip_items rs l t).
Proof.
  unfold strip_items. apply valid_flat_map. intros [i r].
  destruct ((i <? l)%nat || _); [constructor|]. destruct (_ =? _)%nat; repeat constructor; apply valid_encode_rune.
Qed.

Lemma replace_step_wf content st m st' : wf (fst st) -> replace_step content st m = Ok st' -> wf (fst st').
Proof.
  destruct st as [n off]. cbn [fst]. intros W. unfold replace_step.
  destruct (snd m); [|intros [= <-]; exact W]. destruct (fst m) as [a b].
  destruct (zslice _ _ _) as [sub| | | |]; cbn [bind]; try discriminate.
  match goal with |- (do n' <- ?x; _) = _ -> _ => destruct x as [n'| | | |] eqn:E end; cbn [bind]; try discriminate.
  intros [= <-]. cbn [fst]. eapply transform_range_wf; [exact W| |exact E]. apply valid_rune_items.
Qed.
Lemma foldR_inv {A S} (P : S -> Prop) (f : S -> A -> res S) : (forall s x s', P s -> f s x = Ok s' -> P s') ->
  forall l s s', P s -> foldR f l s = Ok s' -> P s'.
Proof.
  intros H. induction l as [|x l IH]; cbn [foldR]; intros s s' Ps E; [now injection E as <-|].
  destruct (f s x) as [s1| | | |] eqn:E1; cbn [bind] in E; try discriminate E.
  eapply IH; [eapply H; eassumption|exact E].
Qed.
Lemma foldR_inv_In {A S} (P : S -> Prop) (f : S -> A -> res S) l :
  (forall s x s', In x l -> P s -> f s x = Ok s' -> P s') ->
  forall s s', P s -> foldR f l s = Ok s' -> P s'.
Proof.
  induction l as [|x l IH]; cbn [foldR]; intros H s s' Ps E; [now injection E as <-|].
  destruct (f s x) as [s1| | | |] eqn:E1; cbn [bind] in E; try discriminate E.
  eapply IH; [|eapply H; [now left| |]; eassumption|exact E].
  intros s2 y s3 Hy. apply H. now right.
Qed.

Lemma run_op_wf o n n' : op_ok o -> wf n -> run_op o n = Ok n' -> wf n'.
Proof.
  assert (T : forall items initial, valid_items items -> wf n -> transform n items initial = Ok n' -> wf n').
  { intros items initial V W E. eapply transform_range_wf; eassumption. }
  destruct o; cbn [op_ok run_op]; intros Ok_ W E.
  - eapply transform_range_wf; eassumption.
  - eapply T; eassumption.
  - eapply T; [|exact W|exact E]. apply valid_flat_map, valid_segment_items.
  - unfold nfc in E. destruct (is_nfc (ns_norm n)); [now injection E as <-|].
    eapply T; [|exact W|exact E]. apply valid_flat_map, valid_segment_items.
  - unfold nfkc in E. destruct (is_nfkc _); [now injection E as <-|].
    eapply T; [|exact W|exact E]. apply valid_flat_map. intros [|x [|y l]]; repeat constructor;
      [apply valid_encode_rune|apply valid_encode].
  - unfold ns_filter in E. pose proof (valid_filter_items f (runes (ns_norm n))) as V.
    destruct (filter_items _ _) as [items removed]. eapply T; [|exact W|exact E]. exact V.
  - unfold ns_prepend in E. destruct (runes (ns_norm n)) as [|next rs]; [now injection E as <-|].
    eapply transform_range_wf; [exact W| |exact E]. unfold prepend_items. apply Forall_app. split.
    + destruct (runes s) as [|r rs']; [constructor|]. constructor; [apply valid_encode_rune|apply valid_rune_items].
    + repeat constructor. apply valid_encode_rune.
  - unfold ns_append in E. destruct (ns_norm n) as [|b t] eqn:En; [now injection E as <-|].
    destruct (last_rune _ _ _) as [i r]. eapply transform_range_wf; [exact W| |exact E].
    constructor; [apply valid_encode_rune|apply valid_rune_items].
  - eapply T; [|exact W|exact E]. apply valid_rune_items.
  - injection E as <-. destruct W as (L & F & W). unfold wf. cbn. now rewrite Ok_.
  - injection E as <-. destruct W as (L & F & W). unfold wf. cbn. now rewrite Ok_.
  - eapply T; [|exact W|exact E]. constructor.
  - unfold lrstrip in E. destruct (_ || _); [|now injection E as <-].
    eapply T; [|exact W|exact E]. apply valid_strip_items.
  - unfold ns_replace in E. destruct (find_matches p (ns_norm n)) as [ms| | | |]; cbn [bind] in E; try discriminate E.
    destruct (foldR (replace_step content) ms (n, 0)) as [st| | | |] eqn:Ef; cbn [bind] in E; try discriminate E.
    injection E as <-. refine (foldR_inv (fun st => wf (fst st)) (replace_step content) _ ms (n, 0) st W Ef).
    intros s x s'. apply replace_step_wf.
Qed.

Lemma run_ops_wf os n n' : Forall op_ok os -> wf n -> run_ops os n = Ok n' -> wf n'.
Proof.
  intros H W. unfold run_ops. eapply (foldR_inv_In wf); [|exact W].
  intros s o s' Ho Ws E. rewrite Forall_forall in H. eapply run_op_wf; eauto.
Qed.

(** The original text and the shift never change. *)
Lemma run_op_original o n n' : run_op o n = Ok n' -> ns_orig n' = ns_orig n /\ ns_shift n' = ns_shift n.
Proof.
  assert (T : forall m r items initial n', transform_range m r items initial = Ok n' ->
              ns_orig n' = ns_orig m /\ ns_shift n' = ns_shift m).
  { intros m r items initial m' E. apply transform_range_spec in E.
    destruct E as (nr & s & e & _ & _ & _ & _ & _ & _ & Ho & Hs & _). auto. }
  destruct o; cbn [run_op]; intros E; try (unfold nfd, ns_map, ns_clear, transform in E; eapply T; exact E);
    try (injection E as <-; cbn; auto; fail).
  - unfold nfc in E. destruct (is_nfc (ns_norm n)); [now injection E as <-|]. try unfold transform in E; eapply T; exact E.
  - unfold nfkc in E. destruct (is_nfkc _); [now injection E as <-|]. try unfold transform in E; eapply T; exact E.
  - unfold ns_filter in E. destruct (filter_items _ _) as [items removed]. try unfold transform in E; eapply T; exact E.
  - unfold ns_prepend in E. destruct (runes (ns_norm n)) as [|next rs]; [now injection E as <-|]. try unfold transform in E; eapply T; exact E.
  - unfold ns_append in E. destruct (ns_norm n) as [|b t] eqn:En; [now injection E as <-|].
    destruct (last_rune _ _ _) as [i r]. try unfold transform in E; eapply T; exact E.
  - unfold lrstrip in E. destruct (_ || _); [|now injection E as <-]. try unfold transform in E; eapply T; exact E.
  - unfold ns_replace in E. destruct (find_matches p (ns_norm n)) as [ms| | | |]; cbn [bind] in E; try discriminate E.
    destruct (foldR (replace_step content) ms (n, 0)) as [st| | | |] eqn:Ef; cbn [bind] in E; try discriminate E.
    injection E as <-.
    refine (foldR_inv (fun st => ns_orig (fst st) = ns_orig n /\ ns_shift (fst st) = ns_shift n)
             (replace_step content) _ ms (n, 0) st (conj eq_refl eq_refl) Ef).
    intros [m off] x s' [H1 H2] Es. unfold replace_step in Es.
    destruct (snd x); [|injection Es as <-; auto]. destruct (fst x) as [a b].
    destruct (zslice _ _ _) as [sub| | | |]; cbn [bind] in Es; try discriminate Es.
    match type of Es with (do n' <- ?x; _) = _ => destruct x as [m'| | | |] eqn:Em end; cbn [bind] in Es; try discriminate Es.
    injection Es as <-. apply T in Em. cbn [fst] in *. intuition congruence.
Qed.
Lemma run_ops_original os n n' : run_ops os n = Ok n' -> ns_orig n' = ns_orig n /\ ns_shift n' = ns_shift n.
Proof.
  unfold run_ops. eapply (foldR_inv (fun m => ns_orig m = ns_orig n /\ ns_shift m = ns_shift n)); [|auto].
  intros s o s' [H1 H2] E. apply run_op_original in E. intuition congruence.
Qed.

(** ** A fresh string *)
Lemma aligns_from_length rs : forall cur, length (aligns_from rs cur) = length (encode rs).
Proof.
  induction rs as [|r rs IH]; intros cur; [reflexivity|]. cbn [aligns_from].
  now rewrite encode_cons, !app_length, repeat_length, IH.
Qed.
Lemma aligns_from_inside rs : forall cur, Forall (fun p => cur <= fst p /\ fst p <= snd p /\ snd p <= cur + zlen (encode rs)) (aligns_from rs cur).
Proof.
  induction rs as [|r rs IH]; intros cur; [constructor|]. cbn [aligns_from]. rewrite encode_cons, zlen_app.
  pose proof (zlen_nonneg (encode rs)). unfold zlen in *. apply Forall_app. split.
  - apply Forall_forall. intros p Hp. apply repeat_spec in Hp. subst p. cbn. lia.
  - eapply Forall_impl; [|apply IH]. cbn. intros; lia.
Qed.
Lemma addrs_from_length rs : forall a, length (addrs_from rs a) = length (encode rs).
Proof.
  induction rs as [|r rs IH]; intros a; [reflexivity|]. cbn [addrs_from].
  now rewrite encode_cons, !app_length, repeat_length, IH.
Qed.
Lemma cells_from_length rs : forall a, length (cells_from rs a) = length rs.
Proof. induction rs as [|r rs IH]; intros a; [reflexivity|]. cbn. now rewrite IH. Qed.
Lemma addrs_from_bound rs : forall a, Forall (fun x => (a <= x < a + length rs)%nat) (addrs_from rs a).
Proof.
  induction rs as [|r rs IH]; intros a; [constructor|]. cbn [addrs_from length]. apply Forall_app. split.
  - apply Forall_forall. intros x Hx. apply repeat_spec in Hx. lia.
  - eapply Forall_impl; [|apply IH]. cbn. intros; lia.
Qed.

Lemma new_ns_wf s : valid_utf8 s -> wf (new_ns s).
Proof.
  intros V. apply valid_utf8_runes in V. unfold wf, new_ns, create_aligns. cbn.
  rewrite aligns_from_length, addrs_from_length, V. repeat split.
  - eapply Forall_impl; [|apply aligns_from_inside]. cbn. rewrite V. unfold inside. intros p H. lia.
  - rewrite cells_from_length. eapply Forall_impl; [|apply addrs_from_bound]. cbn. intros; lia.
Qed.
Lemma new_ns_invalid s : ~ valid_utf8 s -> ~ aligned (new_ns s).
Proof.
  intros V [L _]. apply invalid_longer in V. revert L. unfold new_ns, create_aligns. cbn.
  rewrite aligns_from_length. lia.
Qed.

(** ** Order *)
Lemma ple_refl p : ple p p.
Proof. unfold ple. lia. Qed.
Lemma ple_trans p q r : ple p q -> ple q r -> ple p r.
Proof. unfold ple. lia. Qed.

Lemma ordered_nil : ordered [].
Proof. intros i j p q _ E. destruct i; discriminate E. Qed.
Lemma ordered_app a b : ordered a -> ordered b -> (forall x y, In x a -> In y b -> ple x y) -> ordered (a ++ b).
Proof.
  intros Ha Hb H i j p q Hij Ei Ej.
  destruct (Nat.lt_ge_cases j (length a)) as [Lj|Lj].
  - rewrite nth_error_app1 in Ei, Ej by lia. exact (Ha i j p q Hij Ei Ej).
  - rewrite nth_error_app2 in Ej by lia. destruct (Nat.lt_ge_cases i (length a)) as [Li|Li].
    + rewrite nth_error_app1 in Ei by lia. apply H; eapply nth_error_In; eassumption.
    + rewrite nth_error_app2 in Ei by lia. refine (Hb _ _ p q _ Ei Ej). lia.
Qed.
Lemma ordered_repeat p k : ordered (repeat p k).
Proof.
  intros i j x y _ Ei Ej. apply nth_error_In in Ei, Ej. apply repeat_spec in Ei, Ej. subst. apply ple_refl.
Qed.
Lemma nth_error_skipn' {A} (l : list A) k i : nth_error (skipn k l) i = nth_error l (k + i).
Proof. revert l; induction k as [|k IH]; intros [|x l]; cbn; auto. now destruct i. Qed.
Lemma nth_error_firstn_some {A} (l : list A) k i x : nth_error (firstn k l) i = Some x ->
  (i < k)%nat /\ nth_error l i = Some x.
Proof.
  revert l i; induction k as [|k IH]; intros [|y l] [|i]; cbn; try discriminate.
  - intros [= <-]. split; [lia|reflexivity].
  - intros E. apply IH in E. split; [lia|apply E].
Qed.
Lemma ordered_firstn l k : ordered l -> ordered (firstn k l).
Proof.
  intros H i j p q Hij Ei Ej. apply nth_error_firstn_some in Ei, Ej. eapply H; [exact Hij|apply Ei|apply Ej].
Qed.
Lemma ordered_skipn l k : ordered l -> ordered (skipn k l).
Proof. intros H i j p q Hij. rewrite !nth_error_skipn'. apply H. lia. Qed.
Lemma ordered_part l i j : ordered l -> ordered (part i j l).
Proof. intros H. unfold part. now apply ordered_firstn, ordered_skipn. Qed.

Lemma aligns_from_ordered rs : forall cur, ordered (aligns_from rs cur).
Proof.
  induction rs as [|r rs IH]; intros cur; [apply ordered_nil|]. cbn [aligns_from].
  apply ordered_app; [apply ordered_repeat|apply IH|]. intros x y Hx Hy. apply repeat_spec in Hx. subst x.
  pose proof (aligns_from_inside rs (cur + Z.of_nat (length (encode_rune r)))) as F.
  rewrite Forall_forall in F. specialize (F y Hy). unfold ple. cbn. lia.
Qed.
Lemma new_ns_ordered s : ordered (ns_al (new_ns s)).
Proof. apply aligns_from_ordered. Qed.

(** Sizes of what is taken from the iterator. *)
Definition bytes (rs : list N) : Z := zlen (encode rs).
Lemma bytes_cons r rs : bytes (r :: rs) = zlen (encode_rune r) + bytes rs.
Proof. unfold bytes. rewrite encode_cons. apply zlen_app. Qed.
Lemma bytes_nonneg rs : 0 <= bytes rs.
Proof. apply zlen_nonneg. Qed.
Lemma zlen_rune r : 1 <= zlen (encode_rune r).
Proof. unfold zlen. pose proof (encode_rune_length r). lia. Qed.
Lemma bytes_app a b : bytes (a ++ b) = bytes a + bytes b.
Proof. unfold bytes. rewrite encode_app. apply zlen_app. Qed.

Lemma take_removed_spec k : forall rs, (k <= length rs)%nat ->
  take_removed k rs = (bytes (firstn k rs), skipn k rs).
Proof.
  induction k as [|k IH]; intros rs H; [reflexivity|]. destruct rs as [|r rs]; [cbn in H; lia|].
  cbn [take_removed next_rune firstn skipn]. cbn in H. rewrite IH by lia. now rewrite bytes_cons.
Qed.
Lemma take_removed_nonneg k : forall rs, 0 <= fst (take_removed k rs).
Proof.
  induction k as [|k IH]; intros rs; [cbn; lia|]. cbn [take_removed].
  destruct (next_rune rs) as [c rs1]. specialize (IH rs1). destruct (take_removed k rs1) as [t rs2].
  cbn in *. pose proof (zlen_rune c). lia.
Qed.

Lemma consumed_cons s c items : consumed ((s, c) :: items) = (if 0 <? c then 0 else 1 - c) + consumed items.
Proof. reflexivity. Qed.
Lemma consumed_nonneg items : 0 <= consumed items.
Proof.
  induction items as [|[s c] items IH]; [cbn; lia|]. rewrite consumed_cons. destruct (Z.ltb_spec 0 c); lia.
Qed.

(** Iterator in step: nothing is missing and there is no NUL. *)
Lemma item_sizes_sync c rs : (if 0 <? c then 0 else 1 - c) <= zlen rs -> Forall (fun r => r <> 0%N) rs ->
  exists k size total, item_sizes c rs = (size, total, skipn k rs) /\
    Z.of_nat k = (if 0 <? c then 0 else 1 - c) /\
    (k <= length rs)%nat /\ size + total = bytes (firstn k rs) /\ 0 <= total /\
    (0 < c -> size = 0 /\ total = 0) /\ (c <= 0 -> 1 <= size).
Proof.
  intros H NZ. unfold item_sizes. destruct (Z.ltb_spec 0 c) as [Hc|Hc].
  - replace (c <=? 0) with false by lia. cbn [N.eqb]. replace (Z.to_nat (- c)) with 0%nat by lia.
    exists 0%nat, 0, 0. cbn. repeat split; lia.
  - replace (c <=? 0) with true by lia. destruct rs as [|r rs]; [unfold zlen in H; cbn [length] in H; lia|].
    cbn [next_rune]. inversion NZ; subst. destruct (N.eqb_spec r 0); [congruence|].
    unfold zlen in H. cbn [length] in H.
    rewrite take_removed_spec by lia.
    exists (S (Z.to_nat (- c))), (zlen (encode_rune r)), (bytes (firstn (Z.to_nat (- c)) rs)).
    cbn [skipn firstn length]. rewrite bytes_cons. pose proof (zlen_rune r).
    pose proof (bytes_nonneg (firstn (Z.to_nat (- c)) rs)). repeat split; lia.
Qed.

Section Order.
  Variable al : list (Z * Z).
  Hypothesis Hord : ordered al.
  Hypothesis Hpos : Forall (fun p => 0 <= fst p /\ 0 <= snd p) al.

  Lemma zero_ple p : In p al -> ple (0, 0) p.
  Proof. intros H. rewrite Forall_forall in Hpos. specialize (Hpos p H). unfold ple. cbn. lia. Qed.

  (** Everything emitted is at most the alignment of every byte from [off-1] on. *)
  Definition below (off : Z) (l : list (Z * Z)) : Prop :=
    forall x k y, In x l -> nth_error al k = Some y ->
      Z.min (off - 1) (zlen al - 1) <= Z.of_nat k -> ple x y.
  (** Everything emitted comes from positions at least [lo-1]. *)
  Definition above (lo : Z) (l : list (Z * Z)) : Prop :=
    forall x k y, In x l -> nth_error al k = Some y -> Z.of_nat k <= lo - 1 -> ple y x.

  Lemma t_loop_order items : forall st st' lo,
    foldR (t_item al) items st = Ok st' ->
    consumed items <= zlen (t_runes st) -> Forall (fun r => r <> 0%N) (t_runes st) ->
    0 <= lo <= t_off st ->
    ordered (t_al st) -> below (t_off st) (t_al st) -> above lo (t_al st) ->
    (t_off st < 1 -> Forall (fun p => p = (0, 0)) (t_al st)) ->
    ordered (t_al st') /\ below (t_off st') (t_al st') /\ above lo (t_al st') /\
    t_off st' + bytes (t_runes st') = t_off st + bytes (t_runes st) /\
    (Forall (fun it => 0 < snd it) items -> t_off st' = t_off st).
  Proof.
    induction items as [|[s c] items IH]; cbn [foldR]; intros st st' lo E C NZ Hlo O B Ab Z0.
    - injection E as <-. do 4 (split; [assumption || reflexivity|]). reflexivity.
    - destruct (t_item al st (s, c)) as [st1| | | |] eqn:E1; cbn [bind] in E; try discriminate E.
      apply t_item_spec in E1. destruct E1 as (align & Ha & Al & _ & Sz & _).
      rewrite consumed_cons in C. pose proof (consumed_nonneg items) as Cn.
      destruct (item_sizes_sync c (t_runes st) ltac:(lia) NZ) as (k & size & total & Es & Hk & Hkl & Hb & Ht & Hi & Hr).
      rewrite Es in Sz. destruct Sz as (R1 & O1 & _).
      assert (Hoff : t_off st <= t_off st1 /\ (c <= 0 -> t_off st + 1 <= t_off st1) /\ (0 < c -> t_off st1 = t_off st)).
      { clear -Ht Hi Hr O1. destruct (Z.ltb_spec 0 c) as [Hc|Hc]; [specialize (Hi Hc)|specialize (Hr Hc)]; repeat split; intros; lia. }
      destruct Hoff as (Of1 & Of2 & Of3).
      assert (Hal : ordered (t_al st1) /\ below (t_off st1) (t_al st1) /\ above lo (t_al st1) /\
                    (t_off st1 < 1 -> Forall (fun p => p = (0, 0)) (t_al st1))).
      { rewrite Al. unfold item_align in Ha. destruct (Z.ltb_spec 0 c) as [Hc|Hc].
        - specialize (Of3 Hc). rewrite Of3. destruct (Z.ltb_spec (t_off st) 1) as [H1|H1].
          + injection Ha as <-. specialize (Z0 H1).
            assert (Z1 : Forall (fun p => p = (0, 0)) (t_al st ++ repeat (0, 0) (length s))).
            { apply Forall_app. split; [exact Z0|]. apply Forall_forall. intros x Hx. now apply repeat_spec in Hx. }
            split; [|split; [|split]].
            * assert (G : t_al st ++ repeat (0, 0) (length s) = repeat (0, 0) (length (t_al st ++ repeat (0, 0) (length s)))).
              { clear -Z1. induction Z1 as [|x l Hx _ IHl]; [reflexivity|]. cbn. now rewrite <- IHl, Hx. }
              rewrite G. apply ordered_repeat.
            * intros x k' y Hx Hy _. rewrite Forall_forall in Z1. rewrite (Z1 x Hx). apply zero_ple.
              eapply nth_error_In, Hy.
            * intros x k' y Hx Hy Hk'. exfalso. lia.
            * intros _. exact Z1.
          + apply zindex_ok in Ha. destruct Ha as [Hr1 Ha].
            assert (Bx : forall x, In x (t_al st) -> ple x align).
            { intros x Hx. eapply B; [exact Hx|exact Ha|]. lia. }
            split; [|split; [|split]].
            * apply ordered_app; [exact O|apply ordered_repeat|]. intros x y Hx Hy. apply repeat_spec in Hy. subst y. now apply Bx.
            * intros x k' y Hx Hy Hk'. apply in_app_or in Hx. destruct Hx as [Hx|Hx]; [now apply (B x k' y)|].
              apply repeat_spec in Hx. subst x. refine (Hord _ _ _ _ _ Ha Hy). lia.
            * intros x k' y Hx Hy Hk'. apply in_app_or in Hx. destruct Hx as [Hx|Hx]; [now apply (Ab x k' y)|].
              apply repeat_spec in Hx. subst x. refine (Hord _ _ _ _ _ Hy Ha). lia.
            * intros; lia.
        - specialize (Of2 Hc).
          assert (Hm : exists m, nth_error al m = Some align /\ Z.of_nat m = Z.min (t_off st) (zlen al - 1)).
          { destruct (Z.leb_spec (zlen al) (t_off st)) as [Hl|Hl]; apply zindex_ok in Ha; destruct Ha as [Hr1 Ha];
              eexists; (split; [exact Ha|]); lia. }
          destruct Hm as (m & Hm & Em).
          assert (Bx : forall x, In x (t_al st) -> ple x align).
          { intros x Hx. eapply B; [exact Hx|exact Hm|]. lia. }
          split; [|split; [|split]].
          * apply ordered_app; [exact O|apply ordered_repeat|]. intros x y Hx Hy. apply repeat_spec in Hy. subst y. now apply Bx.
          * intros x k' y Hx Hy Hk'. apply in_app_or in Hx. destruct Hx as [Hx|Hx].
            -- apply (B x k' y Hx Hy). lia.
            -- apply repeat_spec in Hx. subst x. refine (Hord _ _ _ _ _ Hm Hy). lia.
          * intros x k' y Hx Hy Hk'. apply in_app_or in Hx. destruct Hx as [Hx|Hx]; [now apply (Ab x k' y)|].
            apply repeat_spec in Hx. subst x. refine (Hord _ _ _ _ _ Hy Hm).
            assert (k' < length al)%nat by (apply nth_error_Some; congruence). unfold zlen in Em. lia.
          * intros; lia. }
      destruct Hal as (O' & B' & A' & Z').
      assert (C1 : consumed items <= zlen (t_runes st1)).
      { rewrite R1. unfold zlen in *. rewrite skipn_length. lia. }
      assert (NZ1 : Forall (fun r => r <> 0%N) (t_runes st1)) by (rewrite R1; now apply Forall_skipn).
      destruct (IH st1 st' lo E C1 NZ1 ltac:(lia) O' B' A' Z') as (P1 & P2 & P3 & P4 & P5).
      split; [exact P1|split; [exact P2|split; [exact P3|split]]].
      + rewrite P4, R1, O1. rewrite <- (firstn_skipn k (t_runes st)) at 2. rewrite bytes_app. lia.
      + intros F. inversion F as [|x xs F1 F2]; subst. rewrite (P5 F2). apply Of3. exact F1.
  Qed.
End Order.

Lemma bytes_fold rs : fold_right (fun c k => zlen (encode_rune c) + k) 0 rs = bytes rs.
Proof. induction rs as [|r rs IH]; [reflexivity|]. now rewrite bytes_cons, <- IH. Qed.

Lemma transform_range_ordered n r items initial n' nr :
  wf n -> ordered (ns_al n) -> transform_range n r items initial = Ok n' ->
  target n r = Ok (Some nr) ->
  let s := r_start nr in let e := Z.min (r_end nr) (zlen (ns_norm n)) in
  let sel := part s e (ns_norm n) in
  valid_utf8 sel -> Forall (fun c => c <> 0%N) (runes sel) -> consumed items <= zlen (runes sel) ->
  (initial = 0 \/ e = zlen (ns_norm n) \/ Forall (fun it => 0 < snd it) items) ->
  ordered (ns_al n').
Proof.
  intros W O E T. assert (WL : zlen (ns_al n) = zlen (ns_norm n)) by (unfold zlen; f_equal; apply W).
  revert E. unfold transform_range. fold (target n r). rewrite T. cbn [bind].
  cbn zeta. set (s := r_start nr).
  replace (if zlen (ns_al n) <? r_end nr then zlen (ns_al n) else r_end nr)
    with (Z.min (r_end nr) (zlen (ns_norm n))) by (rewrite <- WL; destruct (Z.ltb_spec (zlen (ns_al n)) (r_end nr)); lia).
  set (e := Z.min (r_end nr) (zlen (ns_norm n))).
  destruct (zslice (ns_norm n) s e) as [sel| | | |] eqn:Es; cbn [bind]; try discriminate.
  apply zslice_ok in Es. destruct Es as (Z1 & Z2 & Z3 & ->).
  set (sel := part s e (ns_norm n)).
  destruct (Z.ltb_spec (zlen (runes sel)) initial) as [|Hini]; [discriminate|].
  destruct (clear_chars (ns_al n) (ns_ao n) _ s 0 (e, ns_cells n)) as [[ess cells0]| | | |]; cbn [bind]; try discriminate.
  rewrite bytes_fold. set (removed := bytes (firstn (Z.to_nat initial) (runes sel))).
  match goal with |- (do st <- ?x; _) = _ -> _ => destruct x as [st| | | |] eqn:El end; cbn [bind]; try discriminate.
  destruct (end_shift _ ess _ _ _) as [[ao' cells']| | | |] eqn:Ee; cbn [bind]; try discriminate.
  intros [= <-] V NZ C Cond. cbn [ns_al].
  assert (Hpos : Forall (fun p => 0 <= fst p /\ 0 <= snd p) (ns_al n)).
  { destruct W as (_ & F & _). eapply Forall_impl; [|exact F]. unfold inside. intros; lia. }
  assert (Hrem : 0 <= removed /\ s + removed <= e).
  { subst removed. split; [apply bytes_nonneg|].
    assert (Hs : bytes (runes sel) = e - s).
    { unfold bytes. rewrite valid_utf8_runes by assumption. apply part_length; lia. }
    rewrite <- (firstn_skipn (Z.to_nat initial) (runes sel)), bytes_app in Hs.
    pose proof (bytes_nonneg (skipn (Z.to_nat initial) (runes sel))). lia. }
  destruct (t_loop_order (ns_al n) O Hpos _ _ _ s El) as (P1 & P2 & P3 & P4 & P5); cbn [t_runes t_off t_al]; auto.
  { lia. }
  { apply ordered_nil. }
  { intros x k y []. }
  { intros x k y []. }
  cbn [t_runes t_off] in P4, P5.
  assert (Hfin : t_off st <= e \/ e = zlen (ns_al n)).
  { destruct Cond as [-> | [He | Hins]]; [left|right; lia|left].
    - assert (Hr0 : removed = 0) by reflexivity.
      assert (Hs : bytes (runes sel) = e - s).
      { unfold bytes. rewrite valid_utf8_runes by assumption. apply part_length; lia. }
      pose proof (bytes_nonneg (t_runes st)). lia.
    - rewrite (P5 Hins). lia. }
  apply ordered_app; [now apply ordered_firstn| |].
  - apply ordered_app; [exact P1|now apply ordered_skipn|].
    intros x y Hx Hy. apply In_nth_error in Hy. destruct Hy as (k & Hy). rewrite nth_error_skipn' in Hy.
    assert (Z.to_nat e + k < length (ns_al n))%nat by (apply nth_error_Some; congruence). unfold zlen in Hfin.
    refine (P2 x _ y Hx Hy _). lia.
  - intros x y Hx Hy. apply In_nth_error in Hx. destruct Hx as (k & Hx).
    apply nth_error_firstn_some in Hx. destruct Hx as [Hk Hx]. apply in_app_or in Hy. destruct Hy as [Hy|Hy].
    + refine (P3 y k x Hy Hx _). lia.
    + apply In_nth_error in Hy. destruct Hy as (k' & Hy). rewrite nth_error_skipn' in Hy.
      refine (O _ _ _ _ _ Hx Hy). lia.
Qed.
