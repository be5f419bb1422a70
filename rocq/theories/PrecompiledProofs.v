(** Proofs about the precompiled normalizer (C51). *)
From Verif Require Import Base BaseProofs Utf8Model Utf8Proofs SliceModel SliceProofs NormalizedModel NormalizedSpec NormalizedProofs
  NormalizedInvProofs NormalizedExactProofs NormalizedOpProofs DecoderModel DecoderSpec DecoderProofs SpmModel SpmSpec SpmProofs.
Open Scope Z_scope.

(** ** Validity of the collected texts *)
Lemma hex_digit_ascii d : (d < 16)%N -> (hex_digit d < 128)%N.
Proof. unfold hex_digit. intros H. destruct (N.ltb_spec d 10); lia. Qed.
Lemma hex_of_ascii f : forall n, Forall (fun c => (c < 128)%N) (hex_of f n).
Proof.
  induction f as [|f IH]; intros n; cbn [hex_of]; [constructor|]. apply Forall_app. split.
  - destruct (n / 16 =? 0)%N; [constructor|apply IH].
  - constructor; [|constructor]. apply hex_digit_ascii, N.mod_lt. discriminate.
Qed.
Lemma ascii_valid s : Forall (fun c => (c < 128)%N) s -> valid_utf8 s.
Proof.
  intros F. exists s. split.
  - eapply Forall_impl; [|exact F]. intros c H. left. cbn beta in *. lia.
  - induction F as [|c s H F IH]; [reflexivity|]. rewrite encode_cons, <- IH. unfold encode_rune.
    destruct (N.ltb_spec c 0x80); [reflexivity|lia].
Qed.
Lemma percent_U_valid r : valid_utf8 (percent_U r).
Proof.
  apply ascii_valid. unfold percent_U. cbn zeta. cbn [app]. constructor; [lia|]. constructor; [lia|].
  apply Forall_app. split; [|apply hex_of_ascii]. apply Forall_forall. intros c H. apply repeat_spec in H. subst. lia.
Qed.
Lemma valid_rune r : scalar r -> valid_utf8 (encode_rune r).
Proof. intros H. exists [r]. split; [constructor; auto|]. unfold encode. cbn. now rewrite app_nil_r. Qed.
Lemma valid_nil : valid_utf8 [].
Proof. exists []. split; constructor. Qed.
Lemma normalize_mn_valid mn s : valid_utf8 (normalize_mn mn s).
Proof.
  unfold normalize_mn. pose proof (runes_scalar s) as F. induction F as [|r rs H F IH]; [apply valid_nil|].
  cbn [map concat]. apply valid_utf8_app; [|exact IH]. destruct (mn r); [apply percent_U_valid|now apply valid_rune].
Qed.
Lemma explode_valid s : valid_utf8 s -> Forall valid_utf8 (explode s).
Proof.
  intros [rs [F ->]]. rewrite explode_encode by exact F. apply Forall_forall. intros c H.
  apply in_map_iff in H as [r [<- H]]. apply valid_rune. rewrite Forall_forall in F. now apply F.
Qed.

Lemma items_text_app a b : items_text (a ++ b) = (items_text a ++ items_text b)%list.
Proof. unfold items_text. now rewrite map_app, concat_app. Qed.

Lemma replace_items_spec items old new items' : replace_items items old new = Ok items' ->
  items_text items' = (items_text items ++ new)%list /\
  (valid_items items -> valid_utf8 new -> valid_items items').
Proof.
  unfold replace_items. set (l := (items ++ map (fun c => (c, 0)) (explode new))%list).
  assert (T : items_text l = (items_text items ++ new)%list).
  { unfold l. rewrite items_text_app. f_equal. unfold items_text. rewrite map_map. cbn [fst]. rewrite map_id. apply explode_concat. }
  assert (V : valid_items items -> valid_utf8 new -> valid_items l).
  { intros V1 V2. unfold valid_items, l. apply Forall_app. split; [exact V1|]. apply Forall_forall. intros it H.
    apply in_map_iff in H as [c [<- H]]. cbn [fst]. pose proof (explode_valid new V2) as F. rewrite Forall_forall in F. now apply F. }
  assert (G : forall l', map fst l' = map fst l -> items_text l' = (items_text items ++ new)%list /\
     (valid_items items -> valid_utf8 new -> valid_items l')).
  { intros l' E. split; [unfold items_text in *; now rewrite E|]. intros V1 V2. specialize (V V1 V2).
    unfold valid_items in *. apply Forall_map in V. apply Forall_map. now rewrite E. }
  clearbody l.
  destruct (0 <? _); [|destruct (_ <? 0)].
  - intros [= <-]. apply G. rewrite map_map. reflexivity.
  - destruct (rev l) as [|[c k] r] eqn:Er; [discriminate|]. intros [= <-]. apply G.
    assert (El : l = (rev r ++ [(c, k)])%list) by (rewrite <- (rev_involutive l), Er; reflexivity).
    rewrite El, !map_app. reflexivity.
  - intros [= <-]. now apply G.
Qed.

Lemma start_items s : items_text (map (fun _ : N => (@nil N, 0)) s) = [] /\ valid_items (map (fun _ : N => (@nil N, 0)) s) /\
  Forall (fun it => snd it <= 0) (map (fun _ : N => (@nil N, 0)) s).
Proof.
  induction s as [|c s [A [B C]]]; [repeat split; constructor|]. cbn [map]. split; [exact A|].
  split; constructor; cbn; auto using valid_nil. lia.
Qed.

Lemma explode_length s : length (explode s) = length (runes s).
Proof.
  unfold explode, runes. rewrite map_length. generalize s at 2. induction (runes_w s) as [|[r w] l IH]; intros s0; [reflexivity|].
  cbn [map cut_widths length]. now rewrite IH.
Qed.

Section Normalizer.
  Context (mn : N -> bool) (arr : list N) (text : str).

  Lemma char_items_spec g rs : forall st st', Forall scalar rs ->
    char_items mn arr text g rs st = Ok st' ->
    exists outs, Forall2 (from_start mn arr text g) rs outs /\
      items_text (fst st') = (items_text (fst st) ++ concat outs)%list /\
      (valid_items (fst st) -> valid_items (fst st')).
  Proof.
    induction rs as [|r rs IH]; intros st st' Sc; cbn [char_items].
    - intros [= <-]. exists []. split; [constructor|]. cbn. rewrite app_nil_r. auto.
    - inversion Sc as [|x y Sr Srs]; subst.
      destruct (zslice g 0 (zlen (encode_rune r))) as [part0| | | |] eqn:Ep; cbn [bind]; try discriminate.
      apply zslice_ok in Ep. destruct Ep as (_ & _ & _ & ->). unfold part. rewrite Z.sub_0_r. cbn [Z.to_nat skipn].
      replace (Z.to_nat (zlen (encode_rune r))) with (length (encode_rune r)) by (unfold zlen; lia).
      destruct (spm_transform arr text (firstn (length (encode_rune r)) g)) as [n| | | |] eqn:Et; cbn [bind]; try discriminate.
      destruct (normalize_mn mn n) as [|x m] eqn:Em.
      + intros E. destruct (IH _ _ Srs E) as [outs [F [T V]]]. exists (encode_rune r :: outs). split; [|split].
        * constructor; [|exact F]. eapply fs_same; eassumption.
        * rewrite T. cbn [fst concat]. rewrite items_text_app. unfold items_text at 2. cbn. rewrite app_nil_r. now rewrite <- app_assoc.
        * intros V0. apply V. cbn [fst]. apply Forall_app. split; [exact V0|]. constructor; [now apply valid_rune|constructor].
      + rewrite <- Em. match goal with |- context [replace_items ?a ?b ?c] => destruct (replace_items a b c) as [items| | | |] eqn:Er end; cbn [bind]; try discriminate.
        intros E. destruct (IH _ _ Srs E) as [outs [F [T V]]]. cbn [fst] in T, V.
        destruct (replace_items_spec _ _ _ _ Er) as [T1 V1].
        exists (normalize_mn mn n :: outs). split; [|split].
        * constructor; [|exact F]. eapply fs_entry; [exact Et|]. rewrite Em. discriminate.
        * rewrite T, T1. cbn [concat]. now rewrite <- app_assoc.
        * intros V0. apply V, V1; [exact V0|apply normalize_mn_valid].
  Qed.

  Lemma grapheme_items_spec gs : forall st st', grapheme_items mn arr text gs st = Ok st' ->
    exists outs, Forall2 (normalizer_rewritten mn arr text) gs outs /\
      items_text (fst st') = (items_text (fst st) ++ concat outs)%list /\
      ((forall chunk out, spm_transform arr text chunk = Ok out -> valid_utf8 out) -> valid_items (fst st) -> valid_items (fst st')).
  Proof.
    induction gs as [|g gs IH]; intros st st'; cbn [grapheme_items].
    - intros [= <-]. exists []. split; [constructor|]. cbn. rewrite app_nil_r. auto.
    - destruct (short_entry arr text g) as [n| | | |] eqn:Es; cbn [bind]; try discriminate.
      unfold short_entry in Es. destruct n as [|x n].
      + set (g' := normalize_mn mn g). destruct (char_items mn arr text g' (runes g') st) as [st1| | | |] eqn:Ec; cbn [bind]; try discriminate.
        intros E. destruct (IH _ _ E) as [outs [F [T V]]].
        destruct (char_items_spec g' (runes g') st st1 (runes_scalar _) Ec) as [os [F1 [T1 V1]]].
        exists (concat os :: outs). split; [|split].
        * constructor; [|exact F]. apply nr_chars; [|exact F1]. intros L. destruct (Z.ltb_spec (zlen g) 6); [exact Es|lia].
        * rewrite T, T1. cbn [concat]. now rewrite <- app_assoc.
        * auto.
      + match goal with |- context [replace_items ?a ?b ?c] => destruct (replace_items a b c) as [items| | | |] eqn:Er end; cbn [bind]; try discriminate.
        intros E. destruct (IH _ _ E) as [outs [F [T V]]]. cbn [fst] in T, V.
        destruct (replace_items_spec _ _ _ _ Er) as [T1 V1].
        destruct (Z.ltb_spec (zlen g) 6) as [L|L]; [|discriminate].
        exists ((x :: n) :: outs). split; [|split].
        * constructor; [|exact F]. apply nr_whole; [exact L|exact Es|discriminate].
        * rewrite T, T1. cbn [concat]. now rewrite <- app_assoc.
        * intros Ent V0. apply V; [exact Ent|]. apply V1; [exact V0|]. eapply Ent, Es.
  Qed.

  Context (graphemes : str -> list str).

  Lemma precompiled_text s n' : valid_utf8 s ->
    (forall chunk out, spm_transform arr text chunk = Ok out -> valid_utf8 out) ->
    precompiled_normalize mn graphemes arr text (new_ns s) = Ok n' ->
    n' = new_ns s \/
    exists outs, Forall2 (normalizer_rewritten mn arr text) (graphemes s) outs /\ ns_norm n' = concat outs /\ ns_orig n' = s.
  Proof.
    intros V Ent. unfold precompiled_normalize. cbn [new_ns ns_norm].
    destruct (grapheme_items mn arr text (graphemes s) _) as [[items m]| | | |] eqn:Eg; cbn [bind fst snd]; try discriminate.
    destruct m; [|intros [= <-]; now left]. intros E. right.
    destruct (grapheme_items_spec _ _ _ Eg) as [outs [F [T Vi]]]. cbn [fst] in T, Vi.
    destruct (start_items s) as [S1 [S2 _]]. rewrite S1 in T. specialize (Vi Ent S2).
    destruct (transform_fresh_text s items 0 n' V Vi E) as [A B]. exists outs. cbn [app] in T. rewrite <- T. auto.
  Qed.

End Normalizer.

(** ** The alignments *)
Section Low.
  Context (mn : N -> bool) (arr : list N) (text : str).
  Lemma replace_items_low items old new items' : Forall (fun it => snd it <= 0) items ->
    (length (runes new) <= length (runes old))%nat -> replace_items items old new = Ok items' ->
    Forall (fun it => snd it <= 0) items'.
  Proof.
    intros F L. unfold replace_items. unfold zlen. rewrite !explode_length.
    set (l := (items ++ map (fun c => (c, 0)) (explode new))%list).
    assert (Fl : Forall (fun it : str * Z => snd it <= 0) l).
    { apply Forall_app. split; [exact F|]. apply Forall_forall. intros it H. apply in_map_iff in H as [c [<- _]]. cbn. lia. }
    clearbody l. destruct (Z.ltb_spec 0 (Z.of_nat (length (runes new)) - Z.of_nat (length (runes old)))); [lia|].
    destruct (Z.ltb_spec (Z.of_nat (length (runes new)) - Z.of_nat (length (runes old))) 0); [|intros [= <-]; exact Fl].
    destruct (rev l) as [|[c k] r] eqn:Er; [discriminate|]. intros [= <-].
    assert (El : l = (rev r ++ [(c, k)])%list) by (rewrite <- (rev_involutive l), Er; reflexivity).
    rewrite El in Fl. apply Forall_app in Fl as [F1 F2]. apply Forall_app. split; [exact F1|].
    inversion F2 as [|x y H1 H2]; subst. constructor; [|constructor]. cbn [snd] in *. lia.
  Qed.

  Context (NoMn : forall r, mn r = false)
    (Short : forall chunk out, spm_transform arr text chunk = Ok out -> (length (runes out) <= length (runes chunk))%nat).

  Lemma normalize_mn_runes s : length (runes (normalize_mn mn s)) = length (runes s).
  Proof.
    unfold normalize_mn. assert (E : concat (map (fun r => if mn r then percent_U r else encode_rune r) (runes s)) = encode (runes s)).
    { unfold encode. f_equal. apply map_ext. intros r. now rewrite NoMn. }
    rewrite E, runes_encode; [reflexivity|apply runes_scalar].
  Qed.

  Lemma char_items_low g rs : forall st st', Forall (fun it => snd it <= 0) (fst st) ->
    char_items mn arr text g rs st = Ok st' -> Forall (fun it => snd it <= 0) (fst st').
  Proof.
    induction rs as [|r rs IH]; intros st st' F; cbn [char_items]; [intros [= <-]; exact F|].
    destruct (zslice g 0 (zlen (encode_rune r))) as [part0| | | |] eqn:Ep; cbn [bind]; try discriminate.
    destruct (spm_transform arr text part0) as [n| | | |] eqn:Et; cbn [bind]; try discriminate.
    destruct (normalize_mn mn n) as [|x m] eqn:Em.
    - apply IH. cbn [fst]. apply Forall_app. split; [exact F|]. constructor; [cbn; lia|constructor].
    - rewrite <- Em. destruct (replace_items (fst st) part0 (normalize_mn mn n)) as [items| | | |] eqn:Er; cbn [bind]; try discriminate.
      apply IH. cbn [fst]. eapply replace_items_low; [exact F| |exact Er]. rewrite normalize_mn_runes. now apply Short.
  Qed.

  Lemma grapheme_items_low gs : forall st st', Forall (fun it => snd it <= 0) (fst st) ->
    grapheme_items mn arr text gs st = Ok st' -> Forall (fun it => snd it <= 0) (fst st').
  Proof.
    induction gs as [|g gs IH]; intros st st' F; cbn [grapheme_items]; [intros [= <-]; exact F|].
    destruct (short_entry arr text g) as [n| | | |] eqn:Es; cbn [bind]; try discriminate.
    destruct n as [|x n].
    - set (g' := normalize_mn mn g). destruct (char_items mn arr text g' (runes g') st) as [st1| | | |] eqn:Ec; cbn [bind]; try discriminate.
      apply IH. eapply char_items_low; eassumption.
    - match goal with |- context [replace_items ?a ?b ?c] => destruct (replace_items a b c) as [items| | | |] eqn:Er end; cbn [bind]; try discriminate.
      apply IH. cbn [fst]. eapply replace_items_low; [exact F| |exact Er]. unfold short_entry in Es.
      destruct (Z.ltb_spec (zlen g) 6); [now apply Short|discriminate].
  Qed.
End Low.

(** The empty entries use up the text. *)
Lemma take_removed_0 rs : take_removed 0 rs = (0, rs).
Proof. reflexivity. Qed.

Lemma empty_items al k : forall st st', Forall (fun c => c <> 0%N) (t_runes st) ->
  t_off st + zlen (encode (t_runes st)) = zlen al -> (length (t_runes st) <= k)%nat ->
  foldR (t_item al) (repeat ([], 0) k) st = Ok st' ->
  t_runes st' = [] /\ t_off st' = zlen al /\ t_al st' = t_al st.
Proof.
  induction k as [|k IH]; intros st st' NZ O L.
  - cbn. intros [= <-]. destruct (t_runes st) as [|c rs] eqn:E; [|cbn in L; lia]. repeat split. change (zlen (encode [])) with 0 in O. lia.
  - cbn [repeat foldR]. destruct (t_item al st ([], 0)) as [st1| | | |] eqn:E1; cbn [bind]; try discriminate.
    apply t_item_spec in E1. destruct E1 as (align & _ & Al & _ & Sz & _). cbn [length repeat] in Al. rewrite app_nil_r in Al.
    unfold item_sizes in Sz. change (0 <=? 0) with true in Sz. cbv iota in Sz. intros E.
    destruct (t_runes st) as [|c rs] eqn:Er; cbn [next_rune] in Sz.
    + change (take_removed (Z.to_nat (-0)) []) with (0, @nil N) in Sz. cbn [N.eqb] in Sz. destruct Sz as (R1 & O1 & _).
      destruct (IH st1 st') as (A & B & C).
      * rewrite R1. constructor.
      * rewrite R1, O1. cbn in O |- *. lia.
      * rewrite R1. cbn. lia.
      * exact E.
      * rewrite C, Al. auto.
    + inversion NZ as [|x y N1 N2]; subst.
      change (take_removed (Z.to_nat (-0)) rs) with (0, rs) in Sz.
      destruct (N.eqb_spec c 0); [contradiction|]. destruct Sz as (R1 & O1 & _).
      destruct (IH st1 st') as (A & B & C).
      * now rewrite R1.
      * rewrite R1, O1. rewrite encode_cons, zlen_app in O. lia.
      * rewrite R1. cbn in L. lia.
      * exact E.
      * rewrite C, Al. auto.
Qed.

Lemma late_items al items p : 0 < zlen al -> zindex al (zlen al - 1) = Ok p -> Forall (fun it => snd it <= 0) items ->
  forall st st', t_runes st = [] -> zlen al <= t_off st -> Forall (eq p) (t_al st) ->
  foldR (t_item al) items st = Ok st' -> Forall (eq p) (t_al st').
Proof.
  intros Pos Last F. induction F as [|[s c] items H F IH]; intros st st' R O Al E; cbn [foldR] in E; [injection E as <-; exact Al|].
  destruct (t_item al st (s, c)) as [st1| | | |] eqn:E1; cbn [bind] in E; try discriminate.
  apply t_item_spec in E1. destruct E1 as (align & Ha & Al1 & _ & Sz & _). cbn [snd] in H.
  unfold item_align in Ha. destruct (Z.ltb_spec 0 c); [lia|]. destruct (Z.leb_spec (zlen al) (t_off st)); [|lia].
  rewrite Last in Ha. injection Ha as <-.
  unfold item_sizes in Sz. rewrite R in Sz. destruct (Z.leb_spec c 0); [|lia]. cbn [next_rune] in Sz.
  assert (T : forall k, exists t, take_removed k [] = (t, []) /\ 0 <= t).
  { induction k as [|k [t [Ht Ht0]]]; [exists 0; split; [reflexivity|lia]|].
    exists (zlen (encode_rune 0) + t). cbn [take_removed next_rune]. rewrite Ht. split; [reflexivity|].
    pose proof (zlen_nonneg (encode_rune 0)). lia. }
  destruct (T (Z.to_nat (- c))) as [t [Ht Ht0]]. rewrite Ht in Sz. cbn [N.eqb] in Sz. destruct Sz as (R1 & O1 & _).
  eapply IH; [exact R1|lia| |exact E]. rewrite Al1. apply Forall_app. split; [exact Al|].
  apply Forall_forall. intros q Hq. apply repeat_spec in Hq. now subst.
Qed.

Lemma foldR_app_inv {A S} (f : S -> A -> res S) l1 : forall l2 s s', foldR f (l1 ++ l2) s = Ok s' ->
  exists s1, foldR f l1 s = Ok s1 /\ foldR f l2 s1 = Ok s'.
Proof.
  induction l1 as [|x l1 IH]; intros l2 s s' E; cbn [app foldR] in *; [eauto|].
  destruct (f s x) as [s1| | | |]; cbn [bind] in *; try discriminate. apply IH, E.
Qed.

(** The collected entries start with the empty ones, when none is longer. *)
Section Start.
  Context (mn : N -> bool) (arr : list N) (text : str) (NoMn : forall r, mn r = false)
    (Short : forall chunk out, spm_transform arr text chunk = Ok out -> (length (runes out) <= length (runes chunk))%nat).

  (** What [replace] does to the entries before: nothing, when the new text is not longer and not empty. *)
  Lemma replace_items_keeps items old new items' : new <> [] ->
    (length (runes new) <= length (runes old))%nat -> replace_items items old new = Ok items' ->
    exists more, items' = (items ++ more)%list.
  Proof.
    intros N0 L. unfold replace_items. unfold zlen. rewrite !explode_length.
    destruct (Z.ltb_spec 0 (Z.of_nat (length (runes new)) - Z.of_nat (length (runes old)))); [lia|].
    destruct (Z.ltb_spec (Z.of_nat (length (runes new)) - Z.of_nat (length (runes old))) 0); [|intros [= <-]; eauto].
    assert (Ex : exists l c, explode new = (l ++ [c])%list).
    { rewrite explode_cons by exact N0. match goal with |- context [?a :: ?b] => destruct (@exists_last _ (a :: b)) as [l [c E]]; [discriminate|] end. eauto. }
    destruct Ex as [l [c Ex]]. rewrite Ex, map_app, app_assoc, rev_app_distr. cbn [map rev app].
    intros [= <-]. rewrite rev_involutive. rewrite <- app_assoc. eauto.
  Qed.

  Lemma char_items_keeps g rs : forall st st', char_items mn arr text g rs st = Ok st' ->
    exists more, fst st' = (fst st ++ more)%list.
  Proof.
    induction rs as [|r rs IH]; intros st st'; cbn [char_items]; [intros [= <-]; exists []; now rewrite app_nil_r|].
    destruct (zslice g 0 (zlen (encode_rune r))) as [part0| | | |] eqn:Ep; cbn [bind]; try discriminate.
    destruct (spm_transform arr text part0) as [n| | | |] eqn:Et; cbn [bind]; try discriminate.
    destruct (normalize_mn mn n) as [|x m] eqn:Em.
    - intros E. apply IH in E as [more E]. cbn [fst] in E. rewrite E, <- app_assoc. eauto.
    - rewrite <- Em. destruct (replace_items (fst st) part0 (normalize_mn mn n)) as [items| | | |] eqn:Er; cbn [bind]; try discriminate.
      intros E. apply IH in E as [more E]. cbn [fst] in E.
      apply replace_items_keeps in Er as [more' ->]; [rewrite E, <- app_assoc; eauto|rewrite Em; discriminate|].
      rewrite (normalize_mn_runes mn NoMn). now apply Short.
  Qed.

  Lemma grapheme_items_keeps gs : forall st st', grapheme_items mn arr text gs st = Ok st' ->
    exists more, fst st' = (fst st ++ more)%list.
  Proof.
    induction gs as [|g gs IH]; intros st st'; cbn [grapheme_items]; [intros [= <-]; exists []; now rewrite app_nil_r|].
    destruct (short_entry arr text g) as [n| | | |] eqn:Es; cbn [bind]; try discriminate.
    destruct n as [|x n].
    - set (g' := normalize_mn mn g). destruct (char_items mn arr text g' (runes g') st) as [st1| | | |] eqn:Ec; cbn [bind]; try discriminate.
      intros E. apply IH in E as [more E]. apply char_items_keeps in Ec as [m' Ec]. rewrite E, Ec, <- app_assoc. eauto.
    - match goal with |- context [replace_items ?a ?b ?c] => destruct (replace_items a b c) as [items| | | |] eqn:Er end; cbn [bind]; try discriminate.
      intros E. apply IH in E as [more E]. cbn [fst] in E.
      apply replace_items_keeps in Er as [more' ->]; [rewrite E, <- app_assoc; eauto|discriminate|].
      unfold short_entry in Es. destruct (Z.ltb_spec (zlen g) 6); [now apply Short|discriminate].
  Qed.

  Context (graphemes : str -> list str).

  Lemma precompiled_alignments s n' p : valid_utf8 s -> Forall (fun c => c <> 0%N) (runes s) -> s <> [] ->
    zindex (create_aligns s) (zlen s - 1) = Ok p ->
    precompiled_normalize mn graphemes arr text (new_ns s) = Ok n' ->
    n' = new_ns s \/ Forall (eq p) (ns_al n').
  Proof.
    intros V NZ Ne Last. unfold precompiled_normalize. cbn [new_ns ns_norm].
    destruct (grapheme_items mn arr text (graphemes s) _) as [[items m]| | | |] eqn:Eg; cbn [bind fst snd]; try discriminate.
    destruct m; [|intros [= <-]; now left]. intros H. right.
    destruct (start_items s) as [_ [_ S3]].
    pose proof (grapheme_items_low mn arr text NoMn Short _ (_, false) _ S3 Eg) as Low.
    apply grapheme_items_keeps in Eg as [more Eg]. cbn [fst] in Eg, Low. rewrite Eg in Low. apply Forall_app in Low as [_ Low].
    assert (Er : map (fun _ : N => (@nil N, 0)) s = repeat ([], 0) (length s)).
    { clear. induction s as [|c s IH]; [reflexivity|]. cbn [map length repeat]. now rewrite IH. }
    rewrite Er in Eg. clear Er S3. subst items.
    unfold transform in H. revert H. unfold transform_range.
    destruct (target_fresh s V) as (on & T). unfold target in T. change (ns_orig (new_ns s)) with s. rewrite T.
    cbn [bind r_start r_end].
    assert (La : zlen (ns_al (new_ns s)) = zlen s).
    { cbn. unfold create_aligns. rewrite zlen_aligns. unfold bytes. now rewrite valid_utf8_runes. }
    rewrite La, Z.ltb_irrefl. change (ns_norm (new_ns s)) with s.
    pose proof (zlen_nonneg s) as Zs.
    rewrite zslice_eq by lia. cbn [bind]. rewrite part_all.
    replace (zlen (runes s) <? 0) with false by (pose proof (zlen_nonneg (runes s)); lia).
    change (Z.to_nat 0) with 0%nat. cbn [firstn fold_right clear_chars bind].
    match goal with |- (do st <- foldR ?f ?l ?s0; _) = _ -> _ => destruct (foldR f l s0) as [st| | | |] eqn:El end; cbn [bind]; try discriminate.
    destruct (end_shift _ _ _ _ _) as [[ao' cells']| | | |]; cbn [bind]; try discriminate. intros [= <-]. cbn [ns_al].
    assert (Sk : skipn (Z.to_nat (zlen s)) (create_aligns s) = []).
    { apply skipn_all2. cbn in La. unfold zlen in *. lia. }
    cbn [firstn app]. change (ns_al (new_ns s)) with (create_aligns s) in *. rewrite Sk, app_nil_r.
    apply foldR_app_inv in El as [st1 [E1 E2]].
    apply empty_items in E1 as [R1 [O1 A1]]; cbn [t_runes t_off t_al].
    - cbn [t_al] in A1. eapply late_items; [| |exact Low|exact R1| | |exact E2].
      + rewrite La. destruct s; [congruence|]. unfold zlen. cbn [length]. lia.
      + rewrite La. exact Last.
      + lia.
      + rewrite A1. constructor.
    - exact NZ.
    - rewrite valid_utf8_runes by exact V. lia.
    - pose proof (encode_runes_length s). clear - V. rewrite <- (valid_utf8_runes s V) at 2. generalize (runes s). intros rs.
      induction rs as [|r rs IH]; [cbn; lia|]. rewrite encode_cons, app_length. pose proof (encode_rune_length r). cbn [length]. lia.
  Qed.
End Start.
