(** Proofs about normalized strings: invariants and resulting text. *)
From Verif Require Import Base Utf8Model Utf8Proofs SliceModel SliceProofs PatternModel PatternSpec
  PatternProofs NormalizedModel NormalizedSpec.
Local Open Scope Z_scope.

(** ** Lists *)
Lemma zslice_ok {A} (l : list A) i j r : zslice l i j = Ok r ->
  0 <= i /\ i <= j /\ j <= zlen l /\ r = part i j l.
Proof.
  unfold zslice. destruct ((0 <=? i) && (i <=? j) && (j <=? zlen l)) eqn:E; [|discriminate].
  intros [= <-]. unfold part. repeat split; lia.
Qed.
Lemma zslice_eq {A} (l : list A) i j : 0 <= i -> i <= j -> j <= zlen l -> zslice l i j = Ok (part i j l).
Proof.
  intros H1 H2 H3. unfold zslice, part.
  replace ((0 <=? i) && (i <=? j) && (j <=? zlen l)) with true by lia. reflexivity.
Qed.
Lemma part_length {A} (l : list A) i j : 0 <= i -> i <= j -> j <= zlen l -> zlen (part i j l) = j - i.
Proof. unfold part, zlen. intros. rewrite firstn_length, skipn_length. lia. Qed.
Lemma zindex_ok {A} (l : list A) i x : zindex l i = Ok x -> 0 <= i < zlen l /\ nth_error l (Z.to_nat i) = Some x.
Proof.
  unfold zindex. destruct (Z.leb_spec 0 i); [|discriminate].
  destruct (nth_error l (Z.to_nat i)) eqn:E; [|discriminate]. intros [= <-].
  assert (Z.to_nat i < length l)%nat by (apply nth_error_Some; congruence). unfold zlen. split; [lia|reflexivity].
Qed.
Lemma zindex_In {A} (l : list A) i x : zindex l i = Ok x -> In x l.
Proof. intros H. apply zindex_ok in H. eapply nth_error_In, H. Qed.
Lemma zindex_eq {A} (l : list A) i : 0 <= i < zlen l -> exists x, zindex l i = Ok x /\ nth_error l (Z.to_nat i) = Some x.
Proof.
  intros H. unfold zindex. replace (0 <=? i) with true by lia.
  destruct (nth_error l (Z.to_nat i)) eqn:E; [eauto|].
  apply nth_error_None in E. unfold zlen in H. lia.
Qed.
Lemma skipn_plus {A} (l : list A) i j : skipn i (skipn j l) = skipn (j + i) l.
Proof. revert l; induction j as [|j IH]; intros l; [reflexivity|]. destruct l; cbn; [now rewrite skipn_nil|apply IH]. Qed.
Lemma part_split {A} (l : list A) i j : 0 <= i -> i <= j -> j <= zlen l ->
  l = firstn (Z.to_nat i) l ++ part i j l ++ skipn (Z.to_nat j) l.
Proof.
  intros H1 H2 H3. unfold part. rewrite <- (firstn_skipn (Z.to_nat i) l) at 1. f_equal.
  rewrite <- (firstn_skipn (Z.to_nat (j - i)) (skipn (Z.to_nat i) l)) at 1. f_equal.
  rewrite skipn_plus. f_equal. lia.
Qed.
Lemma part_In {A} (l : list A) i j x : In x (part i j l) -> In x l.
Proof.
  unfold part. intros H.
  rewrite <- (firstn_skipn (Z.to_nat i) l). apply in_or_app. right.
  rewrite <- (firstn_skipn (Z.to_nat (j - i)) (skipn (Z.to_nat i) l)). apply in_or_app. now left.
Qed.
Lemma zlen_app {A} (a b : list A) : zlen (a ++ b) = zlen a + zlen b.
Proof. unfold zlen. rewrite app_length. lia. Qed.
Lemma zlen_nonneg {A} (l : list A) : 0 <= zlen l.
Proof. unfold zlen. lia. Qed.

Lemma last_In {A} (l : list A) d : l <> [] -> In (last l d) l.
Proof.
  induction l as [|x l IH]; [congruence|]. intros _. destruct l as [|y l]; [now left|].
  right. apply IH. discriminate.
Qed.
Lemma expand_Some l lo hi : expand l = Some (lo, hi) -> exists a b, In a l /\ In b l /\ lo = fst a /\ hi = snd b.
Proof.
  destruct l as [|a l]; [discriminate|]. cbn [expand]. intros [= <- <-].
  exists a, (last (a :: l) a). repeat split; [now left|]. apply last_In. discriminate.
Qed.
Lemma expand_nonempty l : l <> [] -> exists p, expand l = Some p.
Proof. destruct l; [congruence|]. cbn. eauto. Qed.

(** ** The invariant *)
Lemma realloc_length ao cells lo hi new ao' cells' :
  realloc ao cells lo hi new = (ao', cells') -> 0 <= lo -> lo <= hi -> hi <= zlen ao -> zlen new = hi - lo ->
  length ao' = length ao.
Proof.
  unfold realloc, zlen. intros [= <- <-] H1 H2 H3 H4.
  rewrite !app_length, firstn_length, seq_length, skipn_length. lia.
Qed.
Lemma realloc_valid ao cells lo hi new ao' cells' :
  realloc ao cells lo hi new = (ao', cells') ->
  Forall (fun a => (a < length cells)%nat) ao -> Forall (fun a => (a < length cells')%nat) ao'.
Proof.
  unfold realloc. intros [= <- <-] H. rewrite app_length, !Forall_app.
  assert (G : Forall (fun a => (a < length cells + length new)%nat) ao).
  { eapply Forall_impl; [|exact H]. cbn. intros; lia. }
  repeat split.
  - rewrite <- (firstn_skipn (Z.to_nat lo)), Forall_app in G. apply G.
  - apply Forall_forall. intros x Hx. apply in_seq in Hx. lia.
  - rewrite <- (firstn_skipn (Z.to_nat hi)), Forall_app in G. apply G.
Qed.

Lemma fold_upd_length {B} (f : list (Z * Z) -> B -> list (Z * Z)) l : (forall cs a, length (f cs a) = length cs) ->
  forall cs, length (fold_left f l cs) = length cs.
Proof. intros H. induction l as [|x l IH]; intros cs; cbn; [reflexivity|]. now rewrite IH, H. Qed.

Lemma clear_cell_length oshift st a : length (snd (clear_cell oshift st a)) = length (snd st).
Proof. destruct st as [ess cells]. unfold clear_cell. destruct (cell cells a). cbn. apply upd_length. Qed.
Lemma fold_clear_length oshift l : forall st, length (snd (fold_left (clear_cell oshift) l st)) = length (snd st).
Proof. induction l as [|x l IH]; intros st; cbn [fold_left]; [reflexivity|]. now rewrite IH, clear_cell_length. Qed.
Lemma clear_chars_length al ao cs : forall off osh st st', clear_chars al ao cs off osh st = Ok st' ->
  length (snd st') = length (snd st).
Proof.
  induction cs as [|c cs IH]; cbn [clear_chars]; intros off osh st st' E; [now injection E as <-|].
  destruct (zslice al off _) as [sub| | | |]; cbn [bind] in E; try discriminate E.
  destruct (expand sub) as [[lo hi]|]; [|discriminate E].
  destruct (zslice ao lo hi) as [addrs| | | |]; cbn [bind] in E; try discriminate E.
  apply IH in E. rewrite E. apply fold_clear_length.
Qed.

(** What the main loop keeps. *)
Definition tinv (ao_len : nat) (st : tstate) : Prop :=
  length (t_ao st) = ao_len /\ Forall (fun a => (a < length (t_cells st))%nat) (t_ao st).

(** The alignment of an item. *)
Definition item_align (al : list (Z * Z)) (idx changes : Z) : res (Z * Z) :=
  if 0 <? changes then (if idx <? 1 then Ok (0, 0) else zindex al (idx - 1))
  else if zlen al <=? idx then zindex al (zlen al - 1) else zindex al idx.

Lemma item_align_In al idx c p : item_align al idx c = Ok p -> p = (0, 0) \/ In p al.
Proof.
  unfold item_align. destruct (0 <? c); [destruct (idx <? 1); [intros [= <-]; auto|]|destruct (zlen al <=? idx)];
    intros H; right; eapply zindex_In, H.
Qed.

(** Replaced and removed sizes. *)
Definition item_sizes (changes : Z) (rs : list N) : Z * Z * list N :=
  let '(rc, rs1) := if changes <=? 0 then next_rune rs else (0%N, rs) in
  let size := if (rc =? 0)%N then 0 else zlen (encode_rune rc) in
  let '(total, rs2) := take_removed (Z.to_nat (- changes)) rs1 in
  (size, total, rs2).

Lemma t_item_spec al st s c st' : t_item al st (s, c) = Ok st' ->
  exists align,
    item_align al (t_off st) c = Ok align /\
    t_al st' = t_al st ++ repeat align (length s) /\
    t_text st' = t_text st ++ encode (runes s) /\
    (let '(size, total, rs2) := item_sizes c (t_runes st) in
     t_runes st' = rs2 /\ t_off st' = t_off st + size + total /\
     t_shift st' = t_shift st + (zlen s - size) - total) /\
    0 <= fst align <= snd align /\ snd align <= zlen (t_ao st) /\
    forall k, tinv k st -> tinv k st'.
Proof.
  unfold t_item. fold (item_align al (t_off st) c). unfold item_sizes.
  destruct (item_align al (t_off st) c) as [align| | | |]; cbn [bind]; try discriminate.
  destruct (if c <=? 0 then next_rune (t_runes st) else (0%N, t_runes st)) as [rc rs1].
  set (size := if (rc =? 0)%N then 0 else zlen (encode_rune rc)).
  destruct (take_removed (Z.to_nat (- c)) rs1) as [total rs2].
  match goal with |- (do _ <- ?x; _) = _ -> _ => destruct x as [[rfo rfn]| | | |] end; cbn [bind]; try discriminate.
  destruct (zslice (t_ao st) (fst align) (snd align)) as [addrs| | | |] eqn:Ez; cbn [bind]; try discriminate.
  apply zslice_ok in Ez. destruct Ez as (Z1 & Z2 & Z3 & ->).
  match goal with |- context [match expand ?v with _ => _ end] =>
    set (new := expand v) end.
  destruct (match new with None => (t_ao st, t_cells st) | Some _ => _ end) as [ao1 cells1] eqn:Er.
  assert (Inv1 : forall k, tinv k st -> length ao1 = k /\ Forall (fun a => (a < length cells1)%nat) ao1).
  { intros k [L F]. destruct new as [[olo ohi]|] eqn:En.
    - split.
      + rewrite <- L. eapply realloc_length; [exact Er| | | |]; try lia.
        unfold zlen. rewrite !map_length. fold (zlen (part (fst align) (snd align) (t_ao st))).
        apply part_length; lia.
      + eapply realloc_valid; [exact Er|exact F].
    - injection Er as <- <-. auto. }
  match goal with |- (do cells2 <- ?x; _) = _ -> _ => destruct x as [cells2| | | |] eqn:Ec end; cbn [bind]; try discriminate.
  intros [= <-]. exists align. cbn. repeat split; auto; try lia.
  - apply Inv1, H.
  - assert (L2 : length cells2 = length cells1).
    { destruct (0 <? rfo); [|now injection Ec as <-].
      repeat match type of Ec with (do _ <- ?x; _) = _ => destruct x; cbn [bind] in Ec; try discriminate Ec end.
      injection Ec as <-. apply fold_upd_length. intros; apply upd_length. }
    cbn [t_cells t_ao]. rewrite L2. now apply Inv1 with k.
Qed.

Lemma foldR_app {A S} (f : S -> A -> res S) l : forall s x, foldR f (l ++ [x]) s = (do s' <- foldR f l s; f s' x).
Proof.
  induction l as [|y l IH]; intros s x; cbn [app foldR bind].
  - destruct (f s x); reflexivity.
  - destruct (f s y); cbn; auto.
Qed.

Definition items_len (items : list (str * Z)) : nat := fold_right (fun it k => (length (fst it) + k)%nat) 0%nat items.

Lemma t_loop_spec al items : forall st st', foldR (t_item al) items st = Ok st' ->
  (exists extra, t_al st' = t_al st ++ extra /\ length extra = items_len items /\
     Forall (fun p => (p = (0, 0) \/ In p al)) extra) /\
  t_text st' = t_text st ++ concat (map (fun it => encode (runes (fst it))) items) /\
  (forall k, tinv k st -> tinv k st').
Proof.
  induction items as [|[s c] items IH]; cbn [foldR]; intros st st' E.
  - injection E as <-. cbn. rewrite app_nil_r. split; [|split; auto].
    exists []. rewrite app_nil_r. repeat split; constructor.
  - destruct (t_item al st (s, c)) as [st1| | | |] eqn:E1; cbn [bind] in E; try discriminate E.
    apply t_item_spec in E1. destruct E1 as (align & Ha & Al & Tx & _ & _ & _ & Inv).
    destruct (IH _ _ E) as ((extra & Ax & Lx & Fx) & Tx' & Inv').
    split; [|split].
    + exists (repeat align (length s) ++ extra). rewrite Ax, Al, <- app_assoc. repeat split.
      * rewrite app_length, repeat_length, Lx. reflexivity.
      * apply Forall_app. split; [|exact Fx]. apply Forall_forall. intros p Hp. apply repeat_spec in Hp. subst p.
        eapply item_align_In, Ha.
    + rewrite Tx', Tx, <- app_assoc. reflexivity.
    + auto.
Qed.

Lemma runes_valid_id s : valid_utf8 s -> encode (runes s) = s.
Proof. intros (rs & H & ->). now rewrite runes_encode. Qed.

Lemma valid_items_text items : valid_items items ->
  concat (map (fun it => encode (runes (fst it))) items) = items_text items.
Proof.
  induction 1 as [|it items H _ IH]; [reflexivity|]. unfold items_text in *. cbn [map concat].
  now rewrite IH, runes_valid_id.
Qed.
Lemma items_len_text items : length (items_text items) = items_len items.
Proof.
  induction items as [|it items IH]; [reflexivity|]. unfold items_text in *. cbn [map concat items_len fold_right].
  now rewrite app_length, IH.
Qed.

Lemma end_shift_spec al ess osh ao cells ao' cells' k : end_shift al ess osh ao cells = Ok (ao', cells') ->
  length ao = k /\ Forall (fun a => (a < length cells)%nat) ao ->
  length ao' = k /\ Forall (fun a => (a < length cells')%nat) ao'.
Proof.
  unfold end_shift. intros E [L F]. destruct (osh =? 0); [now injection E as <- <-|].
  destruct (zslice al ess _) as [tail| | | |]; cbn [bind] in E; try discriminate E.
  destruct (expand tail) as [[lo hi]|]; [|now injection E as <- <-].
  destruct (zslice ao lo hi) as [addrs| | | |] eqn:Ez; cbn [bind] in E; try discriminate E.
  apply zslice_ok in Ez. destruct Ez as (Z1 & Z2 & Z3 & ->).
  assert (E' : forall X : list nat * list (Z * Z), Ok X = Ok (ao', cells') -> X = (ao', cells')) by congruence.
  apply E' in E. split.
  - rewrite <- L. eapply realloc_length; [exact E| | | |]; try lia.
    unfold zlen. rewrite map_length. fold (zlen (part lo hi ao)). apply part_length; lia.
  - eapply realloc_valid; [exact E|exact F].
Qed.

(** The normalized range that TransformRange selects. *)
Definition target (n : ns) (r : range) : res (option range) :=
  match r_on r with
  | OnNormalized => Ok (Some (into_full_range r (zlen (ns_norm n))))
  | OnOriginal => convert_offset n r
  end.

Lemma transform_range_spec n r items initial n' :
  transform_range n r items initial = Ok n' ->
  exists nr s e, target n r = Ok (Some nr) /\ s = r_start nr /\
    e = Z.min (r_end nr) (zlen (ns_al n)) /\
    0 <= s <= e /\ e <= zlen (ns_norm n) /\ e <= zlen (ns_al n) /\
    ns_orig n' = ns_orig n /\ ns_shift n' = ns_shift n /\
    ns_norm n' = firstn (Z.to_nat s) (ns_norm n) ++
                 concat (map (fun it => encode (runes (fst it))) items) ++ skipn (Z.to_nat e) (ns_norm n) /\
    (exists extra, ns_al n' = firstn (Z.to_nat s) (ns_al n) ++ extra ++ skipn (Z.to_nat e) (ns_al n) /\
       length extra = items_len items /\ Forall (fun p => p = (0, 0) \/ In p (ns_al n)) extra) /\
    (length (ns_ao n) = length (ns_orig n) /\ Forall (fun a => (a < length (ns_cells n))%nat) (ns_ao n) ->
     length (ns_ao n') = length (ns_orig n') /\ Forall (fun a => (a < length (ns_cells n'))%nat) (ns_ao n')).
Proof.
  unfold transform_range. fold (target n r).
  destruct (target n r) as [[nr|]| | | |]; cbn [bind]; try discriminate.
  set (s := r_start nr).
  replace (if zlen (ns_al n) <? r_end nr then zlen (ns_al n) else r_end nr)
    with (Z.min (r_end nr) (zlen (ns_al n))) by (destruct (Z.ltb_spec (zlen (ns_al n)) (r_end nr)); lia).
  set (e := Z.min (r_end nr) (zlen (ns_al n))).
  destruct (zslice (ns_norm n) s e) as [sel| | | |] eqn:Es; cbn [bind]; try discriminate.
  apply zslice_ok in Es. destruct Es as (Z1 & Z2 & Z3 & ->).
  destruct (zlen (runes (part s e (ns_norm n))) <? initial); [discriminate|].
  destruct (clear_chars (ns_al n) (ns_ao n) _ s 0 (e, ns_cells n)) as [[ess cells0]| | | |] eqn:Ec; cbn [bind]; try discriminate.
  apply clear_chars_length in Ec. cbn [snd] in Ec.
  match goal with |- (do st <- ?x; _) = _ -> _ => destruct x as [st| | | |] eqn:El end; cbn [bind]; try discriminate.
  destruct (t_loop_spec _ _ _ _ El) as ((extra & Ax & Lx & Fx) & Tx & Inv).
  cbn [t_al t_text app] in Ax, Tx.
  destruct (end_shift _ ess _ _ _) as [[ao' cells']| | | |] eqn:Ee; cbn [bind]; try discriminate.
  intros [= <-]. exists nr, s, e. cbn. subst e. repeat split; auto; try lia.
  - now rewrite Tx.
  - exists extra. rewrite Ax. auto.
  - destruct H as [H1 H2]. eapply end_shift_spec in Ee; [apply Ee|]. apply Inv. split; cbn; [exact H1|].
    now rewrite Ec.
  - destruct H as [H1 H2]. eapply end_shift_spec in Ee; [apply Ee|]. apply Inv. split; cbn; [exact H1|].
    now rewrite Ec.
Qed.
