(** Proofs about pre-tokenized strings. *)
From Verif Require Import Base BaseProofs Utf8Model Utf8Proofs NormalizedModel NormalizedSpec NormalizedProofs NormalizedInvProofs
  NormalizedExactProofs NormalizedOpProofs EncodingModel BpeModel PreTokenizedModel PreTokenizedSpec.
Open Scope Z_scope.

(** * Split, Normalize, Tokenize *)

Lemma subseq_refl {A} (l : list A) : subseq l l.
Proof. induction l; constructor; auto. Qed.
Lemma subseq_trans {A} (a b c : list A) : subseq a b -> subseq b c -> subseq a c.
Proof.
  intros H1 H2. revert a H1. induction H2 as [|x b c H2 IH|x b c H2 IH]; intros a H1; [exact H1| |].
  - inversion_clear H1; constructor; auto.
  - constructor. auto.
Qed.
Lemma subseq_app_l {A} (l a b : list A) : subseq a b -> subseq a (l ++ b).
Proof. intros H. induction l; [exact H|]. cbn. now constructor. Qed.
Lemma subseq_filter {A} (f : A -> bool) (a b : list A) : subseq a b -> subseq (filter f a) (filter f b).
Proof.
  induction 1 as [|x a b H IH|x a b H IH]; cbn; [constructor| |].
  - destruct (f x); [now constructor|exact IH].
  - destruct (f x); [now constructor|exact IH].
Qed.

Lemma text_filter l : text_of (filter (fun x => match ns_norm (sp_ns x) with [] => false | _ => true end) l) = text_of l.
Proof.
  unfold text_of. induction l as [|x l IH]; [reflexivity|]. cbn [filter map concat]. unfold sp_text at 2.
  destruct (ns_norm (sp_ns x)) eqn:E; [exact IH|]. cbn [map concat]. rewrite IH. unfold sp_text at 1. now rewrite E.
Qed.

Lemma split_pieces_spec f : forall l i l', split_pieces f i l = Ok l' ->
  subseq (filter has_toks l) l' /\
  (plain f -> filter has_toks l' = filter has_toks l) /\
  exists news, Forall2 (produced f) (combine (seq i (length l)) l) news /\ text_of l' = concat (map text_of news).
Proof.
  induction l as [|sp l IH]; intros i l' E; cbn in E.
  - injection E as <-. split; [constructor|]. split; [reflexivity|]. exists []. split; [constructor|reflexivity].
  - destruct (sp_toks sp) as [t|] eqn:T.
    + destruct (split_pieces f (S i) l) as [rest| | | |] eqn:R; try discriminate. injection E as <-.
      destruct (IH _ _ R) as (S1 & S2 & news & F & X).
      assert (Hh : has_toks sp = true) by (unfold has_toks; now rewrite T).
      cbn [filter]. rewrite Hh. split; [now constructor|]. split; [intros P; now rewrite S2|].
      exists ([sp] :: news). split.
      * cbn. constructor; [|exact F]. unfold produced. cbn. now rewrite Hh.
      * cbn. rewrite <- X. unfold text_of. cbn. now rewrite app_nil_r.
    + destruct (f i (sp_ns sp)) as [new| | | |] eqn:Fn; try discriminate. cbn in E.
      destruct (split_pieces f (S i) l) as [rest| | | |] eqn:R; try discriminate. injection E as <-.
      destruct (IH _ _ R) as (S1 & S2 & news & F & X).
      assert (Hh : has_toks sp = false) by (unfold has_toks; now rewrite T).
      cbn [filter]. rewrite Hh. split; [now apply subseq_app_l|]. split.
      * intros P. specialize (S2 P). specialize (P _ _ _ Fn). rewrite filter_app, S2.
        assert (Hx : forall g, filter has_toks (filter g new) = []).
        { intros g. clear -P. induction P as [|x new Hx _ IH]; [reflexivity|]. cbn. destruct (g x); cbn; [rewrite Hx|]; exact IH. }
        now rewrite Hx.
      * exists (new :: news). split.
        -- cbn. constructor; [|exact F]. unfold produced. cbn. now rewrite Hh.
        -- cbn [map concat]. rewrite <- X, <- (text_filter new). unfold text_of. now rewrite map_app, concat_app.
Qed.

Lemma split_spec f p p' : pt_split f p = Ok p' ->
  pt_orig p' = pt_orig p /\
  subseq (filter has_toks (pt_splits p)) (pt_splits p') /\
  (plain f -> filter has_toks (pt_splits p') = filter has_toks (pt_splits p)) /\
  exists news, Forall2 (produced f) (combine (seq 0 (length (pt_splits p))) (pt_splits p)) news /\
    text_of (pt_splits p') = concat (map text_of news).
Proof.
  unfold pt_split. intros E. destruct (split_pieces f 0 (pt_splits p)) as [l| | | |] eqn:R; try discriminate.
  injection E as <-. split; [reflexivity|]. exact (split_pieces_spec f _ _ _ R).
Qed.

Lemma split_text f p p' : keeps_text f -> pt_split f p = Ok p' -> text_of (pt_splits p') = text_of (pt_splits p).
Proof.
  intros K E. destruct (split_spec _ _ _ E) as (_ & _ & _ & news & F & ->). clear E. unfold text_of at 2.
  revert news F. generalize 0%nat as i. induction (pt_splits p) as [|sp l IH]; intros i news F; inversion_clear F as [|? y ? ys P F'].
  - reflexivity.
  - cbn [map concat]. rewrite (IH _ _ F'). f_equal. unfold produced in P. cbn in P. destruct (has_toks sp).
    + subst y. unfold text_of. cbn. now rewrite app_nil_r.
    + exact (K _ _ _ P).
Qed.

(** A split function is asked only for pieces without tokens, and its failure is the
    only one. *)
Lemma split_pieces_ok f : forall l i, (forall j sp, nth_error l j = Some sp -> has_toks sp = false -> exists r, f (i + j)%nat (sp_ns sp) = Ok r) ->
  exists l', split_pieces f i l = Ok l'.
Proof.
  induction l as [|sp l IH]; intros i H; [eexists; reflexivity|]. cbn.
  destruct (IH (S i)) as (rest & R).
  { intros j sp' Hj Hf. destruct (H (S j) sp' Hj Hf) as (r & Hr). exists r. now rewrite <- plus_n_Sm in Hr. }
  specialize (H 0%nat sp eq_refl). unfold has_toks in H. destruct (sp_toks sp).
  - rewrite R. eexists. reflexivity.
  - destruct (H eq_refl) as (r & Hr). rewrite Nat.add_0_r in Hr. rewrite Hr. cbn. rewrite R. eexists. reflexivity.
Qed.

Lemma tokenize_spec f : forall p p', pt_tokenize f p = Ok p' ->
  pt_orig p' = pt_orig p /\ map sp_ns (pt_splits p') = map sp_ns (pt_splits p) /\
  Forall2 (fun sp sp' => if has_toks sp then sp' = sp else f (sp_ns sp) = Ok (sp_toks sp')) (pt_splits p) (pt_splits p').
Proof.
  intros [o l] p' E. unfold pt_tokenize in E. cbn in E.
  destruct (tokenize_pieces f l) as [l'| | | |] eqn:R; try discriminate. injection E as <-. cbn. split; [reflexivity|].
  revert l' R. induction l as [|sp l IH]; intros l' R; cbn in R.
  - injection R as <-. split; [reflexivity|constructor].
  - unfold has_toks. destruct (sp_toks sp) as [t|] eqn:T; cbn in R.
    + destruct (tokenize_pieces f l) as [rest| | | |] eqn:R'; try discriminate. injection R as <-.
      destruct (IH _ eq_refl) as [I1 I2]. cbn. split; [now rewrite I1|]. constructor; [|exact I2]. now rewrite T.
    + destruct (f (sp_ns sp)) as [toks| | | |] eqn:F; try discriminate. cbn in R.
      destruct (tokenize_pieces f l) as [rest| | | |] eqn:R'; try discriminate. injection R as <-.
      destruct (IH _ eq_refl) as [I1 I2]. cbn. split; [now rewrite I1|]. constructor; [|exact I2]. now rewrite T.
Qed.

Lemma tokenize_text f p p' : pt_tokenize f p = Ok p' ->
  map sp_text (pt_splits p') = map sp_text (pt_splits p) /\
  subseq (filter has_toks (pt_splits p)) (filter has_toks (pt_splits p')).
Proof.
  intros E. destruct (tokenize_spec _ _ _ E) as (_ & M & F). split.
  - unfold sp_text. rewrite <- (map_map sp_ns ns_norm (pt_splits p')), M, map_map. reflexivity.
  - clear E M. induction F as [|sp sp' l l' H _ IH]; [constructor|]. cbn. destruct (has_toks sp) eqn:T.
    + subst sp'. rewrite T. now constructor.
    + destruct (has_toks sp'); [now constructor|exact IH].
Qed.

Lemma normalize_drops f p p' : pt_normalize f p = Ok p' ->
  Forall (fun sp => sp_toks sp = None) (pt_splits p') /\
  Forall2 (fun sp sp' => f (sp_ns sp) = Ok (sp_ns sp')) (filter (fun sp => negb (has_toks sp)) (pt_splits p)) (pt_splits p').
Proof.
  unfold pt_normalize. destruct (normalize_pieces f (pt_splits p)) as [l'| | | |] eqn:R; try discriminate. intros [= <-]. cbn.
  revert l' R. induction (pt_splits p) as [|sp l IH]; intros l' R; cbn in R.
  - injection R as <-. split; constructor.
  - cbn. unfold has_toks at 1. destruct (sp_toks sp) as [t|] eqn:T; cbn.
    + exact (IH _ R).
    + destruct (f (sp_ns sp)) as [n| | | |] eqn:F; try discriminate. cbn in R.
      destruct (normalize_pieces f l) as [rest| | | |]; try discriminate. injection R as <-.
      destruct (IH _ eq_refl) as [I1 I2]. split; constructor; auto.
Qed.

Lemma history os : forall p p', foldR run_pt_op os p = Ok p' ->
  Forall (fun o => match o with DoSplit f => keeps_text f | DoTokenize _ => True end) os ->
  pt_orig p' = pt_orig p /\ text_of (pt_splits p') = text_of (pt_splits p) /\
  subseq (filter has_toks (pt_splits p)) (filter has_toks (pt_splits p')).
Proof.
  induction os as [|o os IH]; intros p p' E F; cbn in E.
  - injection E as <-. split; [reflexivity|]. split; [reflexivity|apply subseq_refl].
  - destruct (run_pt_op p o) as [q| | | |] eqn:Q; try discriminate. inversion_clear F as [|? ? H F'].
    destruct (IH _ _ E F') as (I1 & I2 & I3). destruct o as [f|f]; cbn in Q.
    + destruct (split_spec _ _ _ Q) as (O & Sb & _). rewrite I1, I2. split; [exact O|]. split; [exact (split_text _ _ _ H Q)|].
      apply (subseq_filter has_toks) in Sb.
      assert (X : filter has_toks (filter has_toks (pt_splits p)) = filter has_toks (pt_splits p)).
      { clear. induction (pt_splits p) as [|x l IH]; [reflexivity|]. cbn. destruct (has_toks x) eqn:E; [|exact IH]. cbn. now rewrite E, IH. }
      rewrite X in Sb. exact (subseq_trans _ _ _ Sb I3).
    + destruct (tokenize_spec _ _ _ Q) as (O & _ & _). destruct (tokenize_text _ _ _ Q) as [T Sb].
      rewrite I1, I2. split; [exact O|]. split; [unfold text_of; now rewrite T|]. exact (subseq_trans _ _ _ Sb I3).
Qed.

(** * IntoEncoding *)

Lemma piece_rows_spec m n w toks rows : piece_rows m n w toks = Ok rows ->
  map (fun x => fst (fst x)) rows = toks /\ map (fun x => snd (fst x)) rows = repeat w (length toks) /\
  Forall2 (fun t x => exists o, byte_offsets n (t_off t) = Ok o /\ snd x = char_offsets m o) toks rows.
Proof.
  revert rows. induction toks as [|t toks IH]; intros rows E; cbn in E.
  - injection E as <-. split; [reflexivity|]. split; [reflexivity|constructor].
  - destruct (byte_offsets n (t_off t)) as [o| | | |] eqn:B; try discriminate. cbn in E.
    destruct (piece_rows m n w toks) as [rest| | | |] eqn:R; try discriminate. injection E as <-.
    destruct (IH _ eq_refl) as (I1 & I2 & I3). cbn. rewrite I1, I2. split; [reflexivity|]. split; [reflexivity|].
    constructor; [eauto|exact I3].
Qed.

Lemma forall2_app {A B} (R : A -> B -> Prop) a b c d : Forall2 R a b -> Forall2 R c d -> Forall2 R (a ++ c) (b ++ d).
Proof. induction 1; cbn; auto. Qed.

Lemma all_rows_spec m wi : forall l i rows, all_rows m wi i l = Ok rows ->
  map (fun x => fst (fst x)) rows = flat_map toks_in l /\
  map (fun x => snd (fst x)) rows = flat_map (fun x => repeat (if wi =? -1 then Z.of_nat (fst x) else wi) (length (toks_in (snd x))))
    (combine (seq i (length l)) l) /\
  Forall2 (fun nt x => exists o, byte_offsets (fst nt) (t_off (snd nt)) = Ok o /\ snd x = char_offsets m o)
    (flat_map (fun sp => map (pair (sp_ns sp)) (toks_in sp)) l) rows.
Proof.
  induction l as [|sp l IH]; intros i rows E; cbn in E.
  - injection E as <-. split; [reflexivity|]. split; [reflexivity|constructor].
  - destruct (piece_rows m (sp_ns sp) _ _) as [r1| | | |] eqn:R1; try discriminate. cbn in E.
    destruct (all_rows m wi (S i) l) as [r2| | | |] eqn:R2; try discriminate. injection E as <-.
    destruct (piece_rows_spec _ _ _ _ _ R1) as (P1 & P2 & P3). destruct (IH _ _ R2) as (I1 & I2 & I3).
    rewrite !map_app, P1, P2, I1, I2. split; [reflexivity|]. split; [reflexivity|]. cbn.
    apply forall2_app; [|exact I3].
    fold (toks_in sp) in P3. clear -P3. induction P3; cbn; constructor; auto.
Qed.

Lemma into_ok p ty wi ot e : into_encoding p ty wi ot = Ok e ->
  exists rows m, (m = match ot with OChar => char_map (runes_w (pt_orig p)) 0 0 [] | _ => [] end) /\
    e = mkEnc (map (fun x => t_id (fst (fst x))) rows) (map (fun _ => ty) rows)
          (map (fun x => t_value (fst (fst x))) rows) (map snd rows)
          (map (fun _ => 0) rows) (map (fun _ => 1) rows)
          (map (fun x => snd (fst x)) rows) [] (Some []) /\
    map (fun x => fst (fst x)) rows = all_toks p /\
    map (fun x => snd (fst x)) rows = word_numbers p wi /\
    Forall2 (fun nt x => exists o, byte_offsets (fst nt) (t_off (snd nt)) = Ok o /\ snd x = char_offsets m o) (located p) rows.
Proof.
  unfold into_encoding, all_toks, word_numbers, located. destruct (pt_splits p) as [|sp l] eqn:Sp.
  - intros [= <-]. exists [], (match ot with OChar => char_map (runes_w (pt_orig p)) 0 0 [] | _ => [] end).
    split; [reflexivity|]. split; [reflexivity|]. split; [reflexivity|]. split; [reflexivity|constructor].
  - destruct (existsb _ _); [discriminate|]. intros E.
    set (mm := match ot with OChar => char_map (runes_w (pt_orig p)) 0 0 [] | _ => [] end).
    assert (E' : (do rows <- all_rows mm wi 0 (sp :: l); Ok
       (mkEnc (map (fun x => t_id (fst (fst x))) rows) (map (fun _ => ty) rows)
          (map (fun x => t_value (fst (fst x))) rows) (map snd rows)
          (map (fun _ => 0) rows) (map (fun _ => 1) rows)
          (map (fun x => snd (fst x)) rows) [] (Some []))) = Ok e).
    { destruct ot; cbn [bind] in E; [exact E|exact E|discriminate]. }
    destruct (all_rows mm wi 0 (sp :: l)) as [rows| | | |] eqn:R; try discriminate. injection E' as <-.
    destruct (all_rows_spec _ _ _ _ _ R) as (H1 & H2 & H3). exists rows, mm. auto.
Qed.

Lemma map_const {A B} (c : B) (l : list A) : map (fun _ => c) l = repeat c (length l).
Proof. induction l; cbn; congruence. Qed.

Lemma into_rows p ty wi ot e : into_encoding p ty wi ot = Ok e ->
  ids e = map t_id (all_toks p) /\ tokens e = map t_value (all_toks p) /\
  words e = word_numbers p wi /\
  type_ids e = repeat ty (length (all_toks p)) /\ special e = repeat 0 (length (all_toks p)) /\
  attention e = repeat 1 (length (all_toks p)) /\ length (offsets e) = length (all_toks p) /\ length (words e) = length (all_toks p) /\
  overflowing e = [] /\ seq_ranges e = Some [].
Proof.
  intros E. destruct (into_ok _ _ _ _ _ E) as (rows & m & _ & -> & T & W & _). cbn.
  assert (L : length rows = length (all_toks p)) by (rewrite <- T; now rewrite map_length).
  rewrite <- T, !map_map, W, !map_const, !map_length. repeat (split; [reflexivity|]).
  split; [|split; reflexivity]. rewrite <- W, map_length. reflexivity.
Qed.

Lemma byte_offsets_good orig sp t : placed orig sp -> good_token (sp_ns sp) t ->
  exists a b, byte_offsets (sp_ns sp) (t_off t) = Ok (ns_shift (sp_ns sp) + a, ns_shift (sp_ns sp) + b) /\
    0 <= a /\ a <= b /\ b <= zlen (ns_orig (sp_ns sp)) /\
    forall i q, fst (t_off t) <= i < snd (t_off t) -> nth_error (ns_al (sp_ns sp)) (Z.to_nat i) = Some q -> a <= fst q /\ snd q <= b.
Proof.
  intros (W & O & _ & _) (G1 & G2 & G3).
  destruct (convert_normalized_inside (sp_ns sp) (fst (t_off t)) (snd (t_off t)) W O G1 G2 G3) as (a & b & C & H1 & H2 & H3 & H4).
  exists a, b. unfold byte_offsets. rewrite C. cbn. auto 6.
Qed.

Lemma piece_rows_ok m orig sp w toks : placed orig sp -> Forall (good_token (sp_ns sp)) toks -> exists rows, piece_rows m (sp_ns sp) w toks = Ok rows.
Proof.
  intros P. induction 1 as [|t toks G _ IH]; [eexists; reflexivity|]. cbn.
  destruct (byte_offsets_good _ _ _ P G) as (a & b & -> & _). destruct IH as (rows & ->). eexists. reflexivity.
Qed.

Lemma all_rows_ok m wi orig : forall l i, Forall (fun sp => placed orig sp /\ Forall (good_token (sp_ns sp)) (toks_in sp)) l ->
  exists rows, all_rows m wi i l = Ok rows.
Proof.
  induction l as [|sp l IH]; intros i F; [eexists; reflexivity|]. inversion_clear F as [|? ? [P G] F']. cbn.
  destruct (piece_rows_ok m orig sp (if wi =? -1 then Z.of_nat i else wi) _ P G) as (r & R). unfold toks_in in R. rewrite R.
  destruct (IH (S i) F') as (r2 & ->). eexists. reflexivity.
Qed.

Lemma into_error p ty wi ot : good_pieces p ->
  (into_encoding p ty wi ot = Err /\ pt_splits p <> [] /\ ((exists sp, In sp (pt_splits p) /\ toks_in sp = []) \/ ot = OInvalid)) \/
  ((exists e, into_encoding p ty wi ot = Ok e) /\
   (pt_splits p = [] \/ (forall sp, In sp (pt_splits p) -> toks_in sp <> []) /\ ot <> OInvalid)).
Proof.
  unfold good_pieces, into_encoding. destruct (pt_splits p) as [|s0 l0] eqn:Sp.
  - intros _. right. split; [eexists; reflexivity|now left].
  - intros G. set (l := s0 :: l0) in *. set (g := fun sp => match sp_toks sp with None | Some [] => true | _ => false end).
    assert (Gt : forall sp, g sp = true <-> toks_in sp = []).
    { intros sp. unfold g, toks_in. destruct (sp_toks sp) as [[|]|]; split; congruence. }
    destruct (existsb g l) eqn:X.
    + left. split; [reflexivity|]. split; [discriminate|]. left. apply existsb_exists in X as (sp & I & H). exists sp.
      split; [exact I|now apply Gt].
    + assert (Na : forall sp, In sp l -> toks_in sp <> []).
      { intros sp I H. apply Gt in H. assert (existsb g l = true) by (apply existsb_exists; eauto). congruence. }
      destruct ot.
      * right. cbn [bind]. destruct (all_rows_ok [] wi (pt_orig p) l 0 G) as (r & ->). split; [eexists; reflexivity|].
        right. split; [exact Na|discriminate].
      * right. cbn [bind]. destruct (all_rows_ok (char_map (runes_w (pt_orig p)) 0 0 []) wi (pt_orig p) l 0 G) as (r & ->).
        split; [eexists; reflexivity|]. right. split; [exact Na|discriminate].
      * left. split; [reflexivity|]. split; [discriminate|now right].
Qed.

Lemma into_fails p ty wi ot : good_pieces p ->
  (into_encoding p ty wi ot = Err <-> pt_splits p <> [] /\ ((exists sp, In sp (pt_splits p) /\ toks_in sp = []) \/ ot = OInvalid)) /\
  (into_encoding p ty wi ot <> Err -> exists e, into_encoding p ty wi ot = Ok e).
Proof.
  intros G. destruct (into_error p ty wi ot G) as [(E & N & H)|((e & E) & H)].
  - split; [tauto|congruence].
  - rewrite E. split; [|eauto]. split; [discriminate|]. intros [N [(sp & I & T)|H']]; [|destruct H as [H|[_ H]]; congruence].
    destruct H as [H|[H _]]; [congruence|]. elim (H sp I T).
Qed.

Lemma char_offsets_nil o : char_offsets [] o = o.
Proof. reflexivity. Qed.

Lemma into_bytes p ty wi e : good_pieces p -> into_encoding p ty wi OByte = Ok e ->
  Forall2 (fun (nt : ns * token) o => let n := fst nt in let t := snd nt in
    exists a b, o = (ns_shift n + a, ns_shift n + b) /\
      0 <= ns_shift n + a /\ a <= b /\ ns_shift n + b <= zlen (pt_orig p) /\ b <= zlen (ns_orig n) /\ 0 <= a /\
      forall i q, fst (t_off t) <= i < snd (t_off t) -> nth_error (ns_al n) (Z.to_nat i) = Some q -> a <= fst q /\ snd q <= b)
    (located p) (offsets e).
Proof.
  intros G E. destruct (into_ok _ _ _ _ _ E) as (rows & m & -> & -> & _ & _ & F). cbn. clear E.
  assert (Gl : Forall (fun nt => exists sp, placed (pt_orig p) sp /\ sp_ns sp = fst nt /\ good_token (fst nt) (snd nt)) (located p)).
  { unfold located. apply Forall_forall. intros nt I. apply in_flat_map in I as (sp & I1 & I2).
    apply in_map_iff in I2 as (t & <- & I2). unfold good_pieces in G. rewrite Forall_forall in G. destruct (G sp I1) as [P Gt].
    rewrite Forall_forall in Gt. exists sp. auto. }
  clear G. revert Gl. induction F as [|nt x l rows (o & B & X) _ IH]; intros Gl; [constructor|].
  inversion_clear Gl as [|? ? (sp & P & N & Gt) Gl']. cbn. constructor; [|auto].
  rewrite <- N in *. destruct (byte_offsets_good _ _ _ P Gt) as (a & b & B' & H1 & H2 & H3 & H4).
  destruct P as (_ & _ & P1 & P2).
  rewrite B' in B. injection B as <-. exists a, b. rewrite X, char_offsets_nil. split; [reflexivity|].
  do 5 (split; [lia|]). exact H4.
Qed.

(** * Character positions *)

Lemma zeqb_eq (a b : Z) : Z.eqb a b = true <-> a = b.
Proof. apply Z.eqb_eq. Qed.

Lemma fold_aset (pos k i : Z) : forall w (m : list (Z * Z)),
  aget Z.eqb i (fold_left (fun m n => aset Z.eqb (pos + Z.of_nat n) k m) (seq 0 w) m) =
  if (pos <=? i) && (i <? pos + Z.of_nat w) then Some k else aget Z.eqb i m.
Proof.
  induction w as [|w IH]; intros m.
  - cbn. replace ((pos <=? i) && (i <? pos + 0)) with false by lia. reflexivity.
  - rewrite seq_S, fold_left_app. cbn [fold_left Nat.add]. rewrite (ag_aset Z.eqb zeqb_eq), IH.
    destruct (i =? pos + Z.of_nat w) eqn:E; [replace ((pos <=? i) && (i <? pos + Z.of_nat (S w))) with true by lia; reflexivity|].
    replace ((pos <=? i) && (i <? pos + Z.of_nat (S w))) with ((pos <=? i) && (i <? pos + Z.of_nat w)) by lia. reflexivity.
Qed.

(** The text encoding [rs] starting at byte [pos] with character number [k]. *)
Lemma b2c_outside i : forall rs pos k m, i < pos \/ pos + zlen (encode rs) <= i -> aget Z.eqb i (b2c_map rs pos k m) = aget Z.eqb i m.
Proof.
  induction rs as [|r rs IH]; intros pos k m H; [reflexivity|]. cbn [b2c_map].
  assert (L : zlen (encode (r :: rs)) = zlen (encode_rune r) + zlen (encode rs)) by (unfold encode; cbn; unfold zlen; rewrite app_length; lia).
  rewrite IH, fold_aset by (unfold zlen in *; lia).
  replace ((pos <=? i) && (i <? pos + Z.of_nat (length (encode_rune r)))) with false by (unfold zlen in *; lia). reflexivity.
Qed.

Lemma b2c_inside r post : forall pre pos k m j, 0 <= j < zlen (encode_rune r) ->
  aget Z.eqb (pos + zlen (encode pre) + j) (b2c_map (pre ++ r :: post) pos k m) = Some (k + zlen pre).
Proof.
  induction pre as [|c pre IH]; intros pos k m j H.
  - cbn [app b2c_map]. change (zlen (encode [])) with 0. rewrite b2c_outside by (unfold zlen in *; lia).
    rewrite fold_aset. unfold zlen in *. replace (_ && _) with true by lia. f_equal. cbn. lia.
  - cbn [app b2c_map].
    assert (L : zlen (encode (c :: pre)) = zlen (encode_rune c) + zlen (encode pre)) by (unfold encode; cbn; unfold zlen; rewrite app_length; lia).
    rewrite L. replace (pos + (zlen (encode_rune c) + zlen (encode pre)) + j) with (pos + zlen (encode_rune c) + zlen (encode pre) + j) by lia.
    unfold zlen at 1. rewrite IH by assumption. f_equal. unfold zlen. cbn [length]. lia.
Qed.

Lemma encode_rune_pos r : 0 < zlen (encode_rune r).
Proof. unfold encode_rune, zlen. repeat match goal with |- context [if ?c then _ else _] => destruct c end; cbn; lia. Qed.

Lemma char_map_valid rs : Forall scalar rs -> forall pos k m,
  char_map (runes_w (encode rs)) pos k m = b2c_map rs pos k m.
Proof.
  intros F. rewrite runes_w_encode by assumption. clear F.
  induction rs as [|r rs IH]; intros pos k m; [reflexivity|]. cbn [map char_map b2c_map]. apply IH.
Qed.

Lemma encode_app_len a b : zlen (encode (a ++ b)) = zlen (encode a) + zlen (encode b).
Proof. unfold encode. rewrite map_app, concat_app. unfold zlen. rewrite app_length. lia. Qed.

Lemma b2c_at pre post : post <> [] -> aget Z.eqb (zlen (encode pre)) (b2c_map (pre ++ post) 0 0 []) = Some (zlen pre).
Proof.
  intros H. destruct post as [|r post]; [congruence|].
  pose proof (b2c_inside r post pre 0 0 [] 0 ltac:(pose proof (encode_rune_pos r); lia)) as X.
  rewrite Z.add_0_r in X. exact X.
Qed.

Lemma b2c_end rs : aget Z.eqb (zlen (encode rs)) (b2c_map rs 0 0 []) = None.
Proof. rewrite b2c_outside by lia. reflexivity. Qed.

Lemma b2c_last rs : rs <> [] -> aget Z.eqb (zlen (encode rs) - 1) (b2c_map rs 0 0 []) = Some (zlen rs - 1).
Proof.
  intros H. destruct (exists_last H) as (pre & r & ->).
  pose proof (b2c_inside r [] pre 0 0 [] (zlen (encode_rune r) - 1) ltac:(pose proof (encode_rune_pos r); lia)) as X.
  rewrite encode_app_len. replace (zlen (encode [r])) with (zlen (encode_rune r)) by (unfold encode; cbn; now rewrite app_nil_r).
  replace (zlen (encode pre) + zlen (encode_rune r) - 1) with (0 + zlen (encode pre) + (zlen (encode_rune r) - 1)) by lia.
  rewrite X. f_equal. unfold zlen. rewrite app_length. cbn. lia.
Qed.

Lemma char_offsets_inside pre mid post : post <> [] ->
  char_offsets (b2c_map (pre ++ mid ++ post) 0 0 []) (zlen (encode pre), zlen (encode (pre ++ mid))) = (zlen pre, zlen (pre ++ mid)).
Proof.
  intros H. unfold char_offsets. cbn [fst snd].
  rewrite b2c_at by (intros E; apply app_eq_nil in E as [_ E]; congruence).
  rewrite app_assoc, b2c_at by assumption. reflexivity.
Qed.

Lemma char_offsets_end pre mid : mid <> [] ->
  char_offsets (b2c_map (pre ++ mid) 0 0 []) (zlen (encode pre), zlen (encode (pre ++ mid))) = (zlen pre, zlen (pre ++ mid) - 1).
Proof.
  intros H. unfold char_offsets. cbn [fst snd]. rewrite b2c_at by assumption. rewrite b2c_end.
  rewrite b2c_last by (intros E; apply app_eq_nil in E as [_ E]; congruence). reflexivity.
Qed.

Lemma into_chars p ty wi e e' rs : pt_orig p = encode rs -> Forall scalar rs ->
  into_encoding p ty wi OByte = Ok e -> into_encoding p ty wi OChar = Ok e' ->
  offsets e' = map (char_offsets (b2c_map rs 0 0 [])) (offsets e).
Proof.
  intros Ho V E E'. destruct (into_ok _ _ _ _ _ E) as (rows & m & -> & -> & _ & _ & F).
  destruct (into_ok _ _ _ _ _ E') as (rows' & m' & -> & -> & _ & _ & F'). cbn. rewrite Ho in F'. rewrite char_map_valid in F' by assumption.
  clear E E'. revert rows' F'. induction F as [|nt x l rows (o & B & X) _ IH]; intros rows' F'; inversion_clear F' as [|? x' ? l' (o' & B' & X') F''].
  - reflexivity.
  - cbn. rewrite (IH _ F''). f_equal. rewrite B in B'. injection B' as <-. now rewrite X', X, char_offsets_nil.
Qed.

Lemma into_chars_pos p ty wi e e' rs i pre mid post : pt_orig p = encode rs -> Forall scalar rs ->
  into_encoding p ty wi OByte = Ok e -> into_encoding p ty wi OChar = Ok e' ->
  rs = pre ++ mid ++ post ->
  nth_error (offsets e) i = Some (zlen (encode pre), zlen (encode (pre ++ mid))) ->
  (post <> [] -> nth_error (offsets e') i = Some (zlen pre, zlen (pre ++ mid))) /\
  (post = [] -> mid <> [] -> nth_error (offsets e') i = Some (zlen pre, zlen (pre ++ mid) - 1)).
Proof.
  intros Ho V E E' R N. rewrite (into_chars _ _ _ _ _ _ Ho V E E'), nth_error_map, N. cbn [option_map]. subst rs. split.
  - intros H. now rewrite char_offsets_inside.
  - intros -> H. rewrite app_nil_r. now rewrite char_offsets_end.
Qed.

(** * GetSplits *)

Lemma get_pieces_bytes on : forall l off, exists r, get_pieces None on off l = Ok r /\
  map (fun x => fst (fst x)) r = map sp_text l /\ map snd r = map sp_toks l.
Proof.
  induction l as [|sp l IH]; intros off; [eexists; split; [reflexivity|split; reflexivity]|]. cbn.
  destruct (IH (match on with OnOriginal => off | OnNormalized => off + zlen (ns_norm (sp_ns sp)) end)) as (r & -> & H1 & H2). cbn.
  eexists. split; [reflexivity|]. cbn. rewrite H1, H2. split; reflexivity.
Qed.

Lemma get_pieces_original : forall l off r, get_pieces None OnOriginal off l = Ok r ->
  map (fun x => snd (fst x)) r = map (fun sp => (ns_shift (sp_ns sp), ns_shift (sp_ns sp) + zlen (ns_orig (sp_ns sp)))) l.
Proof.
  induction l as [|sp l IH]; intros off r E; cbn in E; [injection E as <-; reflexivity|].
  destruct (get_pieces None OnOriginal off l) as [rest| | | |] eqn:R; try discriminate. injection E as <-. cbn. now rewrite (IH _ _ R).
Qed.

Lemma get_pieces_normalized : forall l off r, get_pieces None OnNormalized off l = Ok r ->
  forall i x, nth_error r i = Some x ->
    snd (fst x) = (off + zlen (text_of (firstn i l)), off + zlen (text_of (firstn (S i) l))).
Proof.
  induction l as [|sp l IH]; intros off r E i x Hx; cbn in E; [injection E as <-; destruct i; discriminate|].
  destruct (get_pieces None OnNormalized (off + zlen (ns_norm (sp_ns sp))) l) as [rest| | | |] eqn:R; try discriminate.
  injection E as <-. destruct i as [|i].
  - injection Hx as <-. cbn. unfold text_of, sp_text. cbn. rewrite app_nil_r. f_equal; unfold zlen; cbn; lia.
  - cbn in Hx. rewrite (IH _ _ R i x Hx). change (firstn (S (S i)) (sp :: l)) with (sp :: firstn (S i) l).
    change (firstn (S i) (sp :: l)) with (sp :: firstn i l). unfold text_of. cbn [map concat].
    unfold sp_text at 3 5. unfold zlen. rewrite !app_length. f_equal; lia.
Qed.

Lemma get_pieces_panic m e : aget Z.eqb e m = None -> forall l off,
  (exists sp, In sp l /\ ns_shift (sp_ns sp) + zlen (ns_orig (sp_ns sp)) = e) ->
  get_pieces (Some m) OnOriginal off l = Panic.
Proof.
  intros Hm. induction l as [|sp l IH]; intros off (x & I & Hx); [destruct I|]. cbn.
  unfold b2c_convert. cbn [fst snd]. destruct (aget Z.eqb (ns_shift (sp_ns sp)) m) as [s|]; [|reflexivity].
  destruct (aget Z.eqb (ns_shift (sp_ns sp) + zlen (ns_orig (sp_ns sp))) m) as [e'|] eqn:G; [|reflexivity]. cbn.
  destruct I as [->|I]; [congruence|]. rewrite IH by eauto. reflexivity.
Qed.

Lemma get_splits_panic p sp : valid_utf8 (pt_orig p) -> In sp (pt_splits p) ->
  ns_shift (sp_ns sp) + zlen (ns_orig (sp_ns sp)) = zlen (pt_orig p) -> get_splits p OnOriginal true = Panic.
Proof.
  intros (rs & F & R) I H. unfold get_splits. apply (get_pieces_panic _ (zlen (pt_orig p))); [|eauto].
  rewrite R. replace (runes (encode rs)) with rs by (symmetry; now apply runes_encode). apply b2c_end.
Qed.
