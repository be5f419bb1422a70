(** Proofs about the tokens an encoding consists of (C57, C58). *)
From Verif Require Import Base BaseProofs Utf8Model Utf8Proofs PatternModel PatternSpec NormalizedModel NormalizedSpec NormalizedProofs EncodingModel EncodingSpec EncodingProofs
  BpeModel AddedVocabModel AddedVocabSpec AddedFindProofs PreTokenizedModel PreTokenizedSpec PreTokenizedProofs
  PreTokenizerModel PreTokenizerProofs ProcessorModel PipelineModel PipelineSpec PipelineProofs PipelineOffsetProofs TokensSpec.
Open Scope Z_scope.

(** ** Numbers *)
Lemma word_numbers_runs l : forall i, flat_map (fun x => repeat (Z.of_nat (fst x)) (length (toks_in (snd x)))) (combine (seq i (length l)) l) =
  run_numbers (Z.of_nat i) (map toks_in l).
Proof.
  induction l as [|sp l IH]; intros i; [reflexivity|]. cbn [length seq combine flat_map map run_numbers fst snd]. rewrite IH. do 2 f_equal. lia.
Qed.
Lemma word_numbers_const l (w : Z) : forall i, flat_map (fun x : nat * split => repeat w (length (toks_in (snd x)))) (combine (seq i (length l)) l) =
  repeat w (length (flat_map toks_in l)).
Proof.
  induction l as [|sp l IH]; intros i; [reflexivity|]. cbn [length seq combine flat_map fst snd]. now rewrite IH, app_length, repeat_app.
Qed.

(** ** One text *)
Lemma text_stages ss si t ty wi ot s e : encode_text ss si t ty wi ot s = Ok e ->
  exists p p' toks, extract_and_normalize ss si t s = Ok p /\ match tk_pre t with None => p' = p | Some f => f p = Ok p' end /\
    Forall2 (tokens_from t) (pt_splits p') toks /\ real_tokens e (concat toks) ty /\ seq_ranges e = Some [] /\
    words e = (if wi =? -1 then run_numbers 0 toks else repeat wi (length (concat toks))).
Proof.
  unfold encode_text, do_tokenize. intros H. apply bind_Ok_inv in H as (p & H1 & H). apply bind_Ok_inv in H as (p' & H2 & H). apply bind_Ok_inv in H as (q & H3 & H).
  exists p, p', (map toks_in (pt_splits q)). split; [exact H1|]. split; [destruct (tk_pre t); [exact H2|congruence]|].
  destruct (tokenize_spec _ _ _ H3) as (_ & _ & F). destruct (into_rows _ _ _ _ _ H) as (R1 & R2 & R3 & R4 & R5 & R6 & _ & _ & R7 & R8).
  split.
  - assert (NE : Forall (fun sp => exists x l, sp_toks sp = Some (x :: l)) (pt_splits q)).
    { clear -H. unfold into_encoding in H. destruct (pt_splits q) as [|sp l]; [constructor|].
      destruct (existsb _ (sp :: l)) eqn:E; [discriminate|]. clear H. apply Forall_forall. intros x Hx.
      destruct (sp_toks x) as [[|y l']|] eqn:Ex; [|eauto|]; exfalso; rewrite <- not_true_iff_false in E; apply E; apply existsb_exists; exists x; rewrite Ex; auto. }
    clear -F NE. induction F as [|sp sp' l l' H F IH]; [constructor|]. inversion NE as [|? ? (x & r & Ex) NE']; subst. cbn [map]. constructor; [|now apply IH].
    unfold tokens_from, toks_in. rewrite Ex. split; [discriminate|]. unfold has_toks in H. destruct (sp_toks sp) as [ts|] eqn:Es.
    + subst sp'. congruence.
    + destruct (tk_model t) as [f|]; [|discriminate]. exists f. split; [reflexivity|]. unfold sp_text. now rewrite H, Ex.
  - unfold all_toks in *. rewrite flat_map_concat_map in *. split; [unfold real_tokens; auto 10|]. split; [exact R8|].
    rewrite R3. unfold word_numbers. destruct (wi =? -1).
    + apply (word_numbers_runs (pt_splits q) 0).
    + rewrite word_numbers_const. now rewrite flat_map_concat_map.
Qed.

(** ** Merging encodings without overflow *)
Definition all_lists (e : Encoding) := (ids e, type_ids e, tokens e, offsets e, special e, attention e, words e).
Lemma merge_lists e p r : merge_with false e p = Ok r -> overflowing e = [] -> overflowing p = [] ->
  ids r = ids e ++ ids p /\ type_ids r = type_ids e ++ type_ids p /\ tokens r = tokens e ++ tokens p /\ offsets r = offsets e ++ offsets p /\
  special r = special e ++ special p /\ attention r = attention e ++ attention p /\ words r = words e ++ words p /\ overflowing r = [].
Proof.
  intros H He Hp. destruct (merge_plain _ _ _ H He Hp) as [Of Ov]. pose proof (merge_with_flat _ _ _ _ H) as F.
  change (ids r) with (ids (flat r)). change (type_ids r) with (type_ids (flat r)). change (tokens r) with (tokens (flat r)).
  change (special r) with (special (flat r)). change (attention r) with (attention (flat r)). change (words r) with (words (flat r)).
  rewrite Of, Ov, F. cbn. auto 10.
Qed.
Lemma merges_lists l : forall e r, foldR (fun acc p => merge_with false acc p) l e = Ok r -> overflowing e = [] -> Forall (fun p => overflowing p = []) l ->
  ids r = ids e ++ concat (map ids l) /\ type_ids r = type_ids e ++ concat (map type_ids l) /\ tokens r = tokens e ++ concat (map tokens l) /\
  offsets r = offsets e ++ concat (map offsets l) /\ special r = special e ++ concat (map special l) /\
  attention r = attention e ++ concat (map attention l) /\ words r = words e ++ concat (map words l) /\ overflowing r = [].
Proof.
  induction l as [|p l IH]; intros e r; cbn [foldR map concat]; [intros [= <-] He _; rewrite !app_nil_r; auto 10|].
  destruct (merge_with false e p) as [x| | | |] eqn:E; try discriminate. intros H He Hl. inversion Hl; subst.
  destruct (merge_lists e p x E) as (X1 & X2 & X3 & X4 & X5 & X6 & X7 & X8); auto.
  destruct (IH x r H X8) as (Y1 & Y2 & Y3 & Y4 & Y5 & Y6 & Y7 & Y8); auto.
  rewrite Y1, Y2, Y3, Y4, Y5, Y6, Y7, X1, X2, X3, X4, X5, X6, X7, !app_assoc. auto 10.
Qed.
(** Merging never fails when there are range maps and nothing overflows. *)
Lemma merge_ok e p : overflowing e = [] -> overflowing p = [] -> seq_ranges e = Some [] -> seq_ranges p = Some [] ->
  exists r, merge_with false e p = Ok r /\ overflowing r = [] /\ seq_ranges r = Some [].
Proof.
  intros He Hp Se Sp. rewrite merge_with_eq. rewrite He, Hp. cbn. unfold merge_flat. rewrite Se, Sp. cbn. eexists. split; [reflexivity|]. split; reflexivity.
Qed.
Lemma merges_ok l : forall e, overflowing e = [] -> seq_ranges e = Some [] -> Forall (fun p => overflowing p = [] /\ seq_ranges p = Some []) l ->
  exists r, foldR (fun acc p => merge_with false acc p) l e = Ok r /\ overflowing r = [] /\ seq_ranges r = Some [].
Proof.
  induction l as [|p l IH]; intros e He Se F; cbn [foldR]; [eauto|]. inversion F as [|? ? [Hp Sp] F']; subst.
  destruct (merge_ok e p He Hp Se Sp) as (x & E & Hx & Sx). rewrite E. now apply IH.
Qed.

Section Sorted.
  Variable ss si : list io_pair -> list io_pair.

  Lemma text_plain t ty wi ot s e : encode_text ss si t ty wi ot s = Ok e -> overflowing e = [] /\ seq_ranges e = Some [].
  Proof. intros H. destruct (text_stages _ _ _ _ _ _ _ _ H) as (p & p' & toks & _ & _ & _ & R & Sr & _). split; [apply R|exact Sr]. Qed.

  (** EncodeSingleSequence of a text gives the same lists as encoding it. *)
  Lemma raw_same t ty ot s : forall e, encode_sequence ss si t ty ot (Raw s) = Ok e -> exists e0, encode_text ss si t ty (-1) ot s = Ok e0 /\
    all_lists e = all_lists e0 /\ overflowing e = [] /\ seq_ranges e = Some [].
  Proof.
    intros e H. apply bind_Ok_inv in H as (l & Hl & H). apply bind_Ok_inv in Hl as (e0 & He & Hl). injection Hl as <-.
    destruct (text_plain _ _ _ _ _ _ He) as [O0 S0]. exists e0. split; [exact He|]. unfold merge in H.
    destruct (merges_ok [e0] default_encoding eq_refl eq_refl) as (r & Hr & Or & Sr); [repeat constructor; auto|].
    assert (Er : r = e) by congruence. subst r.
    destruct (merges_lists [e0] default_encoding e H eq_refl) as (X1 & X2 & X3 & X4 & X5 & X6 & X7 & X8); [repeat constructor; exact O0|].
    cbn in X1, X2, X3, X4, X5, X6, X7. rewrite app_nil_r in *. unfold all_lists. rewrite X1, X2, X3, X4, X5, X6, X7. auto.
  Qed.
  Lemma raw_ok t ty ot s e0 : encode_text ss si t ty (-1) ot s = Ok e0 -> exists e, encode_sequence ss si t ty ot (Raw s) = Ok e.
  Proof.
    intros He. destruct (text_plain _ _ _ _ _ _ He) as [O0 S0]. unfold encode_sequence. rewrite He. cbn [bind]. unfold merge.
    destruct (merges_ok [e0] default_encoding eq_refl eq_refl) as (r & Hr & _); [repeat constructor; auto|]. eauto.
  Qed.

  (** The word index passed to IntoEncoding only changes the words. *)
  Lemma text_word_index t ty ot s wi wi' e : encode_text ss si t ty wi ot s = Ok e ->
    exists e', encode_text ss si t ty wi' ot s = Ok e' /\ ids e' = ids e /\ type_ids e' = type_ids e /\ tokens e' = tokens e /\ offsets e' = offsets e /\
      special e' = special e /\ attention e' = attention e.
  Proof.
    unfold encode_text, do_tokenize. intros H. apply bind_Ok_inv in H as (p & H1 & H). apply bind_Ok_inv in H as (p' & H2 & H). apply bind_Ok_inv in H as (q & H3 & H).
    rewrite H1. cbn [bind]. rewrite H2. cbn [bind]. rewrite H3. cbn [bind]. clear H1 H2 H3. unfold into_encoding in *. destruct (pt_splits q) as [|sp l]; [injection H as <-; eauto 10|].
    destruct (existsb _ (sp :: l)); [discriminate|]. apply bind_Ok_inv in H as (m & Hm & H). rewrite Hm. cbn [bind]. apply bind_Ok_inv in H as (rows & Hr & H). injection H as <-.
    assert (PR : forall n w w' toks rows, piece_rows m n w toks = Ok rows -> exists rows', piece_rows m n w' toks = Ok rows' /\
      map (fun x => fst (fst x)) rows' = map (fun x => fst (fst x)) rows /\ map snd rows' = map snd rows).
    { clear. intros n w w' toks. induction toks as [|t toks IH]; intros rows H; cbn [piece_rows] in *; [injection H as <-; eauto|].
      apply bind_Ok_inv in H as (o & Ho & H). apply bind_Ok_inv in H as (rest & Hr & H). injection H as <-. destruct (IH rest Hr) as (rest' & Hr' & M1 & M2).
      rewrite Ho. cbn [bind]. rewrite Hr'. cbn [bind]. eexists. split; [reflexivity|]. cbn [map fst snd]. rewrite M1, M2. split; reflexivity. }
    assert (AR : forall l i rows, all_rows m wi i l = Ok rows -> exists rows', all_rows m wi' i l = Ok rows' /\
      map (fun x => fst (fst x)) rows' = map (fun x => fst (fst x)) rows /\ map snd rows' = map snd rows).
    { clear -PR. induction l as [|sp l IH]; intros i rows H; cbn [all_rows] in *; [injection H as <-; eauto|].
      apply bind_Ok_inv in H as (r1 & H1 & H). apply bind_Ok_inv in H as (r2 & H2 & H). injection H as <-.
      destruct (PR _ _ (if wi' =? -1 then Z.of_nat i else wi') _ _ H1) as (r1' & E1 & A1 & A2). destruct (IH _ _ H2) as (r2' & E2 & B1 & B2).
      rewrite E1. cbn [bind]. rewrite E2. cbn [bind]. eexists. split; [reflexivity|]. rewrite !map_app, A1, A2, B1, B2. split; reflexivity. }
    destruct (AR _ _ _ Hr) as (rows' & Er & M1 & M2). rewrite Er. cbn [bind]. eexists. split; [reflexivity|]. cbn.
    assert (L : length rows' = length rows) by (apply (f_equal (@length _)) in M2; rewrite !map_length in M2; exact M2).
    rewrite !map_const, L, M2. repeat (split; [try reflexivity|]); try reflexivity.
    - rewrite <- !(map_map (fun x : token * Z * (Z * Z) => fst (fst x)) t_id). now rewrite M1.
    - rewrite <- !(map_map (fun x : token * Z * (Z * Z) => fst (fst x)) t_value). now rewrite M1.
  Qed.

  Lemma words_each t ty ot l : forall i es, 0 <= i -> encode_words ss si t ty ot i l = Ok es ->
    Forall (fun e => overflowing e = [] /\ seq_ranges e = Some []) es /\ Forall (fun e => type_ids e = repeat ty (length (ids e))) es /\
    exists es', Forall2 (fun w e' => encode_sequence ss si t ty ot (Raw w) = Ok e') l es' /\
      map ids es = map ids es' /\ map tokens es = map tokens es' /\ map offsets es = map offsets es' /\ map type_ids es = map type_ids es' /\
      map special es = map special es' /\ map attention es = map attention es' /\ concat (map words es) = run_numbers i (map ids es').
  Proof.
    induction l as [|s l IH]; intros i es Hi H; cbn [encode_words] in H.
    { injection H as <-. split; [constructor|]. split; [constructor|]. exists []. split; [constructor|]. repeat split. }
    apply bind_Ok_inv in H as (e & He & H). apply bind_Ok_inv in H as (rest & Hr & H). injection H as <-.
    destruct (IH (i + 1) rest ltac:(lia) Hr) as (P & Ty & es' & F & M1 & M2 & M3 & M4 & M5 & M6 & M7).
    destruct (text_word_index t ty ot s i (-1) e He) as (e0 & E0 & A1 & A2 & A3 & A4 & A5 & A6).
    destruct (raw_ok _ _ _ _ _ E0) as (e1 & E1). destruct (raw_same _ _ _ _ _ E1) as (e0' & E0' & L & _). assert (e0' = e0) by congruence. subst e0'.
    injection L as L1 L2 L3 L4 L5 L6 L7. split; [constructor; [exact (text_plain _ _ _ _ _ _ He)|exact P]|].
    destruct (text_stages _ _ _ _ _ _ _ _ He) as (p & p' & toks & _ & _ & _ & (R1 & R2 & R3 & _) & _ & W).
    split. { constructor; [|exact Ty]. rewrite R3, R1, map_length. reflexivity. }
    exists (e1 :: es'). split; [constructor; [exact E1|exact F]|]. cbn [map concat run_numbers].
    rewrite M1, M2, M3, M4, M5, M6, M7, L1, L2, L3, L4, L5, L6, A1, A2, A3, A4, A5, A6. repeat (split; [reflexivity|]). f_equal.
    rewrite W. replace (i =? -1) with false by (symmetry; apply Z.eqb_neq; lia). rewrite R1, map_length. reflexivity.
  Qed.

  Lemma words_tokens t ty ot l e : encode_sequence ss si t ty ot (Words l) = Ok e ->
    exists es, Forall2 (fun w e' => encode_sequence ss si t ty ot (Raw w) = Ok e') l es /\
      ids e = concat (map ids es) /\ tokens e = concat (map tokens es) /\ offsets e = concat (map offsets es) /\
      type_ids e = repeat ty (length (ids e)) /\ special e = concat (map special es) /\ attention e = concat (map attention es) /\
      words e = run_numbers 0 (map ids es) /\ overflowing e = [].
  Proof.
    intros H. apply bind_Ok_inv in H as (es0 & Hl & H). destruct (words_each t ty ot l 0 es0 ltac:(lia) Hl) as (P & Ty & es & F & M1 & M2 & M3 & M4 & M5 & M6 & M7).
    exists es. split; [exact F|]. unfold merge in H. destruct (merges_lists es0 default_encoding e H eq_refl) as (X1 & X2 & X3 & X4 & X5 & X6 & X7 & X8).
    { eapply Forall_impl; [|exact P]. now intros a [? _]. }
    cbn [default_encoding ids type_ids tokens offsets special attention words app] in X1, X2, X3, X4, X5, X6, X7.
    rewrite X1, X3, X4, X5, X6, X7, <- M1, <- M2, <- M3, <- M5, <- M6, M7, M1. repeat (split; [reflexivity|]). split; [|auto].
    rewrite X2, <- M1. clear -Ty. induction Ty as [|x es0 Hx Ty IH]; [reflexivity|]. cbn [map concat]. now rewrite app_length, repeat_app, Hx, IH.
  Qed.
  Lemma words_ok t ty ot l : Forall (fun w => exists e, encode_sequence ss si t ty ot (Raw w) = Ok e) l -> exists e, encode_sequence ss si t ty ot (Words l) = Ok e.
  Proof.
    intros F. unfold encode_sequence.
    assert (Q : forall i, exists es, encode_words ss si t ty ot i l = Ok es /\ Forall (fun p => overflowing p = [] /\ seq_ranges p = Some []) es).
    { induction F as [|w l (e & He) F IH]; intros i; cbn [encode_words]; [exists []; split; [reflexivity|constructor]|].
      destruct (raw_same _ _ _ _ _ He) as (e0 & E0 & _). destruct (text_word_index t ty ot w (-1) i e0 E0) as (e1 & E1 & _). rewrite E1. cbn [bind].
      destruct (IH (i + 1)) as (es & E & P). rewrite E. cbn [bind]. eexists. split; [reflexivity|]. constructor; [exact (text_plain _ _ _ _ _ _ E1)|exact P]. }
    destruct (Q 0) as (es & E & P). rewrite E. cbn [bind]. unfold merge. destruct (merges_ok es default_encoding eq_refl eq_refl P) as (r & Hr & _). eauto.
  Qed.

  Lemma raw_tokens t ty ot s e : encode_sequence ss si t ty ot (Raw s) = Ok e ->
    exists p p' toks, extract_and_normalize ss si t s = Ok p /\ match tk_pre t with None => p' = p | Some f => f p = Ok p' end /\
      Forall2 (tokens_from t) (pt_splits p') toks /\ real_tokens e (concat toks) ty /\ words e = run_numbers 0 toks.
  Proof.
    intros H. destruct (raw_same _ _ _ _ _ H) as (e0 & E0 & L & O & _). destruct (text_stages _ _ _ _ _ _ _ _ E0) as (p & p' & toks & A & B & F & R & _ & W).
    exists p, p', toks. split; [exact A|]. split; [exact B|]. split; [exact F|]. injection L as L1 L2 L3 L4 L5 L6 L7.
    unfold real_tokens in *. rewrite L1, L2, L3, L5, L6, L7, O. split; [|exact W]. destruct R as (? & ? & ? & ? & ? & _). auto 10.
  Qed.

  Lemma sequence_types t ty ot x e : encode_sequence ss si t ty ot x = Ok e -> type_ids e = repeat ty (length (ids e)) /\ overflowing e = [].
  Proof.
    destruct x as [s|l]; intros H.
    - destruct (raw_tokens _ _ _ _ _ H) as (p & p' & toks & _ & _ & _ & (R1 & R2 & R3 & R4 & R5 & R6) & _). rewrite R3, R1, map_length. auto.
    - destruct (words_tokens _ _ _ _ _ H) as (es & _ & _ & _ & _ & T & _ & _ & _ & O). auto.
  Qed.

  Lemma dual_tokens t ot a b e add : tk_processor t = None -> tk_trunc t = None -> tk_padding t = None ->
    tk_encode ss si t ot (IDual a b) add = Ok (Some e) ->
    exists ea eb, encode_sequence ss si t 0 ot a = Ok ea /\ encode_sequence ss si t 1 ot b = Ok eb /\
      ids e = ids ea ++ ids eb /\ tokens e = tokens ea ++ tokens eb /\ offsets e = offsets ea ++ offsets eb /\ words e = words ea ++ words eb /\
      type_ids e = repeat 0 (length (ids ea)) ++ repeat 1 (length (ids eb)) /\ overflowing e = [].
  Proof.
    intros P T D H. cbn [tk_encode] in H. apply bind_Ok_inv in H as (ea & Ha & H). apply bind_Ok_inv in H as (eb & Hb & H). rewrite P, T, D in H.
    cbn in H. destruct (merge_with false ea eb) as [r| | | |] eqn:E; cbn in H; try discriminate. injection H as <-.
    destruct (sequence_types _ _ _ _ _ Ha) as [Ta Oa]. destruct (sequence_types _ _ _ _ _ Hb) as [Tb Ob].
    destruct (merge_lists ea eb r E Oa Ob) as (X1 & X2 & X3 & X4 & X5 & X6 & X7 & X8). exists ea, eb. rewrite X1, X2, X3, X4, X7, Ta, Tb. auto 10.
  Qed.
End Sorted.

(** * Added tokens (C58) *)

Definition labelled (x : option Z * str) (sp : split) : Prop :=
  sp_text sp = snd x /\ sp_toks sp = match fst x with Some id => Some [Tok id (snd x) (0, zlen (snd x))] | None => None end.
(** Id and text of the tokens of pieces. *)
Definition rows_in (sp : split) : list (Z * str) := map (fun t => (t_id t, t_value t)) (toks_in sp).
Definition rows_of (l : list split) : list (Z * str) := flat_map rows_in l.

Lemma rows_kept l : rows_of l = rows_of (filter has_toks l).
Proof.
  induction l as [|sp l IH]; [reflexivity|]. cbn [filter]. unfold has_toks at 1. unfold rows_of in *. cbn [flat_map]. destruct (sp_toks sp) eqn:E; cbn [flat_map]; rewrite IH; [reflexivity|].
  unfold rows_in at 1, toks_in. now rewrite E.
Qed.
Lemma subseq_app {A} (a b c d : list A) : subseq a b -> subseq c d -> subseq (a ++ c) (b ++ d).
Proof. induction 1; cbn; intros; [assumption|constructor; auto|constructor; auto]. Qed.
Lemma subseq_flat {A B} (f : A -> list B) a b : subseq a b -> subseq (flat_map f a) (flat_map f b).
Proof.
  induction 1 as [|x a b H IH|x a b H IH]; cbn; [constructor|apply subseq_app; [apply subseq_refl|exact IH]|]. now apply subseq_app_l.
Qed.

Lemma labelled_rows l sps : Forall2 labelled l sps -> rows_of sps = added_found l.
Proof.
  induction 1 as [|x sp l sps [T K] F IH]; [reflexivity|]. unfold rows_of, added_found in *. cbn [flat_map]. rewrite IH. f_equal. unfold rows_in, toks_in. rewrite K. now destruct (fst x).
Qed.
Lemma split_keeps_added f : keeps_added (pt_split f).
Proof.
  intros p p' E. destruct (split_spec _ _ _ E) as (_ & H & _). apply (subseq_filter has_toks) in H.
  replace (filter has_toks (filter has_toks (pt_splits p))) with (filter has_toks (pt_splits p)) in H; [exact H|].
  clear. induction (pt_splits p) as [|x l IH]; [reflexivity|]. cbn [filter]. destruct (has_toks x) eqn:E; [|exact IH]. cbn [filter]. rewrite E. now f_equal.
Qed.
Lemma no_bytes_keeps u t : no_bytes t -> keeps_added (pre_tokenize u t).
Proof.
  induction t as [t N|ts IH] using pre_tokenizer_ind'; intros H.
  - destruct t; cbn [pre_tokenize]; try apply split_keeps_added; [contradiction|]. exfalso. now apply (N ts).
  - cbn [no_bytes] in H. induction ts as [|t ts IHt]; intros p p' E; cbn in E.
    + injection E as <-. apply subseq_refl.
    + inversion IH as [|? ? I1 I2]; subst. destruct H as [H1 H2]. destruct (pre_tokenize u t p) as [q| | | |] eqn:Eq; cbn [bind] in E; try discriminate.
      apply (subseq_trans _ (filter has_toks (pt_splits q)) _ (I1 H1 _ _ Eq)). exact (IHt I2 H2 _ _ E).
Qed.

Section Added.
  Variable ss si : list io_pair -> list io_pair.
  Hypothesis HS : sorts start_key ss.
  Hypothesis HI : sorts id_key si.

  Lemma indices_labels orig set n : matching_ok set -> in_place orig n -> ns_norm n <> [] ->
    exists sps, split_with_indices ss si set n = Ok sps /\ Forall (fun sp => nonempty sp = true) sps /\ Forall2 labelled (cut_added ss si set (ns_norm n)) sps.
  Proof.
    intros M P Ne. destruct (indices_ok_at ss si HS HI orig set n M P Ne) as (sps & E & _ & _ & _ & _ & T & N1 & _). exists sps. split; [exact E|]. split; [exact N1|].
    unfold cut_added. set (l := AddedVocabModel.find_matches ss si _ _ _) in *. unfold split_with_indices in E. fold l in E. apply mapR_Ok_Forall2 in E.
    clearbody l. clear N1. induction E as [|x sp l sps Hx E IH]; [constructor|]. cbn [map] in *. injection T as T1 T2. constructor; [|now apply IH].
    unfold labelled. cbn [fst snd]. split; [exact T1|]. unfold indexed_piece in Hx. apply bind_Ok_inv in Hx as (m & Hm & Hx). destruct m as [m|]; [|discriminate]. injection Hx as <-.
    cbn [sp_toks]. unfold sp_text in T1. cbn [sp_ns] in T1. rewrite T1. reflexivity.
  Qed.

  Lemma extract_found t s p : matching_ok (tk_raw t) -> matching_ok (tk_normalized t) -> with_default normalizer_ok (tk_normalizer t) ->
    clean s -> s <> [] -> extract_and_normalize ss si t s = Ok p ->
    exists fs, Forall2 (found_in ss si t) (cut_added ss si (tk_raw t) s) fs /\ rows_of (pt_splits p) = concat fs.
  Proof.
    intros M1 M2 N C Ne E. unfold extract_and_normalize in E. destruct (raw_apart ss si HS HI (tk_raw t) s M1 C) as (p1 & E1 & O1 & [G _] & U1). rewrite E1 in E. cbn [bind] in E.
    pose proof (new_in_place s C) as P. destruct (indices_labels s (tk_raw t) (new_ns s) M1 P Ne) as (sps & Ei & N1 & F1).
    unfold pt_split, pt_new, pt_from_ns in E1. cbn [pt_splits pt_orig split_pieces sp_toks sp_ns] in E1. rewrite Ei in E1. cbn [bind] in E1. fold nonempty in E1.
    rewrite (PipelineProofs.filter_true _ _ N1), app_nil_r in E1. injection E1 as <-. cbn [pt_splits pt_orig] in *. change (ns_norm (new_ns s)) with s in F1.
    unfold pt_split in E. cbn [pt_splits pt_orig] in E. destruct (split_pieces _ 0 sps) as [l'| | | |] eqn:El; cbn [bind] in E; try discriminate. injection E as <-. cbn [pt_splits].
    destruct (split_pieces_news _ _ _ _ El) as (news & -> & F2). clear El Ei N1. exists (map rows_of news). split.
    - revert G U1 F1. generalize (cut_added ss si (tk_raw t) s) as L. clear -F2 M2 N HS HI.
      induction F2 as [|sp new sps news H F2 IH]; intros L G U1 F1; inversion F1 as [|x ? L' ? [Tx Kx] F1']; subst; [constructor|].
      inversion G as [|? ? [P T] G']; subst. inversion U1 as [|? ? Us U1']; subst. cbn [map]. constructor; [|now apply IH]. clear IH F1 F1' F2 G G' U1 U1'.
      unfold found_in. rewrite Kx in H. destruct (fst x) as [id|].
      + subst new. unfold rows_of. cbn [flat_map]. unfold rows_in, toks_in. rewrite Kx. reflexivity.
      + destruct H as (i & new0 & H & ->). apply bind_Ok_inv in H as (m & Hm & H). exists (sp_ns sp), m. split; [exact Us|]. split; [exact Tx|]. split; [exact Hm|].
        destruct (apply_ok t _ _ m N P Us Hm) as (Pm & _ & _). destruct (ns_norm m) as [|c r] eqn:En.
        * destruct (indices_empty ss si _ (tk_normalized t) m Pm En) as (sps' & E' & F'). assert (sps' = new0) by congruence. subst. now rewrite F'.
        * rewrite <- En. destruct (indices_labels _ (tk_normalized t) m M2 Pm ltac:(congruence)) as (sps' & E' & N' & F'). assert (sps' = new0) by congruence. subst.
          rewrite (PipelineProofs.filter_true _ _ N'). now apply labelled_rows.
    - clear. induction news as [|x news IH]; [reflexivity|]. cbn [concat map]. unfold rows_of in *. now rewrite flat_map_app, IH.
  Qed.

  Lemma combine_map {A B C} (f : A -> B) (g : A -> C) l : combine (map f l) (map g l) = map (fun x => (f x, g x)) l.
  Proof. induction l as [|x l IH]; [reflexivity|]. cbn. now rewrite IH. Qed.

  Lemma pieces_rows t l toks : Forall2 (tokens_from t) l toks -> subseq (rows_of l) (map (fun t => (t_id t, t_value t)) (concat toks)).
  Proof.
    induction 1 as [|sp ts l toks [Hn H] F IH]; [constructor|]. unfold rows_of in *. cbn [flat_map concat]. rewrite map_app. apply subseq_app; [|exact IH].
    unfold rows_in, toks_in. destruct (sp_toks sp) as [ts'|]; [subst; apply subseq_refl|]. cbn [map]. rewrite <- (app_nil_r (map _ ts)). apply subseq_app_l. constructor.
  Qed.

  Lemma added_kept t ty ot s e : matching_ok (tk_raw t) -> matching_ok (tk_normalized t) -> with_default normalizer_ok (tk_normalizer t) ->
    with_default keeps_added (tk_pre t) -> clean s -> s <> [] -> encode_sequence ss si t ty ot (Raw s) = Ok e ->
    exists fs, Forall2 (found_in ss si t) (cut_added ss si (tk_raw t) s) fs /\ subseq (concat fs) (combine (ids e) (tokens e)).
  Proof.
    intros M1 M2 N K C Ne H. destruct (raw_tokens ss si _ _ _ _ _ H) as (p & p' & toks & Hp & Hp' & F & (R1 & R2 & _) & _).
    destruct (extract_found t s p M1 M2 N C Ne Hp) as (fs & Ff & Er). exists fs. split; [exact Ff|]. rewrite <- Er, R1, R2, combine_map.
    apply (subseq_trans _ (rows_of (pt_splits p'))); [|now apply (pieces_rows t)].
    destruct (tk_pre t) as [f|]; [|subst; apply subseq_refl]. cbn [with_default] in K. rewrite (rows_kept (pt_splits p)), (rows_kept (pt_splits p')).
    apply subseq_flat. exact (K _ _ Hp').
  Qed.

  (** The byte-level pre-tokenizer drops them all. *)
  Lemma normalize_plain f l l' : normalize_pieces f l = Ok l' -> Forall (fun sp => sp_toks sp = None) l'.
  Proof.
    revert l'. induction l as [|sp l IH]; intros l' H; cbn [normalize_pieces] in H; [injection H as <-; constructor|]. destruct (sp_toks sp); [now apply IH|].
    apply bind_Ok_inv in H as (n & Hn & H). apply bind_Ok_inv in H as (rest & Hr & H). injection H as <-. constructor; [reflexivity|now apply IH].
  Qed.
  Lemma bytes_plain u prefix p p' : pre_tokenize u (PTByteLevel prefix) p = Ok p' -> Forall (fun sp => sp_toks sp = None) (pt_splits p').
  Proof.
    cbn [pre_tokenize]. intros H. apply bind_Ok_inv in H as (q & Hq & H). unfold pt_normalize in H. apply bind_Ok_inv in H as (l & Hl & H). injection H as <-. now apply normalize_plain in Hl.
  Qed.
  Lemma added_lost t u prefix ty ot s e : tk_pre t = Some (pre_tokenize u (PTByteLevel prefix)) -> encode_sequence ss si t ty ot (Raw s) = Ok e ->
    exists f texts toks, tk_model t = f /\ Forall2 (fun w ts => exists m, f = Some m /\ m w = Ok (Some ts)) texts toks /\ ids e = map t_id (concat toks).
  Proof.
    intros Hpre H. destruct (raw_tokens ss si _ _ _ _ _ H) as (p & p' & toks & Hp & Hp' & F & (R1 & _) & _). rewrite Hpre in Hp'. apply bytes_plain in Hp'.
    exists (tk_model t), (map sp_text (pt_splits p')), toks. split; [reflexivity|]. split; [|exact R1]. clear -F Hp'.
    induction F as [|sp ts l toks [_ X] F IH]; [constructor|]. inversion Hp' as [|? ? Hs Hp'']; subst. rewrite Hs in X. cbn [map]. constructor; [|now apply IH]. destruct X as (f & ? & ?). eauto.
  Qed.

  Lemma whole_token_lost t u prefix ty ot s id : matching_ok (tk_raw t) -> clean s -> s <> [] ->
    tk_pre t = Some (pre_tokenize u (PTByteLevel prefix)) -> cut_added ss si (tk_raw t) s = [(Some id, s)] ->
    exists e, encode_sequence ss si t ty ot (Raw s) = Ok e /\ ids e = [].
  Proof.
    intros M C Ne Hpre Hc. pose proof (new_in_place s C) as P. destruct (indices_labels s (tk_raw t) (new_ns s) M P Ne) as (sps & Ei & N1 & F1).
    change (ns_norm (new_ns s)) with s in F1. rewrite Hc in F1. inversion F1 as [|? sp ? l [Tx Kx] F' ]; subst. inversion F'; subst. cbn [fst] in Kx. clear F' F1.
    exists default_encoding. split; [|reflexivity]. unfold encode_sequence, encode_text, extract_and_normalize, pt_split at 1, pt_new, pt_from_ns.
    cbn [pt_splits pt_orig split_pieces sp_toks sp_ns]. rewrite Ei. cbn [bind]. fold nonempty. rewrite (PipelineProofs.filter_true _ _ N1). cbn [app bind].
    unfold pt_split at 1. cbn [pt_splits split_pieces pt_orig]. rewrite Kx. cbn [bind]. rewrite Hpre. cbn [pre_tokenize]. unfold pt_split. cbn [pt_splits split_pieces pt_orig]. rewrite Kx. cbn [bind].
    unfold pt_normalize. cbn [pt_splits normalize_pieces pt_orig]. rewrite Kx. reflexivity.
  Qed.
End Added.
