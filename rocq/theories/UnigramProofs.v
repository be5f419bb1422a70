(** Proofs about the Unigram model. *)
From Verif Require Import Base BaseProofs Utf8Model Utf8Proofs BpeModel BpeSpec UnigramModel UnigramSpec.
Open Scope Z_scope.

  Lemma ug_tokens_tile {S} (u : UnigramModel.unigram (S := S)) toks : (ug_unk u = None -> Forall (fun t => ug_token_to_id u t <> None) toks) ->
    Forall (fun t => t <> []) toks -> forall off,
    tiles off (off + zlen (concat toks)) (map t_off (ug_tokens u off toks)) /\
    map t_value (ug_tokens u off toks) = toks.
  Proof.
    induction toks as [|t toks IH]; intros K Ne off; cbn [ug_tokens concat].
    - split; [cbn; unfold zlen; cbn; lia|reflexivity].
    - inversion Ne as [|? ? Ht Ne']; subst.
      destruct (IH (fun H => Forall_inv_tail (K H)) Ne' (off + zlen t)) as (T & V).
      assert (Z0 : 0 < zlen t) by (destruct t; [now elim Ht|unfold zlen; cbn [length]; lia]).
      replace (off + zlen (t ++ concat toks)) with (off + zlen t + zlen (concat toks)) by (unfold zlen; rewrite app_length; lia).
      destruct (ug_token_to_id u t) as [id|] eqn:E; [|destruct (ug_unk u) as [id|] eqn:Eu].
      + cbn. split; [split; [reflexivity|split; [lia|exact T]]|now rewrite V].
      + cbn. split; [split; [reflexivity|split; [lia|exact T]]|now rewrite V].
      + exfalso. specialize (K eq_refl). inversion K; subst. congruence.
  Qed.


Section Texts.
  Context {S : Type}.
  Lemma allowed_nonempty (u : unigram (S := S)) rest (g : seg (S := S)) : allowed u rest g -> (0 < length (seg_text g))%nat.
  Proof. destruct g as [t k sc0|t]; cbn; [lia|]. intros (_ & H & _). destruct t; [now elim H|cbn; lia]. Qed.
  Lemma segmentation_text (u : unigram (S := S)) rest (gs : list (seg (S := S))) : segmentation u rest gs -> concat (map seg_text gs) = rest.
  Proof. induction 1 as [|g rest gs _ _ IH]; [reflexivity|]. cbn. now rewrite IH. Qed.
  Lemma segmentation_nonempty (u : unigram (S := S)) rest (gs : list (seg (S := S))) : segmentation u rest gs -> Forall (fun t => t <> []) (map seg_text gs).
  Proof.
    induction 1 as [|g rest gs H _ IH]; [constructor|]. cbn. constructor; [|exact IH].
    apply allowed_nonempty in H. destruct (seg_text g); [cbn in H; lia|discriminate].
  Qed.
  Lemma fused_text unk (gs : list (seg (S := S))) : forall run, concat (fused unk run gs) = concat run ++ concat (map seg_text gs).
  Proof.
    induction gs as [|g gs IH]; intros run; cbn [fused map concat].
    - destruct run; cbn; now rewrite ?app_nil_r.
    - destruct (match seg_id (Some unk) g with Some i => i =? unk | None => false end).
      + rewrite IH, concat_app, <- app_assoc. cbn. now rewrite app_nil_r.
      + rewrite concat_app. cbn [concat]. rewrite IH. destruct run; cbn [concat app]; now rewrite ?app_nil_r.
  Qed.
  Lemma fused_nonempty unk (gs : list (seg (S := S))) : Forall (fun t => t <> []) (map seg_text gs) -> forall run,
    Forall (fun t => t <> []) run -> Forall (fun t => t <> []) (fused unk run gs).
  Proof.
    assert (C : forall run, Forall (fun t : str => t <> []) run -> Forall (fun t => t <> []) (match run with [] => [] | _ => [concat run] end)).
    { intros [|t run] H; [constructor|]. constructor; [|constructor]. inversion H as [|? ? Ht _]; subst. cbn. destruct t; [now elim Ht|discriminate]. }
    induction gs as [|g gs IH]; intros Hg run Hr; cbn [fused map] in *; [now apply C|].
    inversion Hg as [|? ? H1 H2]; subst.
    destruct (match seg_id (Some unk) g with Some i => i =? unk | None => false end).
    - apply IH; [exact H2|]. apply Forall_app. split; [exact Hr|]. repeat constructor. exact H1.
    - apply Forall_app. split; [now apply C|]. constructor; [exact H1|]. apply IH; [exact H2|constructor].
  Qed.

  Lemma texts_concat (u : unigram (S := S)) s (gs : list (seg (S := S))) : segmentation u s gs -> concat (texts u gs) = s /\ Forall (fun t => t <> []) (texts u gs).
  Proof.
    intros Sg. pose proof (segmentation_text _ _ _ Sg) as T. pose proof (segmentation_nonempty _ _ _ Sg) as Ne.
    unfold texts. destruct (ug_unk u) as [unk|]; [destruct (ug_fuse u)|]; auto.
    rewrite fused_text. cbn [concat app]. split; [exact T|]. apply fused_nonempty; [exact Ne|constructor].
  Qed.

End Texts.

Section Proofs.
  Context {S : Type}.
  Variable lt : S -> S -> bool.
  Variables bot zero : S.
  Variable plus : S -> S -> S.
  Variable bonus : nat -> S.
  Variable penal : S -> S.
  Notation unigram := (unigram (S := S)).
  Notation seg := (seg (S := S)).

  (** * Token ids *)
  Lemma ug_ids_snoc voc x : ug_ids (voc ++ [x]) = aset str_eqb (fst x) (zlen voc) (ug_ids (S := S) voc).
  Proof.
    unfold ug_ids. rewrite app_length, Nat.add_1_r, seq_S.
    assert (C : forall (A B : Type) (a : list A) (b : list B) p q, length a = length b -> combine (a ++ [p]) (b ++ [q]) = combine a b ++ [(p, q)]).
    { intros A B a. induction a as [|y a IH]; intros [|z b] p q L; cbn in *; try discriminate; [reflexivity|]. rewrite IH by lia. reflexivity. }
    rewrite C by apply seq_length. rewrite fold_left_app. reflexivity.
  Qed.

  Lemma ug_ids_spec voc : forall t id, vget t (ug_ids voc) = Some id <-> exists k sc, id = Z.of_nat k /\ entry (S := S) voc t k sc.
  Proof.
    induction voc as [|x voc IH] using rev_ind; intros t id.
    - cbn. split; [discriminate|]. intros (k & sc & _ & H & _). now destruct k.
    - rewrite ug_ids_snoc. unfold vget. rewrite (ag_aset str_eqb str_eqb_eq). fold (vget t (ug_ids voc)).
      destruct (str_eqb t (fst x)) eqn:E.
      + apply str_eqb_eq in E as ->. split.
        * intros [= <-]. exists (length voc), (snd x). split; [reflexivity|]. split.
          -- rewrite nth_error_app2, Nat.sub_diag by lia. now destruct x.
          -- intros m Hm H. assert (nth_error (map fst (voc ++ [x])) m = None); [|congruence].
             apply nth_error_None. rewrite map_length, app_length. cbn. lia.
        * intros (k & sc & -> & H & L). destruct (Nat.lt_trichotomy k (length voc)) as [Hk|[->|Hk]]; [|reflexivity|].
          -- exfalso. apply (L (length voc)); [exact Hk|]. rewrite map_app, nth_error_app2; rewrite map_length; [|lia]. now rewrite Nat.sub_diag.
          -- exfalso. assert (nth_error (voc ++ [x]) k = None); [|congruence]. apply nth_error_None. rewrite app_length. cbn. lia.
      + apply str_eqb_neq in E. rewrite IH. split; intros (k & sc & -> & H & L); exists k, sc; (split; [reflexivity|]).
        * assert (Hk : (k < length voc)%nat) by (apply nth_error_Some; congruence). split; [now rewrite nth_error_app1|].
          intros m Hm. rewrite map_app. destruct (Nat.lt_ge_cases m (length voc)) as [Hl|Hl].
          -- rewrite nth_error_app1 by now rewrite map_length. now apply L.
          -- rewrite nth_error_app2 by now rewrite map_length. rewrite map_length. destruct (m - length voc)%nat as [|[|]]; cbn; congruence.
        * destruct (Nat.lt_ge_cases k (length voc)) as [Hl|Hl].
          -- rewrite nth_error_app1 in H by lia. split; [exact H|]. intros m Hm H'. apply (L m Hm).
             rewrite map_app, nth_error_app1; [exact H'|]. apply nth_error_Some. congruence.
          -- rewrite nth_error_app2 in H by lia. destruct (k - length voc)%nat as [|[|]]; cbn in H; try discriminate. injection H as ->. now elim E.
  Qed.

  Lemma ug_ids_none voc t : vget t (ug_ids (S := S) voc) = None <-> ~ In t (map fst voc).
  Proof.
    induction voc as [|x voc IH] using rev_ind.
    - cbn. tauto.
    - rewrite ug_ids_snoc. unfold vget. rewrite (ag_aset str_eqb str_eqb_eq). fold (vget t (ug_ids voc)).
      rewrite map_app, in_app_iff. cbn. destruct (str_eqb t (fst x)) eqn:E.
      + apply str_eqb_eq in E as ->. split; [discriminate|]. tauto.
      + apply str_eqb_neq in E. rewrite IH. intuition congruence.
  Qed.

  (** * Sub-strings *)
  Lemma sub_app (s : str) i t rest : skipn i s = t ++ rest -> sub s i (i + length t) = t.
  Proof.
    intros H. unfold sub. replace (i + length t - i)%nat with (length t) by lia. rewrite H.
    rewrite firstn_app, firstn_all, Nat.sub_diag. cbn. apply app_nil_r.
  Qed.
  Lemma sub_length (s : str) i j : (i <= j <= length s)%nat -> length (sub s i j) = (j - i)%nat.
  Proof. intros H. unfold sub. rewrite firstn_length, skipn_length. lia. Qed.
  Lemma sub_rest (s : str) i j : (i <= j <= length s)%nat -> skipn i s = sub s i j ++ skipn j s.
  Proof.
    intros H. unfold sub. rewrite <- (firstn_skipn (j - i) (skipn i s)) at 1. f_equal.
    clear -H. replace j with (i + (j - i))%nat at 2 by lia. generalize (j - i)%nat as d. intros d. clear H. revert s.
    induction i as [|i IH]; intros [|x s]; cbn; auto. now rewrite skipn_nil.
  Qed.

  (** * The lattice *)
  Hypothesis lt_irrefl : forall a, lt a a = false.
  Hypothesis lt_trans : forall a b c, lt a b = true -> lt b c = true -> lt a c = true.
  Hypothesis le_trans : forall a b c, lt b a = false -> lt c b = false -> lt c a = false.
  Hypothesis bot_least : forall a, lt a bot = false.
  Hypothesis bot_zero : lt bot zero = true.
  Hypothesis plus_mono : forall a b x, lt b a = false -> lt (plus b x) (plus a x) = false.
  Hypothesis plus_bot : forall x, lt bot (plus bot x) = false.

  Notation node := (node (S := S)).
  Notation sc l i := (n_score (nd bot l i)) (only parsing).
  Notation relax := (relax lt bot).
  Notation position := (position lt bot zero plus bonus penal).
  Notation lattice := (lattice lt bot zero plus bonus penal).
  Notation add_seg := (add_seg lt zero plus bonus penal).

  Lemma set_node_length (l : list node) j x : length (set_node l j x) = length l.
  Proof. revert j. induction l as [|y l IH]; intros [|j]; cbn; auto. Qed.
  Lemma nd_set (l : list node) j x i : (j < length l)%nat -> nd bot (set_node l j x) i = if (i =? j)%nat then x else nd bot l i.
  Proof.
    unfold nd. revert j i. induction l as [|y l IH]; intros [|j] [|i] H; cbn in *; try lia; auto. apply IH. lia.
  Qed.

  Lemma relax_length l i j new id : length (relax l i j new id) = length l.
  Proof. unfold UnigramModel.relax. destruct (lt (n_score (nd bot l j)) new); [apply set_node_length|reflexivity]. Qed.

  Lemma relax_other l i j new id m : (j < length l)%nat -> m <> j -> nd bot (relax l i j new id) m = nd bot l m.
  Proof. intros H N. unfold UnigramModel.relax. destruct (lt (n_score (nd bot l j)) new); [|reflexivity]. rewrite nd_set by exact H. now replace (m =? j)%nat with false by lia. Qed.

  Lemma relax_at l i j new id : (j < length l)%nat ->
    (nd bot (relax l i j new id) j = nd bot l j /\ lt (sc l j) new = false) \/
    (nd bot (relax l i j new id) j = Node new (Z.of_nat i) id /\ lt (sc l j) new = true).
  Proof.
    intros H. unfold UnigramModel.relax. destruct (lt (n_score (nd bot l j)) new) eqn:E; [right|left; auto].
    rewrite nd_set by exact H. now rewrite Nat.eqb_refl.
  Qed.

  Lemma lt_le a b : lt a b = true -> lt b a = false.
  Proof. intros H. destruct (lt b a) eqn:E; [|reflexivity]. pose proof (lt_trans _ _ _ H E) as X. now rewrite lt_irrefl in X. Qed.

  Lemma add_seg_mono u a b (g : seg) : lt b a = false -> lt (add_seg u b g) (add_seg u a g) = false.
  Proof. intros H. destruct g; cbn; auto. Qed.
  Lemma add_seg_bot u a (g : seg) : lt bot a = false -> lt bot (add_seg u a g) = false.
  Proof.
    intros H. assert (lt bot (add_seg u bot g) = false).
    { destruct g; cbn; auto. apply (le_trans _ (plus bot (bonus (length t)))); auto. }
    eapply le_trans; [apply (add_seg_mono u a bot g); exact H|exact H0].
  Qed.

  Section Text.
    Variable u : unigram.
    Variable s : str.
    Notation n := (length s).

    Definition step (i j : nat) (g : seg) : Prop :=
      allowed u (skipn i s) g /\ (i < j <= n)%nat /\ seg_text g = sub s i j.

    Definition back_ok (K : nat) (l : list node) : Prop :=
      forall j, (0 < j <= n)%nat -> lt bot (sc l j) = true ->
        exists i g id, (i < K)%nat /\ lt bot (sc l i) = true /\ step i j g /\ seg_id (ug_unk u) g = Some id /\
          nd bot l j = Node (add_seg u (sc l i) g) (Z.of_nat i) id.
    Definition best_ok (K : nat) (l : list node) : Prop :=
      forall i j g, (i < K)%nat -> step i j g -> lt (sc l j) (add_seg u (sc l i) g) = false.
    Definition base_ok (l : list node) : Prop := length l = (n + 1)%nat /\ nd bot l 0 = Node zero 0 (-1).

    (** One relaxation from position [i]. *)
    Lemma relax_ok i j g id l : base_ok l -> back_ok (i + 1) l -> lt bot (sc l i) = true ->
      step i j g -> seg_id (ug_unk u) g = Some id ->
      let l' := relax l i j (add_seg u (sc l i) g) id in
      base_ok l' /\ back_ok (i + 1) l' /\ (forall m, lt (sc l' m) (sc l m) = false) /\
      (forall m, (m <= i)%nat -> nd bot l' m = nd bot l m) /\
      lt (sc l' j) (add_seg u (sc l i) g) = false.
    Proof.
      intros (Bl & B0) A Hi St Hid l'. pose proof St as (_ & Hij & _).
      assert (Hj : (j < length l)%nat) by lia.
      assert (Oth : forall m, m <> j -> nd bot l' m = nd bot l m) by (intros; now apply relax_other).
      pose proof (relax_at l i j (add_seg u (sc l i) g) id Hj) as At. fold l' in At.
      assert (Len : length l' = length l) by (subst l'; apply relax_length). clearbody l'.
      split; [split; [now rewrite Len|rewrite Oth by lia; exact B0]|].
      split; [|split; [|split]].
      - intros m Hm Hb. destruct (Nat.eq_dec m j) as [->|N].
        + destruct At as [(E & _)|(E & _)].
          * rewrite E in Hb. destruct (A j Hm Hb) as (i' & g' & id' & X1 & X2 & X3 & X4 & X5).
            exists i', g', id'. pose proof X3 as (_ & X6 & _).
            rewrite (Oth i') by lia. rewrite E. auto.
          * exists i, g, id. rewrite (Oth i) by lia. repeat split; auto; try apply St; lia.
        + rewrite (Oth m N) in Hb |- *. destruct (A m Hm Hb) as (i' & g' & id' & X1 & X2 & X3 & X4 & X5).
          exists i', g', id'. rewrite (Oth i') by lia. auto.
      - intros m. destruct (Nat.eq_dec m j) as [->|N].
        + destruct At as [(E & _)|(E & L)]; rewrite E; [apply lt_irrefl|]. cbn. now apply lt_le.
        + rewrite (Oth m N). apply lt_irrefl.
      - intros m Hm. apply Oth. lia.
      - destruct At as [(E & L)|(E & _)]; rewrite E; [exact L|]. cbn. apply lt_irrefl.
    Qed.

    (** The tokens tried at one position. *)
    Notation try_token := (try_token lt bot zero plus bonus).

    Lemma known_step i j id : (i < j <= n)%nat -> (j - i <= 20)%nat -> ug_token_to_id u (sub s i j) = Some id ->
      exists k sc0, id = Z.of_nat k /\ step i j (Known (sub s i j) k sc0) /\ score_of zero u id = sc0.
    Proof.
      intros H1 H2 E. apply ug_ids_spec in E as (k & sc0 & -> & En). exists k, sc0. split; [reflexivity|]. split.
      - split; [|split; [exact H1|reflexivity]]. cbn. split; [exact En|]. rewrite sub_length; lia.
      - unfold score_of. rewrite Nat2Z.id. destruct En as (-> & _). reflexivity.
    Qed.
    Lemma step_known i j t k sc0 : step i j (Known t k sc0) ->
      ug_token_to_id u (sub s i j) = Some (Z.of_nat k) /\ score_of zero u (Z.of_nat k) = sc0 /\ t = sub s i j /\ (j - i <= 20)%nat.
    Proof.
      intros ((En & Hl) & Hij & Ht). cbn in Ht. split; [|split; [|split; [exact Ht|]]].
      - apply ug_ids_spec. exists k, sc0. split; [reflexivity|]. now rewrite <- Ht.
      - unfold score_of. rewrite Nat2Z.id. destruct En as (-> & _). reflexivity.
      - rewrite Ht, sub_length in Hl; lia.
    Qed.

    Lemma try_tokens i m : forall a l single, base_ok l -> back_ok (i + 1) l -> lt bot (sc l i) = true ->
      (i < a)%nat -> (a + m <= n + 1)%nat -> (a + m <= i + 21)%nat ->
      let r := fold_left (try_token u s i) (seq a m) (l, single) in
      base_ok (fst r) /\ back_ok (i + 1) (fst r) /\ (forall x, lt (sc (fst r) x) (sc l x) = false) /\
      (forall x, (x <= i)%nat -> nd bot (fst r) x = nd bot l x) /\
      (forall j t k sc0, (a <= j < a + m)%nat -> step i j (Known t k sc0) ->
         lt (sc (fst r) j) (add_seg u (sc l i) (Known t k sc0)) = false) /\
      (snd r = true <-> single = true \/
         ((a <= i + char_len s i < a + m)%nat /\ ug_token_to_id u (sub s i (i + char_len s i)) <> None)).
    Proof.
      induction m as [|m IH]; intros a l single B A Hi Ha Hm1 Hm2.
      - cbn [seq fold_left fst snd]. split; [exact B|]. split; [exact A|]. split; [intros; apply lt_irrefl|].
        split; [reflexivity|]. split; [intros; lia|]. intuition lia.
      - cbn [seq fold_left]. cbn zeta.
        assert (Ctx : exists l1 single1, try_token u s i (l, single) a = (l1, single1) /\
          base_ok l1 /\ back_ok (i + 1) l1 /\ (forall x, lt (sc l1 x) (sc l x) = false) /\
          (forall x, (x <= i)%nat -> nd bot l1 x = nd bot l x) /\
          (forall t k sc0, step i a (Known t k sc0) -> lt (sc l1 a) (add_seg u (sc l i) (Known t k sc0)) = false) /\
          (single1 = true <-> single = true \/ (a = i + char_len s i /\ ug_token_to_id u (sub s i (i + char_len s i)) <> None)%nat)).
        { unfold UnigramModel.try_token. destruct (ug_token_to_id u (sub s i a)) as [id|] eqn:E.
          - destruct (known_step i a id) as (k & sc0 & -> & St & Sc); [lia|lia|exact E|].
            rewrite Sc. destruct (relax_ok i a _ (Z.of_nat k) l B A Hi St eq_refl) as (R1 & R2 & R3 & R4 & R5).
            cbn [UnigramSpec.add_seg] in R1, R2, R3, R4, R5.
            assert (Ls : length (sub s i a) = (a - i)%nat) by (apply sub_length; lia). rewrite Ls in *.
            eexists _, _. split; [reflexivity|]. split; [exact R1|]. split; [exact R2|]. split; [exact R3|]. split; [exact R4|]. split.
            + intros t k' sc' St'. apply step_known in St' as (E' & Sc' & -> & _). rewrite E in E'. injection E' as E'.
              assert (k' = k) as -> by lia. rewrite Sc in Sc'. subst sc'. cbn [UnigramSpec.add_seg]. rewrite Ls. exact R5.
            + rewrite orb_true_iff, Nat.eqb_eq. split.
              * intros [H|H]; [now left|right]. split; [exact H|]. rewrite <- H, E. discriminate.
              * tauto.
          - eexists _, _. split; [reflexivity|]. split; [exact B|]. split; [exact A|]. split; [intros; apply lt_irrefl|]. split; [reflexivity|]. split.
            + intros t k sc0 St. apply step_known in St as (E' & _). congruence.
            + split; [now left|]. intros [H|(H1 & H2)]; [exact H|]. rewrite H1 in E. congruence. }
        destruct Ctx as (l1 & single1 & -> & B1 & A1 & M1 & U1 & K1 & S1).
        assert (Hi1 : lt bot (sc l1 i) = true) by (rewrite U1 by lia; exact Hi).
        destruct (IH (a + 1)%nat l1 single1 B1 A1 Hi1) as (B2 & A2 & M2 & U2 & K2 & S2); [lia|lia|lia|].
        replace (Datatypes.S a) with (a + 1)%nat by lia.
        set (r := fold_left _ _ _) in *.
        split; [exact B2|]. split; [exact A2|]. split; [intros x; eapply le_trans; [apply M1|apply M2]|].
        split; [intros x Hx; rewrite U2, U1 by lia; reflexivity|]. split.
        + intros j t k sc0 Hj St. destruct (Nat.eq_dec j a) as [->|N].
          * eapply le_trans; [apply K1; exact St|apply M2].
          * specialize (K2 j t k sc0 ltac:(lia) St). rewrite U1 in K2 by lia. exact K2.
        + rewrite S2, S1. destruct (Nat.eq_dec a (i + char_len s i)); intuition (try lia; auto).
    Qed.

    Lemma char_len_pos i : (0 < char_len s i)%nat.
    Proof. unfold char_len. pose proof (encode_rune_length (fst (decode_rune (skipn i s)))). lia. Qed.
    Lemma char_len_max i : (char_len s i <= 4)%nat.
    Proof. unfold char_len. pose proof (encode_rune_length (fst (decode_rune (skipn i s)))). lia. Qed.

    Lemma step_unknown i j t : step i j (Unknown t) <->
      ug_unk u <> None /\ j = (i + char_len s i)%nat /\ (j <= n)%nat /\ t = sub s i j /\ ug_token_to_id u (sub s i j) = None.
    Proof.
      split.
      - intros ((U & Ne & Ni & L) & Hij & Ht). cbn in Ht. rewrite <- Ht. rewrite Ht, sub_length in L by lia.
        split; [exact U|]. split; [unfold char_len; lia|]. split; [lia|]. split; [reflexivity|]. now apply ug_ids_none.
      - intros (U & -> & Hn & -> & E). pose proof (char_len_pos i). split; [|split; [lia|reflexivity]]. split; [exact U|].
        assert (L : length (sub s i (i + char_len s i)) = char_len s i) by (rewrite sub_length; lia).
        split; [intros H0; rewrite H0 in L; cbn in L; lia|]. split; [now apply ug_ids_none|exact L].
    Qed.

    Lemma position_ok i l : (i < n)%nat -> base_ok l -> back_ok i l -> best_ok i l ->
      base_ok (position u s l i) /\ back_ok (i + 1) (position u s l i) /\ best_ok (i + 1) (position u s l i).
    Proof.
      intros Hin B A Be.
      assert (A' : back_ok (i + 1) l).
      { intros j Hj Hb. destruct (A j Hj Hb) as (i' & g & id & X). exists i', g, id. intuition lia. }
      unfold UnigramModel.position. destruct (lt bot (sc l i)) eqn:Hi.
      2:{ split; [exact B|]. split; [exact A'|]. intros i' j g Hi' St. destruct (Nat.eq_dec i' i) as [->|N]; [|apply Be; auto; lia].
          eapply le_trans; [apply (add_seg_bot u _ g Hi)|apply bot_least]. }
      set (ml := if (n <? i + 20)%nat then (n - i)%nat else 20%nat).
      assert (Hml : (ml <= 20)%nat /\ (i + ml <= n)%nat /\ forall j, (i < j <= n)%nat -> (j - i <= 20)%nat -> (j < i + 1 + ml)%nat).
      { subst ml. destruct (Nat.ltb_spec n (i + 20)); repeat split; intros; lia. }
      destruct Hml as (Hml1 & Hml2 & Hml3).
      pose proof (try_tokens i ml (i + 1) l false B A' Hi) as T. destruct T as (B1 & A1 & M1 & U1 & K1 & S1); [lia|lia|lia|].
      destruct (fold_left _ _ _) as [l1 single] eqn:F. cbn [fst snd] in *.
      assert (Fin : forall l2, base_ok l2 -> back_ok (i + 1) l2 -> (forall x, lt (sc l2 x) (sc l1 x) = false) ->
                (forall x, (x <= i)%nat -> nd bot l2 x = nd bot l x) ->
                (forall j t, step i j (Unknown t) -> lt (sc l2 j) (add_seg u (sc l i) (Unknown t)) = false) ->
                base_ok l2 /\ back_ok (i + 1) l2 /\ best_ok (i + 1) l2).
      { intros l2 B2 A2 M2 U2 K2. split; [exact B2|]. split; [exact A2|]. intros i' j g Hi' St.
        rewrite (U2 i') by lia. destruct (Nat.eq_dec i' i) as [->|N].
        - destruct g as [t k sc0|t]; [|now apply K2]. eapply le_trans; [|apply M2]. apply K1; [|exact St].
          pose proof (step_known _ _ _ _ _ St) as (_ & _ & _ & L). pose proof St as (_ & Hij & _). split; [lia|]. apply Hml3; lia.
        - eapply le_trans; [apply (Be i' j g ltac:(lia) St)|]. eapply le_trans; [apply M1|apply M2]. }
      assert (Sg : single = true <-> (i + char_len s i < i + 1 + ml)%nat /\ ug_token_to_id u (sub s i (i + char_len s i)) <> None).
      { rewrite S1. pose proof (char_len_pos i). intuition (try lia; try discriminate). }
      pose proof (char_len_pos i) as Cp. pose proof (char_len_max i) as Cm.
      destruct (ug_unk u) as [unk|] eqn:Eu.
      - destruct (negb single && (i + char_len s i <=? n)%nat) eqn:Cond.
        + apply andb_true_iff in Cond as [C1 C2]. apply negb_true_iff in C1. apply Nat.leb_le in C2.
          assert (St : step i (i + char_len s i) (Unknown (sub s i (i + char_len s i)))).
          { apply step_unknown. split; [congruence|]. repeat split; auto.
            destruct (ug_token_to_id u (sub s i (i + char_len s i))) eqn:E; [|reflexivity]. exfalso.
            assert (single = true); [|congruence]. apply Sg. split; [apply Hml3; lia|congruence]. }
          assert (Hi1 : lt bot (sc l1 i) = true) by (rewrite U1 by lia; exact Hi).
          destruct (relax_ok i _ _ unk l1 B1 A1 Hi1 St) as (R1 & R2 & R3 & R4 & R5); [cbn; exact Eu|].
          cbn [UnigramSpec.add_seg] in R1, R2, R3, R4, R5.
          apply Fin; auto.
          * intros x Hx. rewrite R4, U1 by lia. reflexivity.
          * intros j t Hst. apply step_unknown in Hst as (_ & -> & _ & -> & _). cbn [UnigramSpec.add_seg].
            rewrite (U1 i) in R5 by lia. rewrite (U1 i) by lia. exact R5.
        + apply Fin; auto. intros j t Hst. exfalso. apply step_unknown in Hst as (_ & -> & H2 & _ & H4).
          apply andb_false_iff in Cond as [C|C]; [|apply Nat.leb_gt in C; lia].
          apply negb_false_iff in C. apply Sg in C as (_ & C). congruence.
      - apply Fin; auto. intros j t Hst. exfalso. apply step_unknown in Hst as (H & _). congruence.
    Qed.

    Lemma lattice_ok : base_ok (lattice u s) /\ back_ok n (lattice u s) /\ best_ok n (lattice u s).
    Proof.
      unfold UnigramModel.lattice.
      assert (G : forall m, (m <= n)%nat -> let l := fold_left (position u s) (seq 0 m) (lattice0 bot zero n) in
        base_ok l /\ back_ok m l /\ best_ok m l).
      { induction m as [|m IH]; intros Hm l.
        - subst l. cbn [seq fold_left]. split; [split; [unfold lattice0; cbn; rewrite repeat_length; lia|reflexivity]|]. split.
          + intros j Hj Hb. exfalso. unfold lattice0, nd in Hb. destruct j as [|j]; [lia|]. cbn [nth] in Hb.
            rewrite nth_repeat in Hb. cbn in Hb. now rewrite lt_irrefl in Hb.
          + intros i j g Hi. lia.
        - subst l. rewrite seq_S, fold_left_app. cbn [fold_left]. destruct (IH ltac:(lia)) as (B & A & Be). rewrite Nat.add_0_l.
          replace (Datatypes.S m) with (m + 1)%nat by lia. now apply position_ok. }
      now apply G.
    Qed.

    Lemma skipn_more i (t rest : str) : skipn i s = t ++ rest -> skipn (i + length t) s = rest.
    Proof.
      intros H. assert (E : forall m, skipn (i + m) s = skipn m (skipn i s)).
      { intros m. clear H. generalize s. induction i as [|i' IH]; intros [|x l]; cbn; auto. now rewrite skipn_nil. }
      rewrite E, H, skipn_app, skipn_all, Nat.sub_diag. reflexivity.
    Qed.

    Lemma front_step i g rest : (i <= n)%nat -> skipn i s = seg_text g ++ rest -> allowed u (seg_text g ++ rest) g ->
      step i (i + length (seg_text g)) g.
    Proof.
      intros Hi E H. pose proof (allowed_nonempty _ _ _ H) as L. split; [now rewrite E|]. split.
      - assert (X : length (skipn i s) = (n - i)%nat) by apply skipn_length. rewrite E, app_length in X. lia.
      - symmetry. eapply sub_app. exact E.
    Qed.

    Lemma seg_best rest gs : segmentation u rest gs -> forall i a, (i <= n)%nat -> skipn i s = rest ->
      lt (sc (lattice u s) i) a = false -> lt (sc (lattice u s) n) (fold_left (add_seg u) gs a) = false.
    Proof.
      destruct lattice_ok as (_ & _ & Be).
      induction 1 as [|g rest gs Hg _ IH]; intros i a Hi E Ha.
      - assert (X : length (skipn i s) = (n - i)%nat) by apply skipn_length. rewrite E in X. cbn in X.
        replace n with i by lia. exact Ha.
      - cbn [fold_left]. pose proof (front_step i g rest Hi E Hg) as St. pose proof St as (_ & Hij & _).
        apply (IH (i + length (seg_text g))%nat); [lia|now apply skipn_more|].
        eapply le_trans; [apply add_seg_mono, Ha|]. apply Be; [lia|exact St].
    Qed.

    (** What backtracking has found so far: [acc] covers the text from [pos]. *)
    Definition found (pos : nat) (acc : list seg) : Prop :=
      (pos <= n)%nat /\ (lt bot (sc (lattice u s) pos) = true) /\ segmentation u (skipn pos s) acc /\
      fold_left (add_seg u) acc (sc (lattice u s) pos) = sc (lattice u s) n.

    Lemma found_step pos acc : found pos acc -> (0 < pos)%nat ->
      exists i g id, (i < pos)%nat /\ nd bot (lattice u s) pos = Node (sc (lattice u s) pos) (Z.of_nat i) id /\
        seg_id (ug_unk u) g = Some id /\ sub s i pos = seg_text g /\ found i (g :: acc).
    Proof.
      intros (Hp & Hb & Sg & T) H0. destruct lattice_ok as (_ & A & _).
      destruct (A pos ltac:(lia) Hb) as (i & g & id & Hi & Hbi & St & Hid & Nd). pose proof St as (Al & Hij & Tx).
      exists i, g, id. split; [lia|]. split; [rewrite Nd; reflexivity|]. split; [exact Hid|]. split; [now symmetry|].
      split; [lia|]. split; [exact Hbi|].
      assert (E : skipn i s = seg_text g ++ skipn pos s) by (rewrite Tx; apply sub_rest; lia). split.
      - rewrite E in *. now constructor.
      - cbn [fold_left]. rewrite <- T, Nd. reflexivity.
    Qed.

    Lemma back_plain_ok fuel : forall pos acc, (pos <= fuel)%nat -> found pos acc ->
      exists gs, back_plain bot (lattice u s) s fuel pos (map seg_text acc) = Ok (map seg_text gs) /\ found 0 gs.
    Proof.
      induction fuel as [|fuel IH]; intros pos acc Hf F.
      - assert (pos = 0)%nat as -> by lia. exists acc. split; [reflexivity|exact F].
      - destruct pos as [|pos']; [exists acc; split; [reflexivity|exact F]|]. set (pos := Datatypes.S pos') in *.
        destruct (found_step pos acc F) as (i & g & id & Hi & Nd & Hid & Tx & F'); [subst pos; lia|].
        cbn [back_plain]. subst pos. rewrite Nd. cbn [n_index].
        replace (Z.of_nat i <? 0) with false by lia. rewrite Nat2Z.id, Tx.
        apply (IH i (g :: acc)); [lia|exact F'].
    Qed.

    Lemma back_fuse_ok unk fuel : ug_unk u = Some unk -> forall pos acc tokens unks, (pos <= fuel)%nat -> found pos acc ->
      (forall run, fused unk run acc = match run ++ unks with [] => tokens | r => concat r :: tokens end) ->
      exists gs, back_fuse bot (lattice u s) s unk fuel pos tokens unks = Ok (fused unk [] gs) /\ found 0 gs.
    Proof.
      intros Eu. induction fuel as [|fuel IH]; intros pos acc tokens unks Hf F Fu.
      - assert (pos = 0)%nat as -> by lia. exists acc. split; [|exact F]. rewrite (Fu []). destruct unks; reflexivity.
      - destruct pos as [|pos']; [exists acc; split; [rewrite (Fu []); destruct unks; reflexivity|exact F]|]. set (pos := Datatypes.S pos') in *.
        destruct (found_step pos acc F) as (i & g & id & Hi & Nd & Hid & Tx & F'); [subst pos; lia|].
        cbn [back_fuse]. subst pos. rewrite Nd. cbn [n_index n_id].
        replace (Z.of_nat i <? 0) with false by lia. rewrite Nat2Z.id, Tx. rewrite Eu in Hid.
        destruct (Z.eqb_spec id unk) as [->|N].
        + apply (IH i (g :: acc)); [lia|exact F'|]. intros run. cbn [fused]. rewrite Hid, Z.eqb_refl, Fu, <- app_assoc. reflexivity.
        + apply (IH i (g :: acc)); [lia|exact F'|]. intros run. cbn [fused]. rewrite Hid.
          replace (id =? unk) with false by lia. rewrite app_nil_r, (Fu []). cbn [app]. destruct run, unks; reflexivity.
    Qed.

    Lemma viterbi_found : s <> [] -> lt bot (sc (lattice u s) n) = true ->
      exists gs, viterbi lt bot zero plus bonus penal u s = Ok (texts u gs) /\ found 0 gs.
    Proof.
      intros Hs Hb. assert (F : found n []).
      { split; [lia|]. split; [exact Hb|]. split; [rewrite skipn_all; constructor|reflexivity]. }
      unfold viterbi, texts. destruct s as [|x s'] eqn:Es; [now elim Hs|]. rewrite <- Es in *. fold n. rewrite Hb.
      destruct (ug_unk u) as [unk|] eqn:Eu; [destruct (ug_fuse u)|].
      - apply (back_fuse_ok unk n Eu n [] [] []); [lia|exact F|]. intros run. rewrite app_nil_r. cbn [fused]. destruct run; reflexivity.
      - apply (back_plain_ok n n []); [lia|exact F].
      - apply (back_plain_ok n n []); [lia|exact F].
    Qed.
  End Text.

  Lemma viterbi_spec u s : s <> [] ->
    (exists gs, segmentation u s gs /\ viterbi lt bot zero plus bonus penal u s = Ok (texts u gs) /\
       lt bot (total lt zero plus bonus penal u gs) = true /\
       forall gs', segmentation u s gs' ->
         lt (total lt zero plus bonus penal u gs) (total lt zero plus bonus penal u gs') = false) \/
    ((forall gs, segmentation u s gs -> lt bot (total lt zero plus bonus penal u gs) = false) /\
     viterbi lt bot zero plus bonus penal u s =
       match ug_unk u with
       | Some _ => Ok [s]
       | None => if ug_bytes u then Ok (byte_fallback u s) else Err
       end).
  Proof.
    intros Hs. destruct (lattice_ok u s) as ((_ & B0) & _).
    assert (Best : forall gs, segmentation u s gs ->
      lt (sc (lattice u s) (length s)) (total lt zero plus bonus penal u gs) = false).
    { intros gs Sg. apply (seg_best u s s gs Sg 0%nat); [lia|reflexivity|]. rewrite B0. apply lt_irrefl. }
    destruct (lt bot (sc (lattice u s) (length s))) eqn:Hb.
    - left. destruct (viterbi_found u s Hs Hb) as (gs & V & (_ & _ & Sg & T)). cbn [skipn] in Sg. rewrite B0 in T. cbn [n_score] in T.
      exists gs. split; [exact Sg|]. split; [exact V|]. unfold total in *. rewrite T. split; [exact Hb|exact Best].
    - right. split; [intros gs Sg; eapply le_trans; [apply Best, Sg|exact Hb]|].
      unfold viterbi. destruct s as [|x s'] eqn:Es; [now elim Hs|]. rewrite <- Es in *. now rewrite Hb.
  Qed.

  (** * Offsets *)
  Lemma viterbi_text u s toks : ug_bytes u = false -> viterbi lt bot zero plus bonus penal u s = Ok toks ->
    concat toks = s /\ Forall (fun t => t <> []) toks.
  Proof.
    intros Hb E. destruct s as [|x s'].
    - cbn in E. injection E as <-. split; [reflexivity|constructor].
    - destruct (viterbi_spec u (x :: s')) as [(gs & Sg & V & _)|(_ & V)]; [discriminate| |].
      + rewrite V in E. injection E as <-. now apply texts_concat.
      + rewrite V, Hb in E. destruct (ug_unk u); [|discriminate]. injection E as <-. cbn [concat]. rewrite app_nil_r.
        split; [reflexivity|]. repeat constructor. discriminate.
  Qed.

  Lemma viterbi_known u s toks : ug_bytes u = false -> ug_unk u = None -> viterbi lt bot zero plus bonus penal u s = Ok toks ->
    Forall (fun t => ug_token_to_id u t <> None) toks.
  Proof.
    intros Hb Hu E. destruct s as [|x s'].
    - cbn in E. injection E as <-. constructor.
    - destruct (viterbi_spec u (x :: s')) as [(gs & Sg & V & _)|(_ & V)]; [discriminate| |].
      + rewrite V in E. injection E as <-. unfold texts. rewrite Hu. clear V. induction Sg as [|g rest gs Hg _ IH]; [constructor|].
        cbn. constructor; [|exact IH]. destruct g as [t k sc0|t].
        * destruct Hg as (En & _). intros H. assert (X : ug_token_to_id u t = Some (Z.of_nat k)); [|cbn in H; congruence].
          apply ug_ids_spec. eauto.
        * destruct Hg as (H & _). now elim H.
      + rewrite V, Hb, Hu in E. discriminate.
  Qed.

  Lemma ug_tiles u s toks : ug_bytes u = false -> ug_tokenize lt bot zero plus bonus penal u s = Ok toks ->
    tiles 0 (zlen s) (map t_off toks) /\ concat (map t_value toks) = s.
  Proof.
    unfold ug_tokenize. intros Hb E. rewrite Hb in E.
    destruct (viterbi lt bot zero plus bonus penal u s) as [ts| | | |] eqn:V; cbn [bind] in E; try discriminate.
    injection E as <-. destruct (viterbi_text _ _ _ Hb V) as (C & Ne).
    destruct (ug_tokens_tile u ts) with (off := 0) as (T & Vl); [|exact Ne|].
    - intros Hu. eapply viterbi_known; eassumption.
    - rewrite Z.add_0_l, C in T. now rewrite Vl.
  Qed.
End Proofs.

(** * Lookups and ids *)
Lemma ug_lookup {S} (voc : list (str * S)) t id : vget t (ug_ids voc) = Some id <-> exists k sc, id = Z.of_nat k /\ entry voc t k sc.
Proof.
  destruct voc as [|[t0 s0] voc]; [cbn; split; [discriminate|]; intros (k & sc & _ & H & _); now destruct k|].
  apply (ug_ids_spec (fun _ _ => true) s0 (fun _ _ => s0) (fun _ => s0) (fun x => x)).
Qed.

Lemma nodup_entry {S} (voc : list (str * S)) k t sc : NoDup (map fst voc) -> nth_error voc k = Some (t, sc) -> entry voc t k sc.
Proof.
  intros N H. split; [exact H|]. intros m Hm E.
  assert (E' : nth_error (map fst voc) k = Some t) by now rewrite nth_error_map, H.
  assert (k = m); [|lia]. rewrite NoDup_nth_error in N. apply N; [|congruence]. apply nth_error_Some. congruence.
Qed.

Lemma ug_inverse {S} (u : unigram (S := S)) : NoDup (map fst (ug_vocab u)) ->
  forall t i, ug_token_to_id u t = Some i <-> ug_id_to_token u i = Some t.
Proof.
  intros N t i. unfold ug_token_to_id, ug_id_to_token. rewrite ug_lookup. split.
  - intros (k & sc & -> & H & _). assert (k < length (ug_vocab u))%nat by (apply nth_error_Some; congruence).
    replace (Z.of_nat k <? 0) with false by lia. unfold zlen. replace (Z.of_nat (length (ug_vocab u)) <=? Z.of_nat k) with false by lia.
    cbn. rewrite Nat2Z.id, H. reflexivity.
  - destruct ((i <? 0) || (zlen (ug_vocab u) <=? i)) eqn:C; [discriminate|]. apply orb_false_iff in C as [C1 C2].
    destruct (nth_error (ug_vocab u) (Z.to_nat i)) as [[t' sc]|] eqn:E; [|discriminate]. intros [= ->].
    exists (Z.to_nat i), sc. split; [lia|]. now apply nodup_entry.
Qed.

Lemma ug_tokens_ids {S} (u : unigram (S := S)) toks : forall off, Forall (fun t =>
  ug_token_to_id u (t_value t) = Some (t_id t) \/ (ug_token_to_id u (t_value t) = None /\ ug_unk u = Some (t_id t)))
  (ug_tokens u off toks).
Proof.
  induction toks as [|t toks IH]; intros off; cbn [ug_tokens]; [constructor|].
  destruct (ug_token_to_id u t) as [id|] eqn:E; [constructor; [now left|apply IH]|].
  destruct (ug_unk u) as [id|] eqn:Eu; [|apply IH]. constructor; [now right|apply IH].
Qed.

(** * Byte fallback *)
Lemma byte_fallback_all {S} (u : unigram (S := S)) s : (forall b, In b s -> ug_token_to_id u (byte_token b) <> None) ->
  byte_fallback u s = map byte_token s.
Proof.
  intros H. unfold byte_fallback. apply map_ext_in. intros b Hb. destruct (ug_token_to_id u (byte_token b)) eqn:E; [reflexivity|].
  elim (H b Hb E).
Qed.

Lemma ug_tokens_all {S} (u : unigram (S := S)) toks : Forall (fun t => ug_token_to_id u t <> None) toks -> forall off,
  map t_value (ug_tokens u off toks) = toks.
Proof.
  induction 1 as [|t toks H _ IH]; intros off; cbn [ug_tokens]; [reflexivity|].
  destruct (ug_token_to_id u t); [|now elim H]. cbn. now rewrite IH.
Qed.

Lemma concat_bytes s : zlen (concat (map byte_token s)) = 6 * zlen s.
Proof. unfold zlen. induction s as [|b s IH]; [reflexivity|]. cbn [map concat byte_token app length] in *. lia. Qed.

Lemma byte_fallback_tokens {S} lt bot zero plus bonus penal (u : unigram (S := S)) s :
  ug_bytes u = true -> (forall b, In b s -> ug_token_to_id u (byte_token b) <> None) ->
  exists toks, ug_tokenize lt bot zero plus bonus penal u s = Ok toks /\
    map t_value toks = map byte_token s /\ tiles 0 (6 * zlen s) (map t_off toks).
Proof.
  intros Hb H. unfold ug_tokenize. rewrite Hb, byte_fallback_all by exact H. eexists. split; [reflexivity|].
  assert (K : Forall (fun t => ug_token_to_id u t <> None) (map byte_token s)).
  { apply Forall_forall. intros t Ht. apply in_map_iff in Ht as (b & <- & Hin). now apply H. }
  destruct (ug_tokens_tile u (map byte_token s) (fun _ => K)) with (off := 0) as (T & V).
  - apply Forall_forall. intros t Ht. apply in_map_iff in Ht as (b & <- & _). discriminate.
  - rewrite Z.add_0_l, concat_bytes in T. now split.
Qed.

(** * Packaged results *)
Section Laws.
  Context {S : Type}.
  Variable lt : S -> S -> bool.
  Variables bot zero : S.
  Variable plus : S -> S -> S.
  Variable bonus : nat -> S.
  Variable penal : S -> S.
  Hypothesis laws : score_laws lt bot plus.
  Notation tot := (total lt zero plus bonus penal).
  Notation tokenize := (ug_tokenize lt bot zero plus bonus penal).

  Lemma best u s : ug_bytes u = false -> s <> [] ->
    (exists gs, segmentation u s gs /\ tokenize u s = Ok (ug_tokens u 0 (texts u gs)) /\ lt bot (tot u gs) = true /\
       forall gs', segmentation u s gs' -> lt (tot u gs) (tot u gs') = false) \/
    ((forall gs, segmentation u s gs -> lt bot (tot u gs) = false) /\
     tokenize u s = match ug_unk u with Some _ => Ok (ug_tokens u 0 [s]) | None => Err end).
  Proof.
    intros Hb Hs. destruct laws as [L1 L2 L3 L4 L5 L6].
    destruct (viterbi_spec lt bot zero plus bonus penal L1 L2 L3 L4 L5 L6 u s Hs) as [(gs & Sg & V & B & M)|(B & V)].
    - left. exists gs. unfold ug_tokenize. rewrite Hb, V. cbn [bind]. auto.
    - right. split; [exact B|]. unfold ug_tokenize. rewrite Hb, V, Hb. destruct (ug_unk u); reflexivity.
  Qed.

  Lemma unigram_tiles u s toks : ug_bytes u = false -> tokenize u s = Ok toks ->
    tiles 0 (zlen s) (map t_off toks) /\ concat (map t_value toks) = s.
  Proof. destruct laws as [L1 L2 L3 L4 L5 L6]. apply ug_tiles; auto. Qed.

  Lemma texts_values (u : unigram (S := S)) s gs : segmentation u s gs -> map t_value (ug_tokens u 0 (texts u gs)) = texts u gs.
  Proof.
    intros Sg. destruct (texts_concat u s gs Sg) as (_ & Ne).
    apply ug_tokens_tile; [|exact Ne]. intros Hu. unfold texts. rewrite Hu. clear Ne.
    induction Sg as [|g rest gs Hg _ IH]; [constructor|]. cbn. constructor; [|exact IH]. destruct g as [t k sc0|t].
    - destruct Hg as (En & _). intros H. assert (X : ug_token_to_id u t = Some (Z.of_nat k)); [|cbn in H; congruence].
      apply ug_lookup. eauto.
    - destruct Hg as (H & _). now elim H.
  Qed.

  (** Without fusing, the ids are those of the segments. *)
  Lemma unfused_ids (u : unigram (S := S)) s gs : segmentation u s gs -> texts u gs = map seg_text gs -> forall off,
    map (fun t => Some (t_id t)) (ug_tokens u off (map seg_text gs)) = map (seg_id (ug_unk u)) gs.
  Proof.
    intros Sg _. induction Sg as [|g rest gs Hg _ IH]; intros off; [reflexivity|]. cbn [map ug_tokens]. destruct g as [t k sc0|t].
    - destruct Hg as (En & _). assert (X : ug_token_to_id u t = Some (Z.of_nat k)) by (apply ug_lookup; eauto).
      cbn [seg_text]. rewrite X. cbn. now rewrite IH.
    - destruct Hg as (U & _ & Ni & _). assert (X : ug_token_to_id u t = None).
      { destruct (ug_token_to_id u t) as [id|] eqn:E; [|reflexivity]. exfalso. apply ug_lookup in E as (k & sc & _ & E & _).
        apply Ni. apply nth_error_In in E. now apply (in_map fst) in E. }
      cbn [seg_text]. rewrite X. destruct (ug_unk u) eqn:Eu; [|now elim U]. cbn. now rewrite IH.
  Qed.

  (** Tokens of more than 20 bytes are never used. *)
  Lemma long_tokens u s : ug_bytes u = false -> ug_unk u = None -> s <> [] ->
    (forall t, In t (map fst (ug_vocab u)) -> (20 < length t)%nat) -> tokenize u s = Err.
  Proof.
    intros Hb Hu Hs L. destruct (best u s Hb Hs) as [(gs & Sg & _)|(_ & E)]; [|now rewrite Hu in E]. exfalso.
    destruct Sg as [|g rest gs Hg Sg]; [now elim Hs|]. destruct g as [t k sc0|t].
    - destruct Hg as ((En & _) & Hl). apply nth_error_In in En. apply (in_map fst) in En. apply L in En. cbn in En. lia.
    - destruct Hg as (H & _). now elim H.
  Qed.
End Laws.

Lemma zlaws : score_laws zlt None zplus.
Proof.
  split.
  - intros [a|]; cbn; lia.
  - intros [a|] [b|] [c|]; cbn; intros; try discriminate; lia.
  - intros [a|] [b|] [c|]; cbn; intros; try discriminate; lia.
  - intros [a|]; reflexivity.
  - intros [a|] [b|] [x|]; cbn; intros; try discriminate; try reflexivity; lia.
  - intros [x|]; reflexivity.
Qed.

Lemma fold_total u gs : ug_unk u = None -> (forall t x, In (t, x) (ug_vocab u) -> x <> None) -> forall rest, segmentation u rest gs -> forall a,
  fold_left (add_seg zlt (Some 0) zplus zbonus zpenal u) gs (Some a) = Some (a + plain_total 0 gs + 10 * zlen rest).
Proof.
  intros Hu Fin rest Sg. induction Sg as [|g rest gs Hg _ IH]; intros a.
  - cbn. unfold zlen. cbn. f_equal. lia.
  - destruct g as [t k [z|]|t].
    + cbn [fold_left add_seg zplus zbonus]. rewrite IH. f_equal. cbn [plain_total fold_right plain_score seg_text].
      fold (plain_total 0 gs). unfold zlen. rewrite app_length. lia.
    + destruct Hg as ((En & _) & _). apply nth_error_In in En. now apply Fin in En.
    + destruct Hg as (H & _). now elim H.
Qed.

Lemma no_unknown_best u s toks : ug_bytes u = false -> ug_unk u = None ->
  (forall t x, In (t, x) (ug_vocab u) -> x <> None) -> s <> [] ->
  ug_tokenize zlt None (Some 0) zplus zbonus zpenal u s = Ok toks ->
  exists gs, segmentation u s gs /\ map t_value toks = map seg_text gs /\
    (map (fun t => Some (t_id t)) toks = map (seg_id None) gs) /\
    forall gs', segmentation u s gs' -> plain_total 0 gs' <= plain_total 0 gs.
Proof.
  intros Hb Hu Fin Hs E. destruct (best zlt None (Some 0) zplus zbonus zpenal zlaws u s Hb Hs) as [(gs & Sg & V & _ & M)|(_ & V)].
  - rewrite V in E. injection E as <-. assert (T : texts u gs = map seg_text gs) by (unfold texts; now rewrite Hu).
    exists gs. split; [exact Sg|]. split; [rewrite texts_values with (s := s) by exact Sg; exact T|]. split.
    + rewrite <- Hu. rewrite T. eapply unfused_ids; [exact Sg|exact T].
    + intros gs' Sg'. specialize (M gs' Sg'). unfold total in M.
      rewrite (fold_total u gs Hu Fin s Sg), (fold_total u gs' Hu Fin s Sg') in M. cbn in M. lia.
  - rewrite V, Hu in E. discriminate.
Qed.

(** * The unknown score and the byte tokens *)

Lemma min_fold {S} (lt : S -> S -> bool) bot plus : score_laws lt bot plus -> forall (voc : list (str * S)) x,
  let m := fold_left (fun m p => if lt (snd p) m then snd p else m) voc x in
  (m = x \/ In m (map snd voc)) /\ lt x m = false /\ Forall (fun p => lt (snd p) m = false) voc.
Proof.
  intros [L1 L2 L3 _ _ _]. induction voc as [|p voc IH]; intros x m.
  - split; [now left|]. split; [apply L1|constructor].
  - cbn in m. destruct (lt (snd p) x) eqn:E.
    + destruct (IH (snd p)) as (I1 & I2 & I3). fold m in I1, I2, I3. split; [|split].
      * right. cbn. destruct I1 as [->|I1]; auto.
      * assert (X : lt x (snd p) = false) by (destruct (lt x (snd p)) eqn:E2; [|reflexivity]; pose proof (L2 _ _ _ E E2); now rewrite L1 in H).
        exact (L3 _ _ _ I2 X).
      * constructor; [exact I2|exact I3].
    + destruct (IH x) as (I1 & I2 & I3). fold m in I1, I2, I3. split; [|split].
      * cbn. destruct I1; auto.
      * exact I2.
      * constructor; [|exact I3]. exact (L3 _ _ _ I2 E).
Qed.

Lemma min_score_least {S} (lt : S -> S -> bool) bot plus zero (voc : list (str * S)) : score_laws lt bot plus -> voc <> [] ->
  In (min_score lt zero voc) (map snd voc) /\ Forall (fun p => lt (snd p) (min_score lt zero voc) = false) voc.
Proof.
  intros L H. destruct voc as [|[t x] voc]; [congruence|]. unfold min_score.
  destruct (min_fold lt bot plus L ((t, x) :: voc) x) as (I1 & _ & I3). split; [|exact I3].
  destruct I1 as [->|I1]; [now left|exact I1].
Qed.

Lemma byte_token_text b : (b < 256)%N -> byte_token b = [60; 48; 120]%N ++
  [nth (N.to_nat (b / 16)) [48; 49; 50; 51; 52; 53; 54; 55; 56; 57; 65; 66; 67; 68; 69; 70]%N 0%N;
   nth (N.to_nat (b mod 16)) [48; 49; 50; 51; 52; 53; 54; 55; 56; 57; 65; 66; 67; 68; 69; 70]%N 0%N] ++ [62]%N.
Proof.
  intros H. unfold byte_token.
  assert (D : forall d, (d < 16)%N -> hex_digit d = nth (N.to_nat d) [48; 49; 50; 51; 52; 53; 54; 55; 56; 57; 65; 66; 67; 68; 69; 70]%N 0%N).
  { intros d Hd. assert (X : forall k, (k < 16)%nat -> hex_digit (N.of_nat k) = nth k [48; 49; 50; 51; 52; 53; 54; 55; 56; 57; 65; 66; 67; 68; 69; 70]%N 0%N).
    { intros k Hk. do 16 (destruct k as [|k]; [reflexivity|]). lia. }
    rewrite <- X by lia. now rewrite N2Nat.id. }
  rewrite !D; [reflexivity| |]; [apply N.mod_lt; lia|apply N.div_lt_upper_bound; lia].
Qed.
