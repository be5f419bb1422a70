(** Proofs about WordPiece, WordLevel and vocabulary files. *)
From Verif Require Import Base BaseProofs Utf8Model Utf8Proofs BpeModel BpeSpec BpeSaveModel BpeSaveSpec BpeSaveProofs
  BpeTokProofs WordPieceModel WordPieceSpec.
From Coq Require Import Permutation Sorted.
Open Scope Z_scope.

(** * Greedy segmentation *)

Lemma greedy_concat v prefix first w ps : greedy v prefix first w ps -> concat (map snd ps) = w.
Proof. induction 1; [reflexivity|]. cbn. now rewrite IHgreedy. Qed.

Lemma app_same_length {A} (a b c d : list A) : a ++ b = c ++ d -> length a = length c -> a = c /\ b = d.
Proof.
  revert c. induction a as [|x a IH]; intros [|y c] H L; cbn in *; try discriminate; [now split|].
  injection H as -> H. destruct (IH c H) as [-> ->]; [lia|]. now split.
Qed.

Lemma greedy_unique v prefix first w ps : greedy v prefix first w ps ->
  forall ps', greedy v prefix first w ps' -> ps = ps'.
Proof.
  induction 1 as [first|first p rest id ps Hp Hid Hmax Hg IH]; intros ps' G.
  - remember [] as w eqn:E. destruct G as [f|f p rest id ps Hp]; [reflexivity|].
    destruct p; [now elim Hp|discriminate].
  - remember (p ++ rest) as w eqn:E. destruct G as [f|f p' rest' id' ps' Hp' Hid' Hmax' Hg'].
    { destruct p; [now elim Hp|discriminate]. }
    destruct (Nat.lt_trichotomy (length p) (length p')) as [L|[L|L]].
    + rewrite (Hmax p' rest') in Hid' by auto. discriminate.
    + destruct (app_same_length _ _ _ _ E (eq_sym L)) as [-> ->]. rewrite Hid in Hid'. injection Hid' as ->.
      f_equal. now apply IH.
    + rewrite (Hmax' p rest) in Hid by auto. discriminate.
Qed.

Lemma wp_key_piece wp chars start len :
  wp_key wp chars start len = piece_key (wp_prefix wp) (start =? 0)%nat (firstn len (skipn start chars)).
Proof. unfold wp_key, piece_key. destruct start; reflexivity. Qed.

Lemma wp_longest_spec wp chars start len :
  match wp_longest wp chars start len with
  | Some (id, k, n) =>
      (1 <= n <= len)%nat /\ k = wp_key wp chars start n /\ vget k (wp_vocab wp) = Some id /\
      forall m, (n < m <= len)%nat -> vget (wp_key wp chars start m) (wp_vocab wp) = None
  | None => forall m, (1 <= m <= len)%nat -> vget (wp_key wp chars start m) (wp_vocab wp) = None
  end.
Proof.
  induction len as [|len IH]; [cbn; intros m H; lia|]. cbn [wp_longest].
  destruct (vget (wp_key wp chars start (S len)) (wp_vocab wp)) as [id|] eqn:E.
  - split; [lia|]. split; [reflexivity|]. split; [exact E|]. intros m H; lia.
  - destruct (wp_longest wp chars start len) as [[[id k] n]|].
    + destruct IH as (H1 & H2 & H3 & H4). split; [lia|]. split; [exact H2|]. split; [exact H3|].
      intros m H. destruct (Nat.eq_dec m (S len)) as [->|]; [exact E|]. apply H4; lia.
    + intros m H. destruct (Nat.eq_dec m (S len)) as [->|]; [exact E|]. apply IH; lia.
Qed.

Lemma skipn_add {A} (a b : nat) (l : list A) : skipn (a + b) l = skipn b (skipn a l).
Proof. revert l. induction a as [|a IH]; intros [|x l]; cbn; auto. now rewrite skipn_nil. Qed.

Lemma wp_loop_spec wp chars fuel : forall start acc,
  (start <= length chars)%nat -> (length chars - start <= fuel)%nat ->
  exists r, wp_loop wp chars fuel start acc = Ok r /\
    match r with
    | Some toks => exists ps, greedy (wp_vocab wp) (wp_prefix wp) (start =? 0)%nat (skipn start chars) ps /\
        toks = acc ++ piece_tokens (wp_prefix wp) (start =? 0)%nat (Z.of_nat start) ps
    | None => forall ps, ~ greedy (wp_vocab wp) (wp_prefix wp) (start =? 0)%nat (skipn start chars) ps
    end.
Proof.
  induction fuel as [|fuel IH]; intros start acc Hs Hf; cbn [wp_loop].
  - assert (start = length chars) as -> by lia. rewrite Nat.ltb_irrefl. eexists. split; [reflexivity|].
    exists []. rewrite skipn_all. split; [constructor|]. cbn. now rewrite app_nil_r.
  - destruct (Nat.ltb_spec start (length chars)) as [L|L].
    2:{ assert (start = length chars) as -> by lia. eexists. split; [reflexivity|].
        exists []. rewrite skipn_all. split; [constructor|]. cbn. now rewrite app_nil_r. }
    pose proof (wp_longest_spec wp chars start (length chars - start)) as Sp.
    destruct (wp_longest wp chars start (length chars - start)) as [[[id k] n]|].
    + destruct Sp as (Hn & -> & Hid & Hmax). rewrite wp_key_piece in Hid.
      set (rest := skipn start chars) in *.
      assert (Lr : length rest = (length chars - start)%nat) by (subst rest; apply skipn_length).
      set (p := firstn n rest) in *.
      assert (Lp : length p = n) by (subst p; rewrite firstn_length; lia).
      destruct (IH (start + n)%nat (acc ++ [Tok id (wp_key wp chars start n) (Z.of_nat start, Z.of_nat (start + n))]))
        as (r & E & R); [lia|lia|].
      rewrite E. exists r. split; [reflexivity|].
      assert (Hrest : skipn (start + n) chars = skipn n rest) by apply skipn_add.
      assert (Hsplit : rest = p ++ skipn n rest) by (symmetry; apply firstn_skipn).
      replace (start + n =? 0)%nat with false in R by (destruct start; cbn; lia).
      rewrite Hrest in R.
      assert (Hlong : forall q r0, p ++ skipn n rest = q ++ r0 -> (length p < length q)%nat ->
        vget (piece_key (wp_prefix wp) (start =? 0)%nat q) (wp_vocab wp) = None).
      { intros q r0 Eq Lq. rewrite <- Hsplit in Eq.
        assert (Lq' : (length q <= length rest)%nat) by (rewrite Eq, app_length; lia).
        assert (Q : q = firstn (length q) rest) by (rewrite Eq, firstn_app, Nat.sub_diag, firstn_all; cbn; now rewrite app_nil_r).
        rewrite Q. subst rest. rewrite <- wp_key_piece. apply Hmax. lia. }
      destruct r as [toks|].
      * destruct R as (ps & G & ->). exists ((id, p) :: ps). split.
        -- rewrite Hsplit. constructor; auto. destruct p; [cbn in Lp; lia|discriminate].
        -- rewrite <- app_assoc. cbn [app piece_tokens]. rewrite wp_key_piece. fold rest p.
           unfold zlen. rewrite Lp, Nat2Z.inj_add. reflexivity.
      * intros ps G. rewrite Hsplit in G. remember (p ++ skipn n rest) as w eqn:Ew.
        destruct G as [f|f p' rest' id' ps' Hp' Hid' Hmax' Hg'].
        { destruct p; [cbn in Lp; lia|discriminate]. }
        destruct (Nat.lt_trichotomy (length p) (length p')) as [X|[X|X]].
        -- rewrite (Hlong p' rest') in Hid' by auto. discriminate.
        -- destruct (app_same_length _ _ _ _ Ew (eq_sym X)) as [_ ->]. eapply R; exact Hg'.
        -- rewrite (Hmax' p (skipn n rest)) in Hid by auto. discriminate.
    + eexists. split; [reflexivity|]. cbn. intros ps G.
      remember (skipn start chars) as rest eqn:Er.
      assert (Lr : length rest = (length chars - start)%nat) by (subst rest; apply skipn_length).
      remember (start =? 0)%nat as b eqn:Eb.
      destruct G as [f|f p rest' id ps Hp Hid Hmax Hg]; [cbn in Lr; lia|].
      assert (Q : p = firstn (length p) (p ++ rest')) by (rewrite firstn_app, Nat.sub_diag, firstn_all; cbn; now rewrite app_nil_r).
      rewrite Q, Er, Eb, <- wp_key_piece, Sp in Hid; [discriminate|]. rewrite <- Lr, app_length. destruct p; [now elim Hp|cbn; lia].
Qed.

Lemma wp_greedy wp s ps : zlen (runes s) <= wp_max wp ->
  greedy (wp_vocab wp) (wp_prefix wp) true (runes s) ps ->
  wp_tokenize wp s = Ok (piece_tokens (wp_prefix wp) true 0 ps).
Proof.
  intros L G. unfold wp_tokenize. replace (wp_max wp <? zlen (runes s)) with false by lia.
  destruct (wp_loop_spec wp (runes s) (length (runes s)) 0 []) as (r & E & R); [lia|lia|].
  rewrite E. cbn [bind]. cbn [Nat.eqb skipn] in R. destruct r as [toks|].
  - destruct R as (ps' & G' & ->). now rewrite (greedy_unique _ _ _ _ _ G _ G').
  - exfalso. exact (R ps G).
Qed.

Lemma wp_unk_case wp s : wp_max wp < zlen (runes s) \/ (forall ps, ~ greedy (wp_vocab wp) (wp_prefix wp) true (runes s) ps) ->
  wp_tokenize wp s = match vget (wp_unk wp) (wp_vocab wp) with
                     | Some id => Ok [Tok id (wp_unk wp) (0, zlen (runes s))]
                     | None => Err
                     end.
Proof.
  intros H. unfold wp_tokenize. destruct (Z.ltb_spec (wp_max wp) (zlen (runes s))) as [L|L]; [reflexivity|].
  destruct H as [H|H]; [lia|].
  destruct (wp_loop_spec wp (runes s) (length (runes s)) 0 []) as (r & E & R); [lia|lia|].
  rewrite E. cbn [bind]. cbn [Nat.eqb skipn] in R. destruct r as [toks|]; [|reflexivity].
  destruct R as (ps & G & _). elim (H ps G).
Qed.

Lemma wp_cases wp s : wp_max wp < zlen (runes s) \/
  (forall ps, ~ greedy (wp_vocab wp) (wp_prefix wp) true (runes s) ps) \/
  exists ps, greedy (wp_vocab wp) (wp_prefix wp) true (runes s) ps /\ zlen (runes s) <= wp_max wp.
Proof.
  destruct (Z.ltb_spec (wp_max wp) (zlen (runes s))) as [L|L]; [now left|]. right.
  destruct (wp_loop_spec wp (runes s) (length (runes s)) 0 []) as (r & E & R); [lia|lia|].
  cbn [Nat.eqb skipn] in R. destruct r as [toks|]; [|now left]. destruct R as (ps & G & _). right. eauto.
Qed.

Lemma greedy_nonempty v prefix first w ps : greedy v prefix first w ps -> Forall (fun p => snd p <> []) ps.
Proof. induction 1; constructor; auto. Qed.

Lemma piece_tokens_tile prefix ps : Forall (fun p => snd p <> []) ps -> forall first pos,
  tiles pos (pos + zlen (concat (map snd ps))) (map t_off (piece_tokens prefix first pos ps)).
Proof.
  induction 1 as [|[id p] ps Hp _ IH]; intros first pos; cbn [map concat piece_tokens snd tiles t_off] in *.
  - cbn. unfold zlen. cbn. lia.
  - split; [reflexivity|]. split; [destruct p; [now elim Hp|unfold zlen; cbn [length]; lia]|].
    replace (pos + zlen (p ++ concat (map snd ps))) with (pos + zlen p + zlen (concat (map snd ps)))
      by (unfold zlen; rewrite app_length; lia). apply IH.
Qed.

Lemma runes_nonempty s : s <> [] -> 0 < zlen (runes s).
Proof.
  intros H. unfold runes, zlen. rewrite runes_w_cons by exact H. cbn. lia.
Qed.

Lemma wp_tiles wp s toks : s <> [] -> wp_tokenize wp s = Ok toks -> tiles 0 (zlen (runes s)) (map t_off toks).
Proof.
  intros Hs E. apply runes_nonempty in Hs. destruct (wp_cases wp s) as [H|[H|(ps & G & L)]].
  - rewrite wp_unk_case in E by auto. destruct (vget _ _); [|discriminate]. injection E as <-. cbn. lia.
  - rewrite wp_unk_case in E by auto. destruct (vget _ _); [|discriminate]. injection E as <-. cbn. lia.
  - rewrite (wp_greedy _ _ _ L G) in E. injection E as <-. rewrite <- (greedy_concat _ _ _ _ _ G) at 1.
    pose proof (piece_tokens_tile (wp_prefix wp) ps (greedy_nonempty _ _ _ _ _ G) true 0) as X. now rewrite Z.add_0_l in X.
Qed.

Lemma wp_values wp s toks : wp_tokenize wp s = Ok toks ->
  Forall (fun t => vget (t_value t) (wp_vocab wp) = Some (t_id t)) toks.
Proof.
  intros E. assert (U : forall n, wp_unknown wp n = Ok toks -> Forall (fun t => vget (t_value t) (wp_vocab wp) = Some (t_id t)) toks).
  { intros n. unfold wp_unknown. destruct (vget _ _) eqn:V; [|discriminate]. intros [= <-]. repeat constructor. exact V. }
  destruct (wp_cases wp s) as [H|[H|(ps & G & L)]].
  - rewrite wp_unk_case in E by auto. exact (U _ E).
  - rewrite wp_unk_case in E by auto. exact (U _ E).
  - rewrite (wp_greedy _ _ _ L G) in E. injection E as <-. clear -G. generalize 0 as pos. revert G. generalize true as first.
    generalize (runes s) as w. intros w first G. induction G; intros pos; cbn [piece_tokens]; constructor; auto.
Qed.

(** * Byte offsets *)

Lemma single_bytes_runes s : (forall b, In b s -> (b < 128)%N) -> runes s = s.
Proof.
  intros H. assert (E : encode s = s).
  { unfold encode. induction s as [|b s IH]; [reflexivity|]. cbn [map concat]. rewrite IH by (intros; apply H; now right).
    assert (b < 128)%N by (apply H; now left). unfold encode_rune. replace (b <? 128)%N with true by lia. reflexivity. }
  rewrite <- E at 1. apply runes_encode. apply Forall_forall. intros b Hb. apply H in Hb. unfold scalar. lia.
Qed.

Lemma runes_shorter s : valid_utf8 s -> (exists b, In b s /\ (128 <= b)%N) -> zlen (runes s) < zlen s.
Proof.
  intros V (b & Hb & Hge). rewrite <- (valid_utf8_runes s V) in Hb |- * at 2.
  generalize dependent (runes s). intros rs. unfold encode, zlen.
  induction rs as [|r rs IH]; [intros []|]. cbn [map concat length]. rewrite app_length. intros Hb.
  pose proof (encode_rune_length r). apply in_app_iff in Hb as [Hb|Hb].
  - assert (1 < length (encode_rune r))%nat.
    { destruct (encode_rune r) as [|x [|y l]] eqn:E; cbn in *; try lia. destruct Hb as [->|[]].
      revert E. unfold encode_rune. destruct (N.ltb_spec r 128); [intros [= <-]; lia|].
      destruct (r <? 2048)%N; [discriminate|]. destruct (negb (scalarb r)); [discriminate|].
      destruct (r <? 65536)%N; discriminate. }
    assert (forall l : list N, (length l <= length (concat (map encode_rune l)))%nat).
    { clear. induction l as [|r l IH]; [cbn; lia|]. cbn. rewrite app_length. pose proof (encode_rune_length r). lia. }
    match goal with X : forall l : list N, _ |- _ => specialize (X rs) end. lia.
  - apply IH in Hb. lia.
Qed.

Lemma tiles_last a b offs : tiles a b offs -> offs <> [] -> snd (last offs (0, 0)) = b.
Proof.
  revert a. induction offs as [|[s e] offs IH]; intros a H N; [now elim N|]. destruct H as (_ & _ & H).
  destruct offs as [|o offs]; [cbn in *; auto|]. change (last ((s, e) :: o :: offs) (0, 0)) with (last (o :: offs) (0, 0)).
  eapply IH; [exact H|discriminate].
Qed.

Lemma wp_not_bytes wp s toks : valid_utf8 s -> (exists b, In b s /\ (128 <= b)%N) ->
  wp_tokenize wp s = Ok toks -> ~ tiles 0 (zlen s) (map t_off toks).
Proof.
  intros V H E T. assert (Hs : s <> []) by (destruct H as (b & Hb & _); destruct s; [destruct Hb|discriminate]).
  pose proof (wp_tiles _ _ _ Hs E) as T'. pose proof (runes_shorter _ V H) as L. pose proof (runes_nonempty s Hs).
  destruct toks as [|t toks]; [cbn in T'; lia|].
  apply tiles_last in T; [|discriminate]. apply tiles_last in T'; [|discriminate]. lia.
Qed.

(** * Vocabularies *)

Lemma nodup_ids (v : vocab) (a b : str) i : NoDup (map snd v) -> In (a, i) v -> In (b, i) v -> a = b.
Proof.
  induction v as [|[k j] v IH]; intros N Ha Hb; [destruct Ha|]. cbn in N. inversion N as [|x l Hn N']; subst.
  destruct Ha as [Ha|Ha], Hb as [Hb|Hb]; try congruence; try (now apply IH).
  - injection Ha as -> ->. elim Hn. now apply (in_map snd) in Hb.
  - injection Hb as -> ->. elim Hn. now apply (in_map snd) in Ha.
Qed.

Lemma lookup_inverse v order : NoDup (map fst v) -> NoDup (map snd v) -> Permutation order v ->
  forall t i, vget t v = Some i <-> vrget i (build_vocab_r order) = Some t.
Proof.
  intros N M P t i. split; intros H; [|eapply vocab_r_inverse; eassumption].
  destruct (vocab_r_total _ _ _ _ P H) as (t' & H'). pose proof (vocab_r_inverse _ _ _ _ N P H') as H2.
  rewrite H'. f_equal. apply aget_str_in in H, H2. eapply nodup_ids; eassumption.
Qed.

(** * WordLevel *)

Lemma aset_ids (v : vocab) u n : NoDup (map fst v) -> NoDup (map snd v) ->
  ((exists t, t <> u /\ In (t, n) v) -> False) ->
  NoDup (map snd (aset str_eqb u n v)).
Proof.
  intros Nk Ni F. induction v as [|[k j] v IH]; cbn [aset]; [repeat constructor; intros []|].
  cbn in Nk, Ni. inversion Nk as [|? ? Hk Nk']; subst. inversion Ni as [|? ? Hi Ni']; subst.
  destruct (str_eqb u k) eqn:E.
  - apply str_eqb_eq in E as <-. cbn. constructor; [|exact Ni']. intros H. apply in_map_iff in H as ([t i] & X & H). cbn in X. subst i.
    apply F. exists t. split; [|now right]. intros ->. apply Hk. now apply (in_map fst) in H.
  - apply str_eqb_neq in E. cbn. constructor.
    + intros H. apply in_map_iff in H as ([t i] & X & H). cbn in X. subst i.
      assert (Q : aget str_eqb t (aset str_eqb u n v) = Some j).
      { apply ag_nodup; [exact str_eqb_eq|apply aset_nodup; [exact str_eqb_eq|exact Nk']|exact H]. }
      rewrite (ag_aset str_eqb str_eqb_eq) in Q. destruct (str_eqb t u) eqn:Et.
      * injection Q as <-. apply F. exists k. split; [congruence|now left].
      * apply (ag_in str_eqb str_eqb_eq) in Q. apply (in_map snd) in Q. now apply Hi in Q.
    + apply IH; auto. intros (t & Ht & Hin). apply F. exists t. split; [exact Ht|now right].
Qed.

Lemma nodup_iota n : NoDup (map Z.of_nat (seq 0 n)).
Proof. apply FinFun.Injective_map_NoDup; [intros a b H; lia|apply seq_NoDup]. Qed.

Lemma dense_nodup v : dense v -> NoDup (map snd v).
Proof. intros D. eapply Permutation_NoDup; [apply Permutation_sym, D|apply nodup_iota]. Qed.

Lemma dense_bound v t i : dense v -> In (t, i) v -> 0 <= i < zlen v.
Proof.
  intros D H. apply (in_map snd) in H. cbn in H. apply (Permutation_in _ D) in H.
  apply in_map_iff in H as (k & <- & Hk). apply in_seq in Hk. unfold zlen. lia.
Qed.

Lemma dense_add v u : dense v -> ~ In u (map fst v) -> dense (aset str_eqb u (zlen v) v).
Proof.
  intros D F. rewrite (aset_fresh str_eqb str_eqb_eq) by exact F. unfold dense. rewrite map_app, app_length, Nat.add_1_r, seq_S, map_app.
  apply Permutation_app; [exact D|]. cbn. unfold zlen. apply Permutation_refl.
Qed.

(** A history that only sets dense vocabularies and names tokens that are new. *)
Definition wl_good_op (c : wl_config) (o : wl_op) : Prop :=
  match o with
  | WLVocab None => False
  | WLVocab (Some v) => NoDup (map fst v) /\ dense v
  | WLUnk u => match wlc_vocab c with Some v => ~ In u (map fst v) | None => False end
  end.

Lemma wl_step_dense c o v : wlc_vocab c = Some v -> NoDup (map fst v) -> dense v -> wl_good_op c o ->
  exists c' v', wl_step c o = Ok c' /\ wlc_vocab c' = Some v' /\ NoDup (map fst v') /\ dense v'.
Proof.
  intros E N D G. destruct o as [[v'|]|u]; cbn in *.
  - destruct G. eexists _, _. split; [reflexivity|]. cbn. auto.
  - destruct G.
  - rewrite E in *. eexists _, _. split; [reflexivity|]. cbn. split; [reflexivity|]. split; [|now apply dense_add].
    now apply (aset_nodup str_eqb str_eqb_eq).
Qed.

Lemma wl_unk_id c u v c' : wlc_vocab c = Some v -> wl_step c (WLUnk u) = Ok c' ->
  exists v', wlc_vocab c' = Some v' /\ vget u v' = Some (zlen v) /\ forall t, t <> u -> vget t v' = vget t v.
Proof.
  intros E. cbn. rewrite E. intros [= <-]. cbn. eexists. split; [reflexivity|]. unfold vget. split.
  - rewrite (ag_aset str_eqb str_eqb_eq). now rewrite str_eqb_refl.
  - intros t Ht. rewrite (ag_aset str_eqb str_eqb_eq). apply str_eqb_neq in Ht. now rewrite Ht.
Qed.

(** * Vocabulary files *)

Lemma load_fold lines : forall v n, NoDup (map fst v ++ lines) ->
  fold_left vocab_line lines (v, n) =
    (v ++ combine lines (map (fun i => n + Z.of_nat i) (seq 0 (length lines))), n + zlen lines).
Proof.
  induction lines as [|l lines IH]; intros v n N.
  - cbn. rewrite app_nil_r. f_equal. unfold zlen. cbn. lia.
  - cbn [fold_left]. unfold vocab_line at 2. cbn [fst snd].
    assert (F : ~ In l (map fst v)).
    { apply NoDup_remove in N as [_ N]. intros H. apply N. apply in_app_iff. now left. }
    rewrite (aset_fresh str_eqb str_eqb_eq) by exact F. rewrite IH.
    + rewrite <- app_assoc. cbn [length seq map combine app]. rewrite Z.add_0_r. f_equal; [|unfold zlen; cbn [length]; lia].
      do 3 f_equal. rewrite <- seq_shift, map_map. apply map_ext. intros i. lia.
    + rewrite map_app, <- app_assoc. exact N.
Qed.

Lemma sorted_iota (l : list Z) : StronglySorted Z.le l -> Permutation l (map Z.of_nat (seq 0 (length l))) ->
  l = map Z.of_nat (seq 0 (length l)).
Proof.
  assert (G : forall l k, StronglySorted Z.le l -> Permutation l (map Z.of_nat (seq k (length l))) -> l = map Z.of_nat (seq k (length l))).
  { clear l. induction l as [|x l IH]; intros k Sd P; [reflexivity|]. cbn [length seq map] in *.
    inversion Sd as [|? ? Sd' F]; subst.
    assert (x = Z.of_nat k) as ->.
    { assert (A : In (Z.of_nat k) (x :: l)) by (apply (Permutation_in _ (Permutation_sym P)); now left).
      assert (B : In x (Z.of_nat k :: map Z.of_nat (seq (S k) (length l)))) by (apply (Permutation_in _ P); now left).
      destruct A as [A|A]; [exact A|]. destruct B as [B|B]; [now symmetry|].
      rewrite Forall_forall in F. apply F in A. apply in_map_iff in B as (j & <- & Hj). apply in_seq in Hj. lia. }
    f_equal. apply IH; [exact Sd'|]. now apply Permutation_cons_inv in P. }
  intros Sd P. now apply G.
Qed.

Lemma combine_fst_snd {A B} (l : list (A * B)) : combine (map fst l) (map snd l) = l.
Proof. induction l as [|[a b] l IH]; [reflexivity|]. cbn. now rewrite IH. Qed.

Lemma sorted_snd (v : vocab) : StronglySorted (fun a b => snd a <= snd b) v -> StronglySorted Z.le (map snd v).
Proof.
  induction 1 as [|e v _ IH F]; cbn; constructor; auto. apply Forall_map. exact F.
Qed.

Lemma save_vocab_lines sorted : save_vocab sorted = concat (map (fun l => l ++ [NL]) (map fst sorted)).
Proof. unfold save_vocab. now rewrite map_map. Qed.

Lemma load_saved v sorted : NoDup (map fst v) -> dense v -> by_id v sorted ->
  (forall t, In t (map fst v) -> plain_token t) -> load_vocab (save_vocab sorted) = Ok sorted.
Proof.
  intros N D (P & Sd) Pl. unfold load_vocab.
  rewrite save_vocab_lines, scan_saved.
  2:{ intros l Hl. apply (Permutation_in _ (Permutation_sym (Permutation_map fst P))) in Hl. destruct (Pl l Hl) as (A & B & C). auto. }
  cbn [bind]. rewrite load_fold.
  2:{ cbn. eapply Permutation_NoDup; [apply Permutation_map, P|exact N]. }
  cbn [fst app]. f_equal. rewrite map_length. rewrite <- (combine_fst_snd sorted) at 3. f_equal.
  assert (I : map snd sorted = map Z.of_nat (seq 0 (length (map snd sorted)))).
  { apply sorted_iota; [now apply sorted_snd|]. rewrite map_length, <- (Permutation_length P).
    eapply Permutation_trans; [apply Permutation_sym, Permutation_map, P|exact D]. }
  rewrite I, map_length. apply map_ext. intros i. lia.
Qed.

Lemma vget_perm v v' : NoDup (map fst v) -> Permutation v v' -> forall t, vget t v' = vget t v.
Proof.
  intros N P t. unfold vget. destruct (aget str_eqb t v) as [i|] eqn:E.
  - apply (ag_in str_eqb str_eqb_eq) in E. apply (ag_nodup str_eqb str_eqb_eq); [|eapply Permutation_in; eassumption].
    eapply Permutation_NoDup; [apply Permutation_map, P|exact N].
  - apply (ag_none str_eqb str_eqb_eq) in E. apply (ag_none str_eqb str_eqb_eq). intros H. apply E.
    eapply Permutation_in; [apply Permutation_sym, Permutation_map, P|exact H].
Qed.

Lemma load_keys lines : forall v n t, In t (map fst (fst (fold_left vocab_line lines (v, n)))) -> In t (map fst v) \/ In t lines.
Proof.
  induction lines as [|l lines IH]; intros v n t H; [now left|]. cbn [fold_left] in H. unfold vocab_line at 2 in H. cbn [fst snd] in H.
  apply IH in H as [H|H]; [|right; now right].
  destruct (aget str_eqb t (aset str_eqb l n v)) as [i|] eqn:E.
  - rewrite (ag_aset str_eqb str_eqb_eq) in E. destruct (str_eqb t l) eqn:Et.
    + apply str_eqb_eq in Et as ->. right. now left.
    + left. apply (ag_in str_eqb str_eqb_eq) in E. now apply (in_map fst) in E.
  - apply (ag_none str_eqb str_eqb_eq) in E. now elim E.
Qed.

Lemma load_no_newline file v' t : load_vocab file = Ok v' -> In 10%N t -> vget t v' = None.
Proof.
  unfold load_vocab. intros E H. destruct (scan_lines file) as [lines| | | |] eqn:S; cbn [bind] in E; try discriminate.
  injection E as <-. destruct (vget t _) as [i|] eqn:G; [|reflexivity]. exfalso.
  apply (ag_in str_eqb str_eqb_eq) in G. apply (in_map fst) in G. apply load_keys in G as [[]|G]. cbn [fst] in G.
  unfold scan_lines in S. destruct (existsb _ _); [discriminate|]. injection S as <-.
  apply in_map_iff in G as (l & D & Hl).
  assert (Hp : In l (split_on NL file)).
  { destruct (rev (split_on NL file)) as [|x r] eqn:R; [exact Hl|]. destruct x; [|exact Hl].
    apply in_rev. rewrite R. right. now apply in_rev. }
  apply split_on_nosep in Hp. apply Hp. subst t. unfold drop_cr in H. destruct (rev l) as [|c r] eqn:R; [exact H|].
  destruct (c =? CR)%N; [|exact H]. apply in_rev. rewrite R. right. now apply in_rev.
Qed.

Lemma scan_plain ls : (forall l, In l ls -> ~ In NL l /\ zlen l < 65536) ->
  scan_lines (concat (map (fun l => l ++ [NL]) ls)) = Ok (map drop_cr ls).
Proof.
  intros H. unfold scan_lines. rewrite split_lines by (intros l Hl; apply (H l Hl)).
  rewrite rev_unit, rev_involutive. rewrite existsb_false; [reflexivity|].
  intros l Hl. apply H in Hl. lia.
Qed.

Lemma load_cr v sorted t v' : by_id v sorted -> (forall t, In t (map fst v) -> ~ In 10%N t /\ zlen t < 65536) ->
  last t 0%N = 13%N -> ~ In (t ++ [13%N]) (map fst v) -> load_vocab (save_vocab sorted) = Ok v' -> vget t v' = None.
Proof.
  intros (P & _) Pl L F E. unfold load_vocab in E.
  rewrite save_vocab_lines, scan_plain in E.
  2:{ intros l Hl. apply (Permutation_in _ (Permutation_sym (Permutation_map fst P))) in Hl. destruct (Pl l Hl) as (A & B). auto. }
  cbn [bind] in E. injection E as <-. destruct (vget t _) as [i|] eqn:G; [|reflexivity]. exfalso.
  apply (ag_in str_eqb str_eqb_eq) in G. apply (in_map fst) in G. apply load_keys in G as [[]|G]. cbn [fst] in G.
  apply in_map_iff in G as (l & D & Hl). apply F.
  apply (Permutation_in _ (Permutation_sym (Permutation_map fst P))) in Hl.
  unfold drop_cr in D. destruct (rev l) as [|c r] eqn:R.
  - subst t. assert (l = []) by (rewrite <- (rev_involutive l), R; reflexivity). subst l. discriminate.
  - assert (Hc : l = rev r ++ [c]) by (rewrite <- (rev_involutive l), R; reflexivity).
    destruct (N.eqb_spec c CR) as [->|Nc].
    + subst t. change (In (rev r ++ [CR]) (map fst v)); rewrite <- Hc; exact Hl.
    + subst t. rewrite Hc, last_last in L. now elim Nc.
Qed.

Lemma load_long v sorted t : by_id v sorted -> (forall t, In t (map fst v) -> ~ In 10%N t) ->
  In t (map fst v) -> 65536 <= zlen t -> load_vocab (save_vocab sorted) = Err.
Proof.
  intros (P & _) Pl Hin L. unfold load_vocab.
  rewrite save_vocab_lines, (scan_too_long (map fst sorted) t); [reflexivity| | |exact L].
  - intros l Hl. apply (Permutation_in _ (Permutation_sym (Permutation_map fst P))) in Hl. now apply Pl.
  - eapply Permutation_in; [apply Permutation_map, P|exact Hin].
Qed.
