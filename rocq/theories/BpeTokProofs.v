From Coq Require Import Permutation.
From Verif Require Import Base SliceModel SliceProofs EncodingProofs Utf8Model Utf8Proofs
  HeapModel HeapProofs BpeModel BpeSpec BpeTokSpec BpeProofs BpeRefProofs.

Lemma build_word_linked l : build_word l = linked l.
Proof. unfold build_word. exact (fold_word_add l []). Qed.

(** * Initial words *)

Definition init_ok (b : bpe) (n : nat) (p : nat * N) (sg : BpeSpec.seg) : Prop :=
  char_id b (char_key b n (fst p) (snd p)) = Some (fst sg) /\
  snd sg = zlen (encode_rune (snd p)).

Lemma init_fold_word b n ps : forall l0,
  (exists l, foldR (fun w (p : nat * N) => let '(i, r) := p in
      match char_id b (char_key b n i r) with
      | Some id => Ok (word_add w id (zlen (encode_rune r))) | None => Panic end)
    ps (linked l0) = Ok (linked (l0 ++ l)) /\ Forall2 (init_ok b n) ps l) \/
  (foldR (fun w (p : nat * N) => let '(i, r) := p in
      match char_id b (char_key b n i r) with
      | Some id => Ok (word_add w id (zlen (encode_rune r))) | None => Panic end)
    ps (linked l0) = Panic /\
   Exists (fun p => char_id b (char_key b n (fst p) (snd p)) = None) ps).
Proof.
  induction ps as [|[i r] ps IH]; intros l0; cbn [foldR].
  - left. exists []. rewrite app_nil_r. split; [reflexivity|constructor].
  - destruct (char_id b (char_key b n i r)) as [id|] eqn:E; cbn [bind].
    + rewrite word_add_linked. destruct (IH (l0 ++ [(id, zlen (encode_rune r))])) as [(l & El & F)|[El Ex]].
      * left. exists ((id, zlen (encode_rune r)) :: l). rewrite El, <- app_assoc.
        split; [reflexivity|]. constructor; [now split|exact F].
      * right. split; [exact El|]. now right.
    + right. split; [reflexivity|]. left. exact E.
Qed.

Lemma init_word_spec b s :
  (exists l, init_word b s = Ok (linked l) /\
     Forall2 (init_ok b (length (runes s))) (combine (seq 0 (length (runes s))) (runes s)) l) \/
  (init_word b s = Panic /\
   Exists (fun p => char_id b (char_key b (length (runes s)) (fst p) (snd p)) = None)
     (combine (seq 0 (length (runes s))) (runes s))).
Proof. apply (init_fold_word b _ _ []). Qed.

Lemma init_positive b n ps l : Forall2 (init_ok b n) ps l -> positive l.
Proof.
  induction 1 as [|p sg ps l [_ H] _ IH]; constructor; [|exact IH].
  rewrite H. unfold zlen. pose proof (encode_rune_length (snd p)). lia.
Qed.

Lemma zlen_app {A} (a b : list A) : zlen (a ++ b) = (zlen a + zlen b)%Z.
Proof. unfold zlen. rewrite app_length. lia. Qed.

Lemma init_total b n : forall rs k l, Forall2 (init_ok b n) (combine (seq k (length rs)) rs) l ->
  total l = zlen (encode rs).
Proof.
  induction rs as [|r rs IH]; intros k l H; cbn in H; inversion H; subst; [reflexivity|].
  cbn [total fold_right]. rewrite encode_cons, zlen_app.
  destruct H2 as [_ ->]. fold (total l'). rewrite (IH _ _ H4). reflexivity.
Qed.

Lemma enough_ok s (l : list BpeSpec.seg) : length l = length (runes s) -> 3 * length l < enough s.
Proof. unfold enough. lia. Qed.

Lemma Forall2_len' {A B} (R : A -> B -> Prop) a b : Forall2 R a b -> length a = length b.
Proof. induction 1; cbn; congruence. Qed.

(** What tokenization does, in one lemma. *)
Lemma tokenize_spec b s : s <> [] ->
  (exists l w', Forall2 (init_ok b (length (runes s))) (combine (seq 0 (length (runes s))) (runes s)) l /\
     bpe_tokenize b s = Ok (word_to_tokens b w') /\ positive l /\
     merge_steps (tbl (b_merges b)) l (segs w') /\ exhausted (tbl (b_merges b)) (segs w') /\
     (forall wt, additive (tbl (b_merges b)) wt -> ranked_steps (tbl (b_merges b)) l (segs w'))) \/
  (bpe_tokenize b s = Panic /\
   Exists (fun p => char_id b (char_key b (length (runes s)) (fst p) (snd p)) = None)
     (combine (seq 0 (length (runes s))) (runes s))).
Proof.
  intros Hs. unfold bpe_tokenize, merge_word. destruct s as [|b0 s0] eqn:E; [congruence|].
  rewrite <- E. replace (length s =? 0) with false by (rewrite E; reflexivity).
  destruct (init_word_spec b s) as [(l & -> & F)|[-> Ex]].
  - cbn [bind]. pose proof (init_positive _ _ _ _ F) as P.
    assert (HL : length l = length (runes s)).
    { apply Forall2_len' in F. rewrite combine_length, seq_length, Nat.min_id in F. lia. }
    destruct (merge_all_main (b_merges b) (enough s) l P (enough_ok s l HL)) as (w' & -> & H).
    left. exists l, w'. cbn [bind]. tauto.
  - right. now split.
Qed.

Lemma get_offsets_length w : forall p, length (get_offsets_from p w) = length w.
Proof. induction w as [|s w IH]; intros p; cbn; [reflexivity|]. now rewrite IH. Qed.

Lemma map_snd_combine {A B} (a : list A) (b : list B) : length a = length b -> map snd (combine a b) = b.
Proof. revert b; induction a as [|x a IH]; intros [|y b] H; cbn in *; try lia; [reflexivity|]. f_equal. apply IH. lia. Qed.
Lemma map_fst_combine {A B} (a : list A) (b : list B) : length a = length b -> map fst (combine a b) = a.
Proof. revert b; induction a as [|x a IH]; intros [|y b] H; cbn in *; try lia; [reflexivity|]. f_equal. apply IH. lia. Qed.

Lemma word_to_tokens_off b w : map t_off (word_to_tokens b w) = get_offsets w.
Proof.
  unfold word_to_tokens. rewrite map_map. cbn. apply map_snd_combine.
  unfold get_chars, get_offsets. now rewrite map_length, get_offsets_length.
Qed.

Lemma word_to_tokens_id b w : map t_id (word_to_tokens b w) = map s_c w.
Proof.
  unfold word_to_tokens. rewrite map_map. cbn. apply map_fst_combine.
  unfold get_chars, get_offsets. now rewrite map_length, get_offsets_length.
Qed.

Lemma word_to_tokens_segs b w : tok_segs (word_to_tokens b w) = segs w.
Proof.
  unfold tok_segs, word_to_tokens, get_chars, get_offsets, segs. rewrite map_map. cbn.
  generalize 0%Z. induction w as [|s w IH]; intros p; [reflexivity|].
  cbn. f_equal; [f_equal; lia|]. apply IH.
Qed.

Lemma tokenize_off b s toks : bpe_tokenize b s = Ok toks ->
  tiles 0 (zlen (encode (runes s))) (map t_off toks).
Proof.
  intros H. destruct s as [|b0 s0] eqn:E.
  - cbn in H. injection H as <-. reflexivity.
  - rewrite <- E in *. destruct (tokenize_spec b s) as [(l & w' & F & E' & P & M & _)|[E' _]];
      [congruence| |congruence].
    rewrite E' in H. injection H as <-. rewrite word_to_tokens_off.
    rewrite <- (init_total _ _ _ _ _ F), <- (merge_steps_total _ _ _ M).
    pose proof (get_offsets_tiles w' 0 (merge_steps_positive _ _ _ M P)) as T. exact T.
Qed.

(** * Reverse vocabulary *)

Lemma aget_aset_Z {V} (m : list (Z * V)) k v k' :
  aget Z.eqb k' (aset Z.eqb k v m) = if (k' =? k)%Z then Some v else aget Z.eqb k' m.
Proof.
  induction m as [|[k0 v0] m IH]; cbn.
  - destruct (k' =? k)%Z; reflexivity.
  - destruct (k =? k0)%Z eqn:E; cbn.
    + assert (k = k0) as -> by lia. destruct (k' =? k0)%Z; reflexivity.
    + destruct (k' =? k0)%Z eqn:E2.
      * assert (k' = k0) as -> by lia. now replace (k0 =? k)%Z with false by lia.
      * apply IH.
Qed.

Lemma build_vocab_r_spec order : forall m,
  (forall i k, vrget i (fold_left (fun m p => aset Z.eqb (snd p) (fst p) m) order m) = Some k ->
     In (k, i) order \/ vrget i m = Some k) /\
  (forall i, ((exists k, In (k, i) order) \/ vrget i m <> None) ->
     vrget i (fold_left (fun m p => aset Z.eqb (snd p) (fst p) m) order m) <> None).
Proof.
  induction order as [|[k0 i0] order IH]; intros m; cbn [fold_left fst snd].
  - split; [auto|]. intros i [[k []]|H]; exact H.
  - destruct (IH (aset Z.eqb i0 k0 m)) as [I1 I2]. split.
    + intros i k H. destruct (I1 i k H) as [H1|H1]; [left; now right|].
      unfold vrget in H1. rewrite aget_aset_Z in H1. destruct (i =? i0)%Z eqn:E.
      * injection H1 as <-. assert (i = i0) as -> by lia. left; now left.
      * now right.
    + intros i H. apply I2. unfold vrget. rewrite aget_aset_Z.
      destruct (i =? i0)%Z eqn:E; [right; discriminate|].
      destruct H as [(k & [[= <- <-]|H])|H]; [lia|left; eauto|now right].
Qed.

Lemma str_eqb_eq a b : str_eqb a b = true <-> a = b.
Proof.
  revert b; induction a as [|x a IH]; intros [|y b]; cbn; split; try congruence.
  - intros H. apply andb_true_iff in H as [H1 H2]. apply N.eqb_eq in H1 as ->.
    apply IH in H2 as ->. reflexivity.
  - intros [= -> ->]. rewrite N.eqb_refl. now apply IH.
Qed.

Lemma str_eqb_refl a : str_eqb a a = true.
Proof. now apply str_eqb_eq. Qed.

Lemma aget_str_in {V} (m : list (str * V)) k v :
  aget str_eqb k m = Some v -> In (k, v) m.
Proof.
  induction m as [|[k0 v0] m IH]; cbn; [discriminate|].
  destruct (str_eqb k k0) eqn:E; [|auto]. apply str_eqb_eq in E as ->. intros [= ->]. now left.
Qed.

Lemma aget_str_nodup {V} (m : list (str * V)) k v :
  NoDup (map fst m) -> In (k, v) m -> aget str_eqb k m = Some v.
Proof.
  induction m as [|[k0 v0] m IH]; cbn; [intros _ []|]. intros N H. inversion N as [|? ? N1 N2]; subst.
  destruct H as [[= -> ->]|H]; [now rewrite str_eqb_refl|].
  destruct (str_eqb k k0) eqn:E; [|now apply IH].
  apply str_eqb_eq in E as ->. exfalso. apply N1. now apply (in_map fst) in H.
Qed.

Lemma vocab_r_inverse v order i k :
  NoDup (map fst v) -> Permutation order v ->
  vrget i (build_vocab_r order) = Some k -> vget k v = Some i.
Proof.
  intros N P H. destruct (build_vocab_r_spec order []) as [I1 _].
  destruct (I1 i k H) as [H1|H1]; [|discriminate].
  apply aget_str_nodup; [exact N|]. eapply Permutation_in; eassumption.
Qed.

Lemma vocab_r_total v order i k :
  Permutation order v -> vget k v = Some i -> exists k', vrget i (build_vocab_r order) = Some k'.
Proof.
  intros P H. destruct (build_vocab_r_spec order []) as [_ I2].
  apply aget_str_in in H. apply (Permutation_in _ (Permutation_sym P)) in H.
  destruct (vrget i (build_vocab_r order)) as [k'|] eqn:E; [eauto|].
  exfalso. apply (I2 i); [left; eauto|exact E].
Qed.

(** * Token values *)

Lemma char_id_in b key id :
  (forall u, b_unk b = Some u -> vget u (b_vocab b) <> None) ->
  char_id b key = Some id -> exists k, vget k (b_vocab b) = Some id.
Proof.
  intros Hu. unfold char_id. destruct (vget key (b_vocab b)) as [i|] eqn:E.
  - intros [= <-]. eauto.
  - destruct (b_unk b) as [u|]; [|discriminate]. specialize (Hu u eq_refl).
    destruct (vget u (b_vocab b)) as [i|] eqn:E2; [|congruence]. intros [= <-]. eauto.
Qed.

Lemma tokenize_values b order s toks t :
  NoDup (map fst (b_vocab b)) -> Permutation order (b_vocab b) ->
  b_vocab_r b = build_vocab_r order ->
  (forall u, b_unk b = Some u -> vget u (b_vocab b) <> None) ->
  (forall c1 c2 r n, lookup_merge (b_merges b) c1 c2 = Some (r, n) ->
     exists k, vget k (b_vocab b) = Some n) ->
  bpe_tokenize b s = Ok toks -> In t toks -> vget (t_value t) (b_vocab b) = Some (t_id t).
Proof.
  intros N P Hr Hu Hm H Ht. destruct s as [|b0 s0] eqn:E.
  - cbn in H. injection H as <-. destruct Ht.
  - rewrite <- E in *. destruct (tokenize_spec b s) as [(l & w' & F & E' & Pos & M & _)|[E' _]];
      [congruence| |congruence].
    rewrite E' in H. injection H as <-.
    assert (Hid : In (t_id t, (snd (t_off t) - fst (t_off t))%Z) (segs w')).
    { rewrite <- (word_to_tokens_segs b w'). unfold tok_segs. apply in_map_iff. now exists t. }
    assert (K : exists k, vget k (b_vocab b) = Some (t_id t)).
    { destruct (merge_steps_ids _ _ _ M _ _ Hid) as [(m & Hl)|(c1 & c2 & r & Hc)].
      - clear -F Hl Hu. induction F as [|p sg ps l [H1 H2] F IH]; [destruct Hl|].
        destruct Hl as [->|Hl]; [|now apply IH]. cbn in H1. now apply char_id_in in H1.
      - now apply Hm in Hc. }
    destruct K as (k & K). destruct (vocab_r_total _ _ _ _ P K) as (k' & Hk').
    unfold word_to_tokens in Ht. apply in_map_iff in Ht as ([i o] & <- & _). cbn in *.
    rewrite Hr, Hk'. cbn. eapply vocab_r_inverse; eassumption.
Qed.

(** * Ids that take no part in merges *)

Definition isolated (t : table) (u : Z) : Prop :=
  forall c1 c2 r n, t c1 c2 = Some (r, n) -> c1 <> u /\ c2 <> u /\ n <> u.

Lemma spans_app a : forall p b, spans p (a ++ b) = spans p a ++ spans (p + total a) b.
Proof.
  induction a as [|[c n] a IH]; intros p b; cbn [app spans total fold_right snd].
  - now rewrite Z.add_0_r.
  - rewrite IH. cbn. do 3 f_equal. fold (total a). lia.
Qed.

Lemma merge_steps_isolated t u l l' : isolated t u -> merge_steps t l l' ->
  forall x, fst (fst x) = u -> In x (spans 0 l) <-> In x (spans 0 l').
Proof.
  intros Hu. induction 1 as [l|r l1 l2 l3 H _ IH]; intros x Hx; [reflexivity|].
  rewrite <- (IH x Hx). clear IH l3. destruct H as [A B c1 n1 c2 n2 r n Ht].
  destruct (Hu _ _ _ _ Ht) as (H1 & H2 & H3).
  rewrite !spans_app, !in_app_iff. cbn [spans In]. rewrite Z.add_assoc.
  split; intros [H|H]; try (now left); right.
  - destruct H as [<-|[<-|H]]; [cbn in Hx; congruence..|now right].
  - destruct H as [<-|H]; [cbn in Hx; congruence|]. right; now right.
Qed.

Lemma spans_init b n (rs : list N) : forall k p l,
  Forall2 (init_ok b n) (combine (seq k (length rs)) rs) l ->
  forall x, In x (spans p l) <->
    exists pre r post, rs = pre ++ r :: post /\
      char_id b (char_key b n (k + length pre) r) = Some (fst (fst x)) /\
      snd (fst x) = (p + zlen (encode pre))%Z /\
      snd x = (p + zlen (encode pre) + zlen (encode_rune r))%Z.
Proof.
  induction rs as [|r rs IH]; intros k p l H x; cbn [length seq combine] in H; inversion H; subst.
  - cbn. split; [intros []|]. intros (pre & r & post & E & _). destruct pre; discriminate.
  - destruct y as [c m]. destruct H2 as [H2a H2b]. cbn in H2a, H2b. cbn [spans In].
    rewrite (IH (S k) _ _ H4). split.
    + intros [<-|(pre & r' & post & -> & E1 & E2 & E3)].
      * exists [], r, rs. cbn [length]. rewrite Nat.add_0_r. cbn. repeat split; auto; unfold zlen in *; cbn; lia.
      * exists (r :: pre), r', post. cbn [length app]. rewrite encode_cons, zlen_app.
        rewrite Nat.add_succ_r. repeat split; auto; lia.
    + intros (pre & r' & post & E & E1 & E2 & E3). destruct pre as [|r0 pre]; cbn [app length] in *.
      * injection E as <- <-. left. rewrite Nat.add_0_r in E1. rewrite E1 in H2a.
        injection H2a as <-. destruct x as [[x1 x2] x3]. cbn in *. unfold zlen in *. cbn in *.
        f_equal; [f_equal|]; lia.
      * injection E as <- ->. right. exists pre, r', post. rewrite encode_cons, zlen_app in *.
        rewrite Nat.add_succ_r in E1. repeat split; auto; lia.
Qed.

Lemma word_to_tokens_spans b w : tok_spans (word_to_tokens b w) = spans 0 (segs w).
Proof.
  unfold tok_spans, word_to_tokens, get_chars, get_offsets, segs. rewrite map_map. cbn.
  generalize 0%Z. induction w as [|s w IH]; intros p; [reflexivity|].
  cbn. f_equal. apply IH.
Qed.

Lemma tokenize_ok_iff b s :
  (exists toks, bpe_tokenize b s = Ok toks) \/
  (bpe_tokenize b s = Panic /\ b_unk b = None).
Proof.
  destruct s as [|b0 s0] eqn:E; [left; now exists []|]. rewrite <- E in *.
  destruct (tokenize_spec b s) as [(l & w' & _ & E' & _)|[E' Ex]]; [congruence|left; eauto|].
  right. split; [exact E'|]. apply Exists_exists in Ex as (p & _ & Hp).
  unfold char_id in Hp. destruct (vget _ _); [discriminate|].
  destruct (b_unk b) as [u|]; [|reflexivity]. destruct (vget u _); discriminate.
Qed.

Lemma tokenize_unknown b s toks u uid :
  b_prefix b = None -> b_unk b = Some u -> vget u (b_vocab b) = Some uid ->
  isolated (tbl (b_merges b)) uid ->
  bpe_tokenize b s = Ok toks ->
  forall st e,
    In (uid, st, e) (tok_spans toks) <->
    exists pre r post, runes s = pre ++ r :: post /\
      (vget (encode_rune r) (b_vocab b) = None \/ vget (encode_rune r) (b_vocab b) = Some uid) /\
      st = zlen (encode pre) /\ e = (zlen (encode pre) + zlen (encode_rune r))%Z.
Proof.
  intros Hp Hu Hv Hi H st e. destruct s as [|b0 s0] eqn:E.
  - cbn in H. injection H as <-. cbn. split; [intros []|].
    intros (pre & r & post & E' & _). destruct pre; discriminate.
  - rewrite <- E in *. destruct (tokenize_spec b s) as [(l & w' & F & E' & Pos & M & _)|[E' _]];
      [congruence| |congruence].
    rewrite E' in H. injection H as <-. rewrite word_to_tokens_spans.
    rewrite <- (merge_steps_isolated _ uid _ _ Hi M (uid, st, e) eq_refl).
    rewrite (spans_init b _ (runes s) 0 0 l F (uid, st, e)). cbn [fst snd].
    assert (G : forall pre r post, runes s = pre ++ r :: post ->
       char_id b (char_key b (length (runes s)) (0 + length pre) r) = Some uid <->
       vget (encode_rune r) (b_vocab b) = None \/ vget (encode_rune r) (b_vocab b) = Some uid).
    { intros pre r post Er. unfold char_key. rewrite Hp. cbn [opt_str app Nat.add].
      assert (length pre < length (runes s)) by (rewrite Er, app_length; cbn; lia).
      replace (length pre =? length (runes s)) with false by lia.
      replace (if length pre =? 0 then encode_rune r else encode_rune r) with (encode_rune r)
        by (now destruct (length pre =? 0)).
      unfold char_id. destruct (vget (encode_rune r) (b_vocab b)) as [i|].
      - split; [now right|]. intros [C|C]; [discriminate|exact C].
      - rewrite Hu, Hv. split; auto. }
    split; intros (pre & r & post & Er & H1 & H2 & H3); exists pre, r, post;
      (split; [exact Er|]); (split; [now apply (G pre r post Er)|]); lia.
Qed.

(** * Dropout *)

Lemma loop_forever t drop fuel : forall k w q skip L,
  (forall m, k <= m -> drop m = false) -> skip <> [] -> q <> [] ->
  rep w L -> Forall (entry_ok t w) q -> Forall (entry_ok t w) skip ->
  merge_loop t drop fuel k w q skip = NoFuel.
Proof.
  induction fuel as [|fuel IH]; intros k w q skip L Hd Hs Hq R Eq Es; cbn [merge_loop]; [reflexivity|].
  destruct (qpop q) as [[top q1]|] eqn:Ep; [|apply pop_none in Ep; contradiction].
  destruct (pop_spec _ _ _ Ep) as [_ Iq]. rewrite Forall_forall in Eq, Es.
  rewrite (Hd k) by lia.
  set (q2 := fold_left qpush skip q1).
  assert (Hq2 : forall e, In e q2 -> entry_ok t w e).
  { intros e He. apply fold_push_in in He as [He|He]; [now apply Es|]. apply Eq, Iq. now right. }
  assert (Nq2 : q2 <> []).
  { intros C. pose proof (fold_push_length skip q1) as HL. fold q2 in HL. rewrite C in HL.
    destruct skip; [congruence|]. cbn in HL. lia. }
  pose proof (process_top_spec t w L q2 top R (proj1 (Eq top ltac:(apply Iq; now left)))) as P.
  remember (process_top t w q2 top) as pr eqn:Epr. clear Epr.
  destruct P as [St|A i j B r w' q' HL Hi Hlk R' Hlen Hoth Hc Hl Hin Hnew _ _ _ _];
    cbn [bind fst snd].
  - apply (IH _ _ _ _ L); auto; [intros m Hm; apply Hd; lia|now apply Forall_forall..].
  - apply (IH _ _ _ _ (A ++ i :: B)); auto.
    + intros m Hm; apply Hd; lia.
    + destruct q2 as [|e q2']; [congruence|]. intros C. specialize (Hin e (or_introl eq_refl)).
      rewrite C in Hin. destruct Hin.
    + apply Forall_forall. intros e He. apply (entry_ok_length t w); [exact Hlen|].
      apply Hnew in He as [He|(H1 & A1 & x & y & B1 & _ & _ & H2)]; [now apply Hq2|].
      split; [exact H1|]. eauto.
    + apply Forall_forall. intros e He. apply (entry_ok_length t w); [exact Hlen|]. now apply Es.
Qed.

Lemma in_two {A} (q : list A) x y : In x q -> In y q -> x <> y -> 2 <= length q.
Proof.
  destruct q as [|a [|b q]]; cbn; [tauto| |intros; lia].
  intros [->|[]] [->|[]] H. congruence.
Qed.

Lemma dropout_diverges t drop l i j c1 n1 c2 n2 d1 m1 d2 m2 :
  positive l -> drop 0 = true -> (forall m, 1 <= m -> drop m = false) ->
  nth_error l i = Some (c1, n1) -> nth_error l (S i) = Some (c2, n2) -> lookup_merge t c1 c2 <> None ->
  nth_error l j = Some (d1, m1) -> nth_error l (S j) = Some (d2, m2) -> lookup_merge t d1 d2 <> None ->
  i <> j ->
  forall fuel, merge_all t drop fuel (build_word l) = NoFuel.
Proof.
  intros P D0 D1 Ei Ei' Hi Ej Ej' Hj Hij fuel. rewrite build_word_linked.
  destruct (inv_linked t l P) as [I _]. destruct (init_queue_spec t (linked l)) as (Iq & _ & _).
  assert (Q : forall i c1 n1 c2 n2, nth_error l i = Some (c1, n1) -> nth_error l (S i) = Some (c2, n2) ->
     lookup_merge t c1 c2 <> None -> exists r n, In (Mrg (Z.of_nat i) r n) (init_queue t (linked l))).
  { intros i0 a1 b1 a2 b2 E1 E2 Hl. destruct (lookup_merge t a1 a2) as [[r n]|] eqn:E; [|congruence].
    exists r, n. apply Iq. eexists i0, _, _, r, n. rewrite !nth_error_linked, E1, E2. cbn.
    repeat split. exact E. }
  destruct (Q _ _ _ _ _ Ei Ei' Hi) as (r1 & x1 & Q1). destruct (Q _ _ _ _ _ Ej Ej' Hj) as (r2 & x2 & Q2).
  pose proof (in_two _ _ _ Q1 Q2 ltac:(intros [=]; lia)) as HL.
  unfold merge_all. destruct fuel as [|fuel]; [reflexivity|]. cbn [merge_loop].
  destruct I as [R Eq _ _].
  destruct (qpop (init_queue t (linked l))) as [[top q1]|] eqn:Ep.
  2:{ apply pop_none in Ep. rewrite Ep in HL. cbn in HL. lia. }
  destruct (pop_spec _ _ _ Ep) as [Lq Iq1]. rewrite D0. cbn [app].
  rewrite Forall_forall in Eq.
  rewrite (loop_forever t drop fuel 1 (linked l) q1 [top] (seq 0 (length l))); auto.
  - discriminate.
  - intros C. rewrite C in Lq. cbn in Lq. lia.
  - apply Forall_forall. intros e He. apply Eq, Iq1. now right.
  - constructor; [|constructor]. apply Eq, Iq1. now left.
Qed.

(** Dropping everything ends without any merge. *)
Lemma drop_all_loop t fuel : forall k w q skip, length q < fuel ->
  merge_loop t (fun _ => true) fuel k w q skip = Ok w.
Proof.
  induction fuel as [|fuel IH]; intros k w q skip H; [lia|]. cbn [merge_loop].
  destruct (qpop q) as [[top q1]|] eqn:Ep; [|reflexivity].
  destruct (pop_spec _ _ _ Ep) as [Lq _]. apply IH. lia.
Qed.

(** * Statements used by PropBpe *)

Lemma merge_all_fuel t l : positive l ->
  exists w', (forall fuel, 3 * length l < fuel -> merge_all t no_drop fuel (build_word l) = Ok w') /\
    merge_steps (tbl t) l (segs w') /\ exhausted (tbl t) (segs w') /\
    (forall wt, additive (tbl t) wt -> ranked_steps (tbl t) l (segs w')).
Proof.
  intros P. rewrite build_word_linked.
  destruct (merge_all_main t (3 * length l + 1) l P ltac:(lia)) as (w' & E & H).
  exists w'. split; [|exact H]. intros fuel Hf. unfold merge_all in *.
  destruct (merge_loop t no_drop (3 * length l + 1) 0 (linked l) (init_queue t (linked l)) []) as [w0| | | |] eqn:E0;
    try discriminate. cbn [bind] in E.
  assert (Mono : forall f f' k w q skip r, f <= f' -> merge_loop t no_drop f k w q skip = Ok r ->
            merge_loop t no_drop f' k w q skip = Ok r).
  { clear. induction f as [|f IH]; intros f' k w q skip r Hf H; [discriminate|].
    destruct f' as [|f']; [lia|]. cbn [merge_loop] in *.
    destruct (qpop q) as [[top q1]|]; [|exact H]. cbn [no_drop] in *.
    destruct (process_top t w (fold_left qpush skip q1) top) as [[w1 q2]| | | |]; cbn [bind] in *;
      try discriminate. cbn [fst snd] in *. apply IH; [lia|exact H]. }
  rewrite (Mono (3 * length l + 1) fuel _ _ _ _ _ ltac:(lia) E0). exact E.
Qed.

Lemma merge_all_exhaustive t l : positive l ->
  exists w', (forall fuel, 3 * length l < fuel -> merge_all t no_drop fuel (build_word l) = Ok w') /\
    merge_steps (tbl t) l (segs w') /\ exhausted (tbl t) (segs w').
Proof. intros P. destruct (merge_all_fuel t l P) as (w' & H). exists w'. tauto. Qed.

Lemma merge_all_ranked t wt l : positive l ->
  (forall c, 0 < wt c)%Z ->
  (forall c1 c2 r n, lookup_merge t c1 c2 = Some (r, n) -> wt n = wt c1 + wt c2)%Z ->
  exists w', (forall fuel, 3 * length l < fuel -> merge_all t no_drop fuel (build_word l) = Ok w') /\
    ranked_steps (tbl t) l (segs w') /\ exhausted (tbl t) (segs w').
Proof.
  intros P H1 H2. destruct (merge_all_fuel t l P) as (w' & E & _ & Ex & R). exists w'.
  split; [exact E|]. split; [|exact Ex]. apply (R wt). now split.
Qed.

Lemma merge_all_reference t wt l : positive l ->
  (forall c, 0 < wt c)%Z ->
  (forall c1 c2 r n, lookup_merge t c1 c2 = Some (r, n) -> wt n = wt c1 + wt c2)%Z ->
  (forall c1 c2 d1 d2 r n m, lookup_merge t c1 c2 = Some (r, n) ->
     lookup_merge t d1 d2 = Some (r, m) -> c1 = d1 /\ c2 = d2) ->
  (forall c, lookup_merge t c c = None) ->
  (forall c1 c2 r n, lookup_merge t c1 c2 = Some (r, n) ->
     forall c r' n', lookup_merge t n c = Some (r', n') \/ lookup_merge t c n = Some (r', n') -> r < r')%Z ->
  exists w', (forall fuel, 3 * length l < fuel -> merge_all t no_drop fuel (build_word l) = Ok w') /\
    segs w' = reference (tbl t) l.
Proof.
  intros P H1 H2 H3 H4 H5. destruct (merge_all_ranked t wt l P H1 H2) as (w' & E & R & Ex).
  exists w'. split; [exact E|]. now apply (ranked_is_reference (tbl t)).
Qed.

Lemma leftmost_refuted :
  exists t l w', (forall fuel, 3 * length l < fuel -> merge_all t no_drop fuel (build_word l) = Ok w') /\
    segs w' = [(2, 2); (1, 1); (2, 2)]%Z /\
    reference (tbl t) l = [(2, 2); (2, 2); (1, 1)]%Z.
Proof.
  exists [((1, 1), (0, 2))]%Z, [(1, 1); (1, 1); (1, 1); (1, 1); (1, 1)]%Z.
  destruct (merge_all_fuel [((1, 1), (0, 2))]%Z [(1, 1); (1, 1); (1, 1); (1, 1); (1, 1)]%Z) as (w' & E & _).
  { repeat constructor. }
  exists w'. split; [exact E|].
  specialize (E 20 ltac:(cbn; lia)). vm_compute in E. injection E as <-. split; reflexivity.
Qed.

Lemma merge_all_dropout t drop fuel l : positive l ->
  merge_all t drop fuel (build_word l) = NoFuel \/
  exists w', merge_all t drop fuel (build_word l) = Ok w' /\ merge_steps (tbl t) l (segs w').
Proof. rewrite build_word_linked. apply merge_all_any. Qed.

Lemma tokenize_dropout_off b drop fuel s toks :
  valid_utf8 s -> bpe_tokenize_dropout b drop fuel s = Ok toks -> tiles 0 (zlen s) (map t_off toks).
Proof.
  intros V H. unfold bpe_tokenize_dropout, merge_word in H.
  destruct (length s =? 0) eqn:E0.
  { injection H as <-. destruct s; [reflexivity|discriminate]. }
  destruct (init_word_spec b s) as [(l & El & F)|[El _]]; rewrite El in H; [|discriminate].
  cbn [bind] in H. pose proof (init_positive _ _ _ _ F) as P.
  destruct (merge_all_any (b_merges b) drop fuel l P) as [E|(w' & E & M)]; rewrite E in H; [discriminate|].
  cbn [bind] in H. injection H as <-. rewrite word_to_tokens_off.
  rewrite <- (valid_utf8_runes s V), <- (init_total _ _ _ _ _ F), <- (merge_steps_total _ _ _ M).
  exact (get_offsets_tiles w' 0 (merge_steps_positive _ _ _ M P)).
Qed.

Lemma char_key_plain b n i r : b_prefix b = None -> i < n -> char_key b n i r = encode_rune r.
Proof.
  intros Hp Hi. unfold char_key. rewrite Hp. cbn [opt_str app].
  replace (i =? n) with false by lia. now destruct (i =? 0).
Qed.

Lemma init_symbols b rs n : b_prefix b = None -> forall k l, k + length rs <= n ->
  Forall2 (init_ok b n) (combine (seq k (length rs)) rs) l -> Forall2 (char_symbol b) rs l.
Proof.
  intros Hp. induction rs as [|r rs IH]; intros k l Hk F; cbn [length seq combine] in *;
    inversion F; subst; [constructor|]. constructor; [|apply (IH (S k)); [lia|assumption]].
  destruct H1 as [H1 H2]. cbn in H1, H2. split; [exact H2|].
  rewrite char_key_plain in H1 by (auto; lia). unfold char_id in H1.
  destruct (vget (encode_rune r) (b_vocab b)) as [i|]; [left; exact H1|]. right.
  split; [reflexivity|]. destruct (b_unk b) as [u|]; [|discriminate]. exists u. split; [reflexivity|].
  destruct (vget u (b_vocab b)) as [i|]; [now left|right]. split; [reflexivity|]. now injection H1.
Qed.

Lemma tokenize_exhaustive b s toks : b_prefix b = None -> bpe_tokenize b s = Ok toks ->
  exists l, Forall2 (char_symbol b) (runes s) l /\
    merge_steps (tbl (b_merges b)) l (tok_segs toks) /\
    exhausted (tbl (b_merges b)) (tok_segs toks).
Proof.
  intros Hp H. destruct s as [|b0 s0] eqn:E.
  - cbn in H. injection H as <-. exists []. split; [constructor|]. split; [constructor|].
    intros A B ? ? ? ? C. destruct A; discriminate C.
  - rewrite <- E in *. destruct (tokenize_spec b s) as [(l & w' & F & E' & P & M & Ex & _)|[E' _]];
      [congruence| |congruence].
    rewrite E' in H. injection H as <-. rewrite word_to_tokens_segs. exists l.
    split; [|now split]. eapply init_symbols; [exact Hp| |exact F]. lia.
Qed.

Lemma tokenize_ranked b wt s toks : b_prefix b = None ->
  (forall c, 0 < wt c)%Z ->
  (forall c1 c2 r n, lookup_merge (b_merges b) c1 c2 = Some (r, n) -> wt n = wt c1 + wt c2)%Z ->
  bpe_tokenize b s = Ok toks ->
  exists l, Forall2 (char_symbol b) (runes s) l /\
    ranked_steps (tbl (b_merges b)) l (tok_segs toks) /\
    exhausted (tbl (b_merges b)) (tok_segs toks).
Proof.
  intros Hp H1 H2 H. destruct s as [|b0 s0] eqn:E.
  - cbn in H. injection H as <-. exists []. split; [constructor|]. split; [constructor|].
    intros A B ? ? ? ? C. destruct A; discriminate C.
  - rewrite <- E in *. destruct (tokenize_spec b s) as [(l & w' & F & E' & P & M & Ex & R)|[E' _]];
      [congruence| |congruence].
    rewrite E' in H. injection H as <-. rewrite word_to_tokens_segs. exists l.
    split; [|split; [apply (R wt); now split|exact Ex]]. eapply init_symbols; [exact Hp| |exact F]. lia.
Qed.

Lemma tokenize_reference b wt s toks : b_prefix b = None ->
  (forall c, 0 < wt c)%Z ->
  (forall c1 c2 r n, lookup_merge (b_merges b) c1 c2 = Some (r, n) -> wt n = wt c1 + wt c2)%Z ->
  (forall c1 c2 d1 d2 r n m, lookup_merge (b_merges b) c1 c2 = Some (r, n) ->
     lookup_merge (b_merges b) d1 d2 = Some (r, m) -> c1 = d1 /\ c2 = d2) ->
  (forall c, lookup_merge (b_merges b) c c = None) ->
  (forall c1 c2 r n, lookup_merge (b_merges b) c1 c2 = Some (r, n) ->
     forall c r' n', lookup_merge (b_merges b) n c = Some (r', n') \/
       lookup_merge (b_merges b) c n = Some (r', n') -> r < r')%Z ->
  bpe_tokenize b s = Ok toks ->
  exists l, Forall2 (char_symbol b) (runes s) l /\
    tok_segs toks = reference (tbl (b_merges b)) l.
Proof.
  intros Hp H1 H2 H3 H4 H5 H. destruct (tokenize_ranked b wt s toks Hp H1 H2 H) as (l & F & R & Ex).
  exists l. split; [exact F|]. now apply (ranked_is_reference (tbl (b_merges b))).
Qed.

Lemma tokenize_fuel b s : bpe_tokenize b s <> NoFuel.
Proof. destruct (tokenize_ok_iff b s) as [(toks & ->)|[-> _]]; discriminate. Qed.

Lemma tokenize_unk_ok b s : b_unk b <> None -> exists toks, bpe_tokenize b s = Ok toks.
Proof. intros H. destruct (tokenize_ok_iff b s) as [H0|[_ C]]; [exact H0|congruence]. Qed.

Lemma tokenize_unconfigured b s r :
  b_unk b = None -> b_prefix b = None -> In r (runes s) ->
  vget (encode_rune r) (b_vocab b) = None -> bpe_tokenize b s = Panic.
Proof.
  intros Hu Hp Hr Hv. assert (Hs : s <> []) by (intros ->; destruct Hr).
  destruct (tokenize_spec b s Hs) as [(l & w' & F & _)|[E _]]; [exfalso|exact E].
  apply In_nth_error in Hr as (i & Hi).
  assert (Hin : In (i, r) (combine (seq 0 (length (runes s))) (runes s))).
  { apply (nth_error_In _ i). rewrite nth_error_combine_seq by lia. now rewrite Hi. }
  assert (i < length (runes s)) as Hlt by (apply nth_error_Some; congruence).
  clear -F Hin Hu Hp Hv Hlt. induction F as [|p sg ps l [H1 _] _ IH]; [destruct Hin|].
  destruct Hin as [->|Hin]; [|now apply IH]. cbn in H1.
  rewrite char_key_plain in H1 by assumption. unfold char_id in H1. rewrite Hv, Hu in H1. discriminate.
Qed.

Lemma tokenize_missing_unk b r u :
  b_unk b = Some u -> vget u (b_vocab b) = None -> b_prefix b = None -> scalar r ->
  vget (encode_rune r) (b_vocab b) = None ->
  bpe_tokenize b (encode_rune r) =
    Ok [Tok 0 (opt_str (vrget 0 (b_vocab_r b))) (0, zlen (encode_rune r))]%Z.
Proof.
  intros Hu Hv Hp Hr Hc.
  assert (R : runes (encode_rune r) = [r]).
  { rewrite <- (app_nil_r (encode_rune r)). apply (runes_encode [r]). now constructor. }
  unfold bpe_tokenize, merge_word. replace (length (encode_rune r) =? 0) with false
    by (pose proof (encode_rune_length r); lia).
  unfold init_word, enough. rewrite R. cbn [length seq combine foldR].
  rewrite char_key_plain by (auto; lia). unfold char_id. rewrite Hc, Hu, Hv.
  assert (Hz : (zlen (encode_rune r) =? 0)%Z = false)
    by (pose proof (encode_rune_length r); unfold zlen; lia).
  cbn [bind word_add]. unfold merge_all, remove_symbols. cbn. rewrite Hz. reflexivity.
Qed.
