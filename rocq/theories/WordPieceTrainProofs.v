(** Proofs about WordPiece training and the builders (C68, C69). *)
From Coq Require Import Permutation.
From Verif Require Import Base BaseProofs EncodingProofs Utf8Model Utf8Proofs BpeModel BpeTokProofs DecoderModel DecoderSpec DecoderProofs
  WordPieceModel WordPieceSpec WordPieceProofs TrainerModel TrainerSpec TrainerProofs TrainTextProofs WordPieceTrainModel WordPieceTrainSpec.
Open Scope Z_scope.

Lemma strip_other b p x : In b p -> Forall (fun y => y <> b) x -> strip_prefix (Some p) x = x.
Proof.
  intros I F. cbn. destruct (str_eqb p (firstn (length p) x)) eqn:E; [|reflexivity]. exfalso. apply str_eqb_eq in E. rewrite E in I.
  rewrite Forall_forall in F. apply (F b); [|reflexivity]. rewrite <- (firstn_skipn (length p) x). apply in_or_app. now left.
Qed.
Lemma not_in_forall b (x : str) : ~ In b x <-> Forall (fun y => y <> b) x.
Proof. rewrite Forall_forall. split; intros H; [intros y Hy ->; contradiction|intros I; exact (H b I eq_refl)]. Qed.

Section Trained.
  Context (addr : nat -> nat -> str) (pick : list tmerge -> nat) (cf : tcfg) (arrival : list nat) (wc : list (str * Z)).
  Hypothesis no_limit : tc_limit cf = None.
  Hypothesis pick_max : picks_highest pick.

  Lemma lim_ok : limit_ok cf.
  Proof. intros l. rewrite no_limit. discriminate. Qed.

  (** A byte that is in no text and no address is in no token. *)
  Lemma trained_foreign fuel t news p h b : tc_prefix cf = Some p -> In h p ->
    foreign h cf wc -> (forall a i, ~ In h (addr a i)) -> foreign b cf wc -> (forall a i, ~ In b (addr a i)) ->
    train_bpe addr pick cf arrival wc fuel = Ok (t, news) ->
    forall s, In b s -> vget s (b_vocab (trained_model cf (t, news))) = None.
  Proof.
    intros P I [Hw Hi] Ha [Bw Bi] Ba D s Hs. destruct (vget s _) as [i|] eqn:V; [|reflexivity]. exfalso.
    assert (In s (snd t)) as M by (apply (trained_entry addr pick cf arrival wc fuel t news s lim_ok pick_max D); congruence).
    destruct (train_text addr pick cf arrival wc (fun x => x <> h /\ x <> b) no_limit) with (fuel := fuel) (t := t) (news := news) (x := s) as [F _]; auto.
    - intros x F. rewrite P. apply (strip_other h); [exact I|]. eapply Forall_impl; [|exact F]. intros y [Y _]. exact Y.
    - intros w n H. apply Forall_forall. intros x Hx. split; intros ->; [exact (Hw w n H Hx)|exact (Bw w n H Hx)].
    - intros c H. apply Forall_forall. intros x Hx. split; intros ->; [exact (Hi c H Hx)|exact (Bi c H Hx)].
    - intros a i0. apply Forall_forall. intros x Hx. split; intros ->; [exact (Ha a i0 Hx)|exact (Ba a i0 Hx)].
    - rewrite Forall_forall in F. now destruct (F b Hs).
  Qed.

  (** Tokens without a byte that all addresses have. *)
  Lemma trained_later fuel t news p h x : tc_prefix cf = Some p -> tc_suffix cf = None -> In h p ->
    foreign h cf wc -> (forall a i, ~ In h (addr a i)) -> (forall a i, In x (addr a i)) ->
    train_bpe addr pick cf arrival wc fuel = Ok (t, news) ->
    forall s, vget s (b_vocab (trained_model cf (t, news))) <> None -> ~ In x s ->
      initial_char cf wc s \/ exists w n, In (w, n) wc /\ later_in w s.
  Proof.
    intros P Sf I [Hw Hi] Ha Ax D s V Nx.
    assert (In s (snd t)) as M by (apply (trained_entry addr pick cf arrival wc fuel t news s lim_ok pick_max D V)).
    destruct (train_text addr pick cf arrival wc (fun x => x <> h) no_limit) with (fuel := fuel) (t := t) (news := news) (x := s) as [_ R]; auto.
    - intros y F. rewrite P. now apply (strip_other h).
    - intros w n H. apply not_in_forall. eauto.
    - intros c H. apply not_in_forall. eauto.
    - intros a i. apply not_in_forall. auto.
    - destruct R as [R|(us & a & u & c & U & E & Nu & ->)]; [now left|]. apply all_units_in in U as (k & j & Hk & ->).
      pose proof (Permutation_in k (sort_strs_perm (map fst wc)) Hk) as Kw. apply in_map_iff in Kw as ([k' n] & K & Kw). cbn [fst] in K. subst k'.
      rewrite (units_prefix addr cf j _ p P Sf) in E. pose proof (explode_characters k) as C. destruct (explode k) as [|c0 [|c1 l]].
      + destruct a; [|discriminate]. destruct u; [contradiction|discriminate].
      + (* a single character *)
        left. destruct a as [|a0 a]; [|exfalso; cbn in E; injection E as _ E; symmetry in E; apply app_eq_nil in E as [_ E]; apply app_eq_nil in E as [E _]; contradiction].
        destruct u as [|u0 u]; [contradiction|]. cbn in E. injection E as <- E. symmetry in E. apply app_eq_nil in E as [-> _]. cbn. rewrite app_nil_r.
        left. exists k, n. split; [exact Kw|]. exists [c0]. split; [exact C|now left].
      + right. exists k, n. split; [exact Kw|]. destruct a as [|a0 a].
        * exfalso. apply Nx. destruct u as [|u0 u]; [contradiction|]. cbn in E. injection E as <- _. cbn. apply in_or_app. left. apply in_or_app. left. apply Ax.
        * cbn in E. injection E as _ E. exists c0, a, u, c. split; [rewrite <- E; exact C|reflexivity].
  Qed.

  Lemma trained_vocab_nodup fuel t news : train_bpe addr pick cf arrival wc fuel = Ok (t, news) ->
    NoDup (map fst (b_vocab (trained_model cf (t, news)))) /\ NoDup (map snd (b_vocab (trained_model cf (t, news)))).
  Proof.
    intros D. destruct (train_facts addr pick cf arrival wc lim_ok pick_max fuel t news D) as [base [[ND T] _]].
    pose proof (trained_ids addr pick cf arrival wc fuel t news lim_ok pick_max D) as Ids. cbn [trained_model b_vocab fst] in *.
    split; [exact ND|]. clear - ND Ids. induction (fst t) as [|[k i] v IH]; [constructor|]. cbn [map fst snd] in *. apply NoDup_cons_iff in ND as [N1 N2]. constructor.
    - intros H. apply in_map_iff in H as ([k' i'] & E & H). cbn in E. subst i'.
      assert (V' : vget k' ((k, i) :: v) = Some i).
      { unfold vget. cbn [aget]. destruct (str_eqb k' k) eqn:Q; [reflexivity|]. now apply (ag_nodup str_eqb str_eqb_eq). }
      assert (V : vget k ((k, i) :: v) = Some i) by (unfold vget; cbn [aget]; now rewrite str_eqb_refl).
      pose proof (proj2 (Ids k i V) k' V') as ->. apply N1. now apply (in_map fst) in H.
    - apply IH; [exact N2|]. intros s j V.
      assert (K : forall s j, vget s v = Some j -> vget s ((k, i) :: v) = Some j).
      { intros s0 j0 V0. unfold vget in *. cbn [aget]. destruct (str_eqb s0 k) eqn:Q; [|exact V0]. apply str_eqb_eq in Q. subst. exfalso. apply N1.
        apply (ag_in str_eqb str_eqb_eq) in V0. now apply (in_map fst) in V0. }
      destruct (Ids s j (K s j V)) as [A B]. split; [exact A|]. intros s' V'. apply B. auto.
  Qed.
End Trained.

(** A WordPiece model whose vocabulary has no continuing piece and no unknown token. *)
Lemma wp_whole wp s : (forall x, vget (wp_prefix wp ++ x)%list (wp_vocab wp) = None) -> vget (wp_unk wp) (wp_vocab wp) = None ->
  match wp_tokenize wp s with
  | Ok toks => toks = [] /\ runes s = [] \/ exists id, toks = [Tok id (encode (runes s)) (0, zlen (runes s))] /\ vget (encode (runes s)) (wp_vocab wp) = Some id
  | Err => True
  | _ => False
  end.
Proof.
  intros NC NU. destruct (wp_cases wp s) as [L|[L|(ps & G & L)]].
  - rewrite (wp_unk_case wp s (or_introl L)), NU. exact I.
  - rewrite (wp_unk_case wp s (or_intror L)), NU. exact I.
  - rewrite (wp_greedy wp s ps L G). inversion G as [first E|first p rest id ps' Np V _ G' E]; subst; [cbn; left; auto|].
    inversion G' as [first E'|first p' rest' id' ps'' Np' V' _ G'' E']; subst.
    + right. exists id. rewrite app_nil_r. cbn [piece_tokens piece_key]. rewrite Z.add_0_l. auto.
    + cbn [piece_key] in V'. rewrite NC in V'. discriminate.
Qed.

(** ** Builders *)
Lemma nth_set h b x : (b < length h)%nat -> nth_cfg (firstn b h ++ x :: skipn (S b) h) b = x.
Proof. intros L. unfold nth_cfg. rewrite app_nth2 by (rewrite firstn_length; lia). rewrite firstn_length, Nat.min_l, Nat.sub_diag by lia. reflexivity. Qed.
Lemma set_len h b (x : tcfg) : (b < length h)%nat -> length (firstn b h ++ x :: skipn (S b) h) = length h.
Proof. intros L. rewrite app_length, firstn_length. cbn [length]. rewrite skipn_length. lia. Qed.
Lemma nth_set_other h b b' x : (b < length h)%nat -> b' <> b -> nth_cfg (firstn b h ++ x :: skipn (S b) h) b' = nth_cfg h b'.
Proof.
  intros L D. unfold nth_cfg. destruct (Nat.lt_ge_cases b' b) as [X|X].
  - rewrite app_nth1 by (rewrite firstn_length; lia). rewrite <- (firstn_skipn b h) at 2. rewrite app_nth1 by (rewrite firstn_length; lia). reflexivity.
  - rewrite app_nth2 by (rewrite firstn_length; lia). rewrite firstn_length, Nat.min_l by lia.
    replace (b' - b)%nat with (S (b' - S b)) by lia. cbn [nth]. rewrite <- (firstn_skipn (S b) h) at 2.
    rewrite app_nth2 by (rewrite firstn_length; lia). rewrite firstn_length, Nat.min_l by lia. reflexivity.
Qed.
Lemma chain_ok ops : forall h b, (b < length h)%nat ->
  snd (chain h b ops) = b /\ length (fst (chain h b ops)) = length h /\
  nth_cfg (fst (chain h b ops)) b = fold_left apply_set ops (nth_cfg h b) /\
  forall b', b' <> b -> nth_cfg (fst (chain h b ops)) b' = nth_cfg h b'.
Proof.
  induction ops as [|o ops IH]; intros h b L; cbn [chain fold_left]; [auto|].
  destruct (IH (firstn b h ++ apply_set (nth_cfg h b) o :: skipn (S b) h)%list b) as (A & B & C & D); [rewrite set_len; auto|].
  unfold wtb_set. rewrite A, B, C, set_len, nth_set by exact L. repeat (split; [reflexivity|]). intros b' N. rewrite D by exact N. now apply nth_set_other.
Qed.
Lemma apply_all ops : forall c, fold_left apply_set ops c =
  TCfg (last_set f_min (tc_min c) ops) (last_set f_size (tc_size c) ops) (last_set f_special (tc_special c) ops) (last_set f_limit (tc_limit c) ops)
       (last_set f_initial (tc_initial c) ops) (last_set f_prefix (tc_prefix c) ops) (last_set f_suffix (tc_suffix c) ops).
Proof.
  induction ops as [|o ops IH]; intros c; cbn [fold_left last_set]; [now destruct c|]. rewrite IH. destruct c, o; reflexivity.
Qed.
Lemma wpb_all ops : forall c, fold_left wpb_set ops c =
  WPB (last_set g_files (wb_files c) ops) (last_set g_vocab (wb_vocab c) ops) (last_set g_unk (wb_unk c) ops) (last_set g_prefix (wb_prefix c) ops) (last_set g_max (wb_max c) ops).
Proof.
  induction ops as [|o ops IH]; intros c; cbn [fold_left last_set]; [now destruct c|]. rewrite IH. destruct c, o; reflexivity.
Qed.
