(** Properties of BPE training (C47). *)
From Coq Require Import Permutation.
From Verif Require Import Base BaseProofs Utf8Model BpeModel DecoderModel DecoderSpec DecoderProofs TrainerModel TrainerSpec TrainerCountProofs TrainerProofs TrainTextProofs.
Open Scope Z_scope.

(** A queue for the examples: the first, or the last, entry with the highest count. *)
Definition highest (q : list tmerge) : Z := fold_right (fun e c => Z.max (tm_count e) c) (match q with e :: _ => tm_count e | [] => 0 end) q.
Fixpoint first_with (c : Z) (q : list tmerge) : nat :=
  match q with e :: q' => if tm_count e =? c then 0%nat else S (first_with c q') | [] => 0%nat end.
Definition ex_first (q : list tmerge) : nat := first_with (highest q) q.
Definition ex_last (q : list tmerge) : nat := (length q - 1 - first_with (highest q) (rev q))%nat.
Definition ex_cf := TCfg 0 30 [[60; 115; 62]%N] None [] None None.
Definition ex_wc : list (str * Z) :=
  [([112; 113]%N, 10); ([120; 112; 113; 98; 99]%N, 1); ([112; 113; 98; 99]%N, 1); ([121; 112; 113; 98]%N, 2); ([122; 112; 113; 98; 99]%N, 1)].
Definition no_addr (w i : nat) : str := [].

Lemma first_with_in c q : (exists e, In e q /\ tm_count e = c) ->
  exists m, nth_error q (first_with c q) = Some m /\ tm_count m = c.
Proof.
  induction q as [|x q IH]; intros [e [H1 H2]]; [destruct H1|]. cbn [first_with].
  destruct (Z.eqb_spec (tm_count x) c) as [E|E]; [exists x; auto|].
  destruct H1 as [->|H1]; [contradiction|]. apply IH. eauto.
Qed.
Lemma highest_spec q : q <> [] -> (exists e, In e q /\ tm_count e = highest q) /\ forall e, In e q -> tm_count e <= highest q.
Proof.
  destruct q as [|x q]; [congruence|]. intros _. unfold highest.
  assert (G : forall d l, (fold_right (fun e c => Z.max (tm_count e) c) d l = d \/
     exists e, In e l /\ tm_count e = fold_right (fun e c => Z.max (tm_count e) c) d l) /\
     d <= fold_right (fun e c => Z.max (tm_count e) c) d l /\
     forall e, In e l -> tm_count e <= fold_right (fun e c => Z.max (tm_count e) c) d l).
  { intros d. induction l as [|y l [I1 [I2 I3]]]; cbn [fold_right].
    - split; [now left|]. split; [lia|]. intros e [].
    - split; [|split; [lia|]].
      + destruct (Z.max_spec (tm_count y) (fold_right (fun e c => Z.max (tm_count e) c) d l)) as [[M1 M2]|[M1 M2]]; rewrite M2.
        * destruct I1 as [I1|[e [E1 E2]]]; [now left|]. right. exists e. split; [now right|exact E2].
        * right. exists y. split; [now left|reflexivity].
      + intros e [->|H]; [lia|]. specialize (I3 e H). lia. }
  destruct (G (tm_count x) (x :: q)) as [[E|E] [_ B]].
  - split; [|exact B]. exists x. split; [now left|]. symmetry. exact E.
  - split; [exact E|exact B].
Qed.
Example ex_first_highest : picks_highest ex_first.
Proof.
  intros q H. destruct (highest_spec q H) as [E B]. destruct (first_with_in _ _ E) as [m [M1 M2]].
  exists m. split; [exact M1|]. intros e He. rewrite M2. now apply B.
Qed.
Example ex_limit : limit_ok ex_cf.
Proof. intros l. discriminate. Qed.
Definition ex_trained : tables * list ((Z * Z) * Z) :=
  match train_bpe no_addr ex_first ex_cf [0%nat] ex_wc 100 with Ok r => r | _ => (([], []), []) end.
Example ex_runs : train_bpe no_addr ex_first ex_cf [0%nat] ex_wc 100 = Ok ex_trained /\
  length (snd ex_trained) = 8%nat /\ length (snd (fst ex_trained)) = 15%nat.
Proof. vm_compute. auto. Qed.

(** Training ends, and without a panic, whatever the word counts and settings (as long as
    the alphabet limit is not negative), and whichever entry the queue hands out among
    those with the highest count. *)
Theorem C47_terminates : forall addr pick cf arrival wc,
  limit_ok cf -> picks_highest pick ->
  exists fuel r, train_bpe addr pick cf arrival wc fuel = Ok r.
Proof. intros. now apply train_total. Qed.
Print Assumptions C47_terminates.

(** Ids are distinct: no two tokens have the same id. *)
Theorem C47_ids : forall addr pick cf arrival wc fuel r,
  limit_ok cf -> picks_highest pick -> train_bpe addr pick cf arrival wc fuel = Ok r ->
  forall s i, vget s (b_vocab (trained_model cf r)) = Some i ->
    0 <= i /\ forall s', vget s' (b_vocab (trained_model cf r)) = Some i -> s' = s.
Proof. intros addr pick cf arrival wc fuel [t news]. apply trained_ids. Qed.
Print Assumptions C47_ids.
Example C47_ids_meets : vget [112; 113; 98]%N (b_vocab (trained_model ex_cf ex_trained)) = Some 8.
Proof. reflexivity. Qed.

(** Merging does not take the vocabulary above the target size: it is at most the target, or
    as large as before merging (all entries made, less one per merge). *)
Theorem C47_size : forall addr pick cf arrival wc fuel t news,
  limit_ok cf -> picks_highest pick -> train_bpe addr pick cf arrival wc fuel = Ok (t, news) ->
  zlen (b_vocab (trained_model cf (t, news))) <= Z.max (tc_size cf) (zlen (snd t) - zlen news).
Proof. intros addr pick cf arrival wc fuel t news. apply trained_size. Qed.
Print Assumptions C47_size.
Example C47_size_meets : exists t news,
  train_bpe no_addr ex_first (TCfg 0 9 [] None [] None None) [0%nat] ex_wc 100 = Ok (t, news) /\
  zlen news = 2 /\ zlen (b_vocab (trained_model ex_cf (t, news))) = 9.
Proof. eexists _, _. vm_compute. auto. Qed.

(** Every merge of the model joins two entries made before, both of them tokens of the
    vocabulary; the joined text (the second part without the prefix) is a token as well, and
    the id given to the result is the number of its entry: ids are given in the order of the
    ranks, after the initial characters. *)
Theorem C47_merges : forall addr pick cf arrival wc fuel t news,
  limit_ok cf -> picks_highest pick -> train_bpe addr pick cf arrival wc fuel = Ok (t, news) ->
  let M := trained_model cf (t, news) in
  forall a b rank id, aget pair_eqb (a, b) (b_merges M) = Some (rank, id) ->
    exists sa sb sb', at_index (snd t) a sa /\ at_index (snd t) b sb /\ without_prefix (tc_prefix cf) sb sb' /\
      at_index (snd t) id (sa ++ sb') /\ a < id /\ b < id /\ id = zlen (snd t) - zlen news + rank /\
      (exists i, vget sa (b_vocab M) = Some i) /\ (exists j, vget sb (b_vocab M) = Some j) /\
      (exists k, vget (sa ++ sb')%list (b_vocab M) = Some k).
Proof. intros addr pick cf arrival wc fuel t news L P D. exact (trained_merges addr pick cf arrival wc fuel t news L P D). Qed.
Print Assumptions C47_merges.
Example C47_merges_meets : aget pair_eqb (7, 0) (b_merges (trained_model ex_cf ex_trained)) = Some (1, 8).
Proof. reflexivity. Qed.

(** If no text was made twice, the numbers of the entries are exactly the ids of the
    vocabulary, so every id in a merge has its token. *)
Theorem C47_usable_partial : forall addr pick cf arrival wc fuel t news,
  limit_ok cf -> picks_highest pick -> train_bpe addr pick cf arrival wc fuel = Ok (t, news) ->
  NoDup (snd t) ->
  forall i s, at_index (snd t) i s <-> vget s (b_vocab (trained_model cf (t, news))) = Some i.
Proof. intros addr pick cf arrival wc fuel t news. apply trained_usable. Qed.
Print Assumptions C47_usable_partial.
Example C47_usable_meets : exists t news,
  train_bpe no_addr ex_first ex_cf [0%nat] [([97; 98]%N, 3); ([98; 97; 98]%N, 2)] 100 = Ok (t, news) /\
  zlen news = 2 /\ NoDup (snd t).
Proof.
  eexists _, _. split; [vm_compute; reflexivity|]. split; [reflexivity|]. cbn.
  repeat constructor; cbn; intros H; repeat (destruct H as [H|H]; [discriminate|]); exact H.
Qed.

(** In general it is refuted: the same text can be made by two different merges.  Its first id
    then belongs to no token, while a merge still yields it: tokenizing a word of the corpus
    gives an id without a token.  This happens whichever of two equal entries the queue
    hands out first. *)
Theorem C47_orphan_refuted : forall pick, pick = ex_first \/ pick = ex_last ->
  exists t news a b rank id w tok,
    train_bpe no_addr pick ex_cf [0%nat] ex_wc 100 = Ok (t, news) /\
    aget pair_eqb (a, b) (b_merges (trained_model ex_cf (t, news))) = Some (rank, id) /\
    (forall s, vget s (b_vocab (trained_model ex_cf (t, news))) <> Some id) /\
    In w ex_wc /\ bpe_tokenize (trained_model ex_cf (t, news)) (fst w) = Ok [tok] /\ t_id tok = id /\ t_value tok = [].
Proof.
  intros pick [->| ->].
  - eexists _, _, 8, 1, 3, 10, ([112; 113; 98; 99]%N, 1), _. split; [vm_compute; reflexivity|].
    split; [reflexivity|]. split; [|split; [right; right; left; reflexivity|split; [vm_compute; reflexivity|split; reflexivity]]].
    intros s H. apply (ag_in str_eqb str_eqb_eq) in H. cbn in H. repeat (destruct H as [H|H]; [discriminate|]). exact H.
  - eexists _, _, 8, 1, 4, 11, ([112; 113; 98; 99]%N, 1), _. split; [vm_compute; reflexivity|].
    split; [reflexivity|]. split; [|split; [right; right; left; reflexivity|split; [vm_compute; reflexivity|split; reflexivity]]].
    intros s H. apply (ag_in str_eqb str_eqb_eq) in H. cbn in H. repeat (destruct H as [H|H]; [discriminate|]). exact H.
Qed.
Print Assumptions C47_orphan_refuted.

(** The special tokens are not in the trained vocabulary: a special token with a byte that
    occurs in no word and in no entry of the initial alphabet has no id. *)
Theorem C47_special_refuted : forall addr pick cf arrival wc fuel r,
  limit_ok cf -> picks_highest pick -> train_bpe addr pick cf arrival wc fuel = Ok r ->
  tc_prefix cf = None -> tc_suffix cf = None ->
  forall s b, In s (tc_special cf) -> In b s ->
    (forall w n, In (w, n) wc -> ~ In b w) -> (forall c, In c (tc_initial cf) -> ~ In b c) ->
    vget s (b_vocab (trained_model cf r)) = None.
Proof.
  intros addr pick cf arrival wc fuel [t news] L P D NP NS s b _ Hb W I.
  exact (trained_bytes addr pick cf arrival wc fuel t news L P D NP NS s b Hb W I).
Qed.
Print Assumptions C47_special_refuted.
Example C47_special_meets : In [60; 115; 62]%N (tc_special ex_cf) /\
  (forall w n, In (w, n) ex_wc -> ~ In 60%N w) /\ vget [60; 115; 62]%N (b_vocab (trained_model ex_cf ex_trained)) = None.
Proof.
  split; [now left|]. split; [|reflexivity]. intros w n H K. cbn in H.
  repeat (destruct H as [H|H]; [injection H as <- <-; repeat (destruct K as [K|K]; [discriminate|]); exact K|]). exact H.
Qed.

(** The initial characters: [cs] lists the characters of the words and the initial alphabet.
    Without a limit, or when there are no more than the limit, all of them are kept, in front
    of the entries made by merging. *)
Theorem C47_alphabet_partial : forall addr pick cf arrival wc fuel t news,
  limit_ok cf -> train_bpe addr pick cf arrival wc fuel = Ok (t, news) ->
  tc_prefix cf = None -> tc_suffix cf = None ->
  forall cs, NoDup cs -> (forall c, In c cs <-> initial_char cf wc c) ->
    (forall l, tc_limit cf = Some l -> zlen cs <= l) ->
    exists kept m, snd t = (kept ++ m)%list /\ zlen m = zlen news /\ NoDup kept /\ zlen kept = zlen cs /\
      (forall c, In c kept -> initial_char cf wc c).
Proof.
  intros addr pick cf arrival wc fuel t news L D NP NS cs ND C B.
  destruct (trained_alphabet addr pick cf arrival wc fuel t news L D NP NS cs ND C) as [kept [m [E1 [E2 [E3 [E4 E5]]]]]].
  exists kept, m. repeat (split; [assumption|]). split; [|exact E4].
  destruct (tc_limit cf) as [l|]; [|exact E5]. specialize (B l eq_refl). destruct (Z.ltb_spec l (zlen cs)); [lia|exact E5].
Qed.
Print Assumptions C47_alphabet_partial.

(** Refuted with a limit that is reached: it is the number of characters removed, not kept.
    With [n] characters and the limit [l] < [n], [n - l] are kept. *)
Theorem C47_limit_refuted : forall addr pick cf arrival wc fuel t news l,
  limit_ok cf -> train_bpe addr pick cf arrival wc fuel = Ok (t, news) ->
  tc_prefix cf = None -> tc_suffix cf = None -> tc_limit cf = Some l ->
  forall cs, NoDup cs -> (forall c, In c cs <-> initial_char cf wc c) -> l < zlen cs ->
    exists kept m, snd t = (kept ++ m)%list /\ zlen m = zlen news /\ NoDup kept /\ zlen kept = zlen cs - l /\
      (forall c, In c kept -> initial_char cf wc c).
Proof.
  intros addr pick cf arrival wc fuel t news l L D NP NS Hl cs ND C B.
  destruct (trained_alphabet addr pick cf arrival wc fuel t news L D NP NS cs ND C) as [kept [m [E1 [E2 [E3 [E4 E5]]]]]].
  exists kept, m. repeat (split; [assumption|]). split; [|exact E4].
  rewrite Hl in E5. destruct (Z.ltb_spec l (zlen cs)); [exact E5|lia].
Qed.
Print Assumptions C47_limit_refuted.
Example C47_limit_meets : exists r,
  train_bpe no_addr ex_first (TCfg 0 30 [] (Some 1) [] None None) [0%nat] [([97; 98; 99]%N, 3)] 100 = Ok r /\
  snd (fst r) = [[97]; [98]; [97; 98]]%N /\
  let cs := [[97]; [98]; [99]]%N in
  NoDup cs /\ 1 < zlen cs /\ forall c, In c cs <-> initial_char (TCfg 0 30 [] (Some 1) [] None None) [([97; 98; 99]%N, 3)] c.
Proof.
  eexists. split; [vm_compute; reflexivity|]. split; [reflexivity|]. cbv zeta.
  split; [repeat constructor; cbn; intros H; repeat (destruct H as [H|H]; [discriminate|]); exact H|].
  split; [reflexivity|]. intros c. rewrite <- (proj2 (alphabet_keys_spec _ _)). vm_compute. tauto.
Qed.

(** Without an alphabet limit every token of the vocabulary is an initial character or a run
    of consecutive characters of a word of the corpus. *)
Theorem C47_tokens_partial : forall addr pick cf arrival wc fuel r,
  picks_highest pick -> train_bpe addr pick cf arrival wc fuel = Ok r ->
  tc_prefix cf = None -> tc_suffix cf = None -> tc_limit cf = None ->
  forall s, vget s (b_vocab (trained_model cf r)) <> None ->
    initial_char cf wc s \/
    exists w n before run after, In (w, n) wc /\ characters w (before ++ run ++ after) /\ run <> [] /\ s = concat run.
Proof.
  intros addr pick cf arrival wc fuel [t news] P D NP NS NL s H.
  assert (L : limit_ok cf) by (intros l; rewrite NL; discriminate).
  apply (trained_entry addr pick cf arrival wc fuel t news s L P D) in H.
  destruct (train_text addr pick cf arrival wc (fun _ => True) NL) with (fuel := fuel) (t := t) (news := news) (x := s) as [_ T].
  - intros x _. now rewrite NP.
  - intros w n _. apply Forall_forall. auto.
  - intros c _. apply Forall_forall. auto.
  - intros a b. apply Forall_forall. auto.
  - exact D.
  - exact H.
  - destruct T as [T|(us & a & u & c & I & E & N & ->)]; [now left|]. right. apply all_units_in in I as (k & j & Hk & ->).
    rewrite (units_plain addr cf j _ NP NS) in E.
    pose proof (Permutation_in k (sort_strs_perm (map fst wc)) Hk) as Hw. apply in_map_iff in Hw as ([k' n] & <- & Hw). cbn [fst] in E.
    exists k', n, a, u, c. split; [exact Hw|]. split; [rewrite <- E; apply explode_characters|auto].
Qed.
Print Assumptions C47_tokens_partial.
Example C47_tokens_meets : vget [112; 113; 98]%N (b_vocab (trained_model ex_cf ex_trained)) = Some 8 /\
  In ([112; 113; 98; 99]%N, 1) ex_wc /\ characters [112; 113; 98; 99]%N ([] ++ [[112]; [113]; [98]] ++ [[99]])%N.
Proof.
  split; [reflexivity|]. split; [cbn; auto|]. exact (explode_characters [112; 113; 98; 99]%N).
Qed.

(** With a limit it is refuted: characters that are not kept are skipped, and the characters on
    both sides are joined.  Trained on "azb" alone with the limit 1, the vocabulary has "ab". *)
Theorem C47_tokens_refuted : exists cf wc r,
  train_bpe no_addr ex_first cf [0%nat] wc 100 = Ok r /\ wc = [([97; 122; 98]%N, 5)] /\
  vget [97; 98]%N (b_vocab (trained_model cf r)) <> None /\
  ~ initial_char cf wc [97; 98]%N /\
  forall w n before run after, In (w, n) wc -> characters w (before ++ run ++ after) -> [97; 98]%N <> concat run.
Proof.
  exists (TCfg 0 30 [] (Some 1) [] None None), [([97; 122; 98]%N, 5)]. eexists. split; [vm_compute; reflexivity|]. split; [reflexivity|].
  split; [vm_compute; discriminate|]. split.
  - intros H. apply (proj2 (alphabet_keys_spec _ _)) in H. vm_compute in H. intuition discriminate.
  - intros w n a u c [E|[]] C. injection E as <- <-. pose proof (characters_fun _ _ _ C (explode_characters _)) as X.
    change (explode [97; 122; 98]%N) with [[97]; [122]; [98]]%N in X. clear C. intros Y.
    assert (G : forall (u : list str), Forall (fun x => length x = 1%nat) u -> [97; 98]%N = concat u -> u = [[97]; [98]]%N).
    { intros v F E. destruct v as [|x [|y [|z v]]]; cbn in E; try discriminate; inversion F as [|? ? F1 F2]; subst; destruct x as [|? [|]]; try discriminate F1; cbn in E; try discriminate;
        inversion F2 as [|? ? F3 F4]; subst; destruct y as [|? [|]]; try discriminate F3; cbn in E; injection E; intros; subst; try reflexivity.
      inversion F4 as [|? ? F5 F6]; subst; destruct z; discriminate. }
    apply G in Y.
    + subst u. pose proof (f_equal (@length _) X) as Len. rewrite !app_length in Len. cbn [length] in Len.
      destruct a as [|x [|y a]]; cbn [app] in X; [congruence|congruence|cbn [length] in Len; lia].
    + assert (F : Forall (fun x : str => length x = 1%nat) [[97]; [122]; [98]]%N) by (repeat constructor). rewrite <- X in F.
      apply Forall_app in F as [_ F]. now apply Forall_app in F as [F _].
Qed.
Print Assumptions C47_tokens_refuted.
