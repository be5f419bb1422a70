(** C68: WordPiece training.  C69: the builders of WordPiece trainers and models. *)
From Coq Require Import Permutation.
From Verif Require Import Base BaseProofs EncodingProofs Utf8Model Utf8Proofs BpeModel DecoderModel DecoderSpec DecoderProofs WordPieceModel WordPieceSpec WordPieceProofs
  TrainerModel TrainerSpec TrainerProofs TrainTextProofs WordPieceTrainModel WordPieceTrainSpec WordPieceTrainProofs PropTrainer.
Open Scope Z_scope.

(** Addresses for the examples: "0xc00", "0xc01", ... *)
Definition wt_addr (w i : nat) : str := [48; 120; 99; 48; 48 + N.of_nat (w mod 8)]%N.
Definition wt_cf : tcfg := TCfg 0 30000 [unk_text] None [] (Some hashes) None.
(** "the" 5, "that" 3, "cat" 2. *)
Definition wt_wc : list (str * Z) := [([116; 104; 101]%N, 5); ([116; 104; 97; 116]%N, 3); ([99; 97; 116]%N, 2)].
Definition wt_model : wordpiece :=
  match wp_train wt_addr ex_first wt_cf [0%nat] wt_wc 100 (fun v => v) with Ok m => m | _ => WP [] [] [] [] 0 end.
Example wt_runs : wp_train wt_addr ex_first wt_cf [0%nat] wt_wc 100 (fun v => v) = Ok wt_model /\ zlen (wp_vocab wt_model) = 12.
Proof. vm_compute. auto. Qed.
Lemma hex_not x ds : Forall (fun c => 48 <= c <= 57 \/ 97 <= c <= 102)%N ds -> (x < 48 \/ 57 < x < 97 \/ 102 < x)%N -> ~ In x ds.
Proof. intros F X I. rewrite Forall_forall in F. specialize (F x I). cbn in F. lia. Qed.
Lemma wt_is_address w i : is_address (wt_addr w i).
Proof.
  exists [99; 48; 48 + N.of_nat (w mod 8)]%N. split; [reflexivity|]. pose proof (Nat.mod_upper_bound w 8). repeat constructor; lia.
Qed.
Lemma wt_foreign b : (b < 97 \/ 116 < b)%N -> foreign b wt_cf wt_wc.
Proof.
  intros B. split; [|intros c []]. intros w n H I. cbn in H.
  repeat (destruct H as [H|H]; [injection H as <- <-; cbn in I; lia|]). exact H.
Qed.

(** Training ends, the model knows the tokens of the trained BPE vocabulary under their ids,
    and its other settings are the prefix it was trained with and the defaults. *)
Theorem C68_model : forall addr pick cf arrival wc order, tc_limit cf = None -> picks_highest pick ->
  (forall v, Permutation (order v) v) ->
  (exists fuel m, wp_train addr pick cf arrival wc fuel order = Ok m) /\
  (forall fuel m, wp_train addr pick cf arrival wc fuel order = Ok m ->
    exists r, train_bpe addr pick cf arrival wc fuel = Ok r /\
      (forall s, wp_token_to_id m s = vget s (b_vocab (trained_model cf r))) /\
      (forall s i, wp_token_to_id m s = Some i <-> wp_id_to_token m i = Some s) /\
      wp_unk m = unk_text /\ wp_max m = 100 /\ wp_prefix m = match tc_prefix cf with Some p => p | None => hashes end).
Proof.
  intros addr pick cf arrival wc order NL P O.
  assert (L : limit_ok cf) by (intros l; rewrite NL; discriminate). split.
  - destruct (C47_terminates addr pick cf arrival wc L P) as (fuel & r & H). exists fuel. unfold wp_train. rewrite H. cbn. eauto.
  - intros fuel m H. unfold wp_train in H. apply bind_Ok_inv in H as ([t news] & D & H). injection H as <-. exists (t, news). split; [exact D|].
    split; [reflexivity|]. destruct (trained_vocab_nodup addr pick cf arrival wc NL P fuel t news D) as [N1 N2].
    split; [|split; [reflexivity|split; reflexivity]]. intros s i. apply lookup_inverse; auto.
Qed.
Print Assumptions C68_model.
Example C68_model_meets : wp_token_to_id wt_model [104; 97; 116]%N = None /\ wp_token_to_id wt_model [97; 116]%N = Some 8 /\ wp_id_to_token wt_model 8 = Some [97; 116]%N.
Proof. vm_compute. auto. Qed.

(** The unknown token is not in the vocabulary, even if it was given as a special token. *)
Theorem C68_unknown_refuted : forall addr pick cf arrival wc fuel order m, tc_limit cf = None -> picks_highest pick ->
  tc_prefix cf = Some hashes -> (forall w i, is_address (addr w i)) -> foreign 35 cf wc -> foreign 91 cf wc ->
  wp_train addr pick cf arrival wc fuel order = Ok m -> wp_token_to_id m (wp_unk m) = None.
Proof.
  intros addr pick cf arrival wc fuel order m NL P Pre A F35 F91 H. unfold wp_train in H. apply bind_Ok_inv in H as ([t news] & D & H). injection H as <-.
  apply (trained_foreign addr pick cf arrival wc NL P fuel t news hashes 35 91); auto; [now left| | |now left].
  - intros w i I. destruct (A w i) as (ds & E & F). rewrite E in I. destruct I as [I|[I|I]]; [lia|lia|]. revert I. apply (hex_not 35 ds F). lia.
  - intros w i I. destruct (A w i) as (ds & E & F). rewrite E in I. destruct I as [I|[I|I]]; [lia|lia|]. revert I. apply (hex_not 91 ds F). lia.
Qed.
Print Assumptions C68_unknown_refuted.
Example C68_unknown_meets : picks_highest ex_first /\ (forall w i, is_address (wt_addr w i)) /\ foreign 35 wt_cf wt_wc /\ foreign 91 wt_cf wt_wc /\
  In (wp_unk wt_model) (tc_special wt_cf) /\ wp_token_to_id wt_model (wp_unk wt_model) = None.
Proof.
  split; [exact ex_first_highest|]. split; [exact wt_is_address|]. split; [apply wt_foreign; lia|]. split; [apply wt_foreign; lia|].
  split; [now left|reflexivity].
Qed.

(** No word is ever split: the vocabulary has no continuing pieces ("##..."), so the result is
    the whole word as one token, or an error. *)
Theorem C68_split_refuted : forall addr pick cf arrival wc fuel order m, tc_limit cf = None -> picks_highest pick ->
  tc_prefix cf = Some hashes -> (forall w i, is_address (addr w i)) -> foreign 35 cf wc -> foreign 91 cf wc ->
  wp_train addr pick cf arrival wc fuel order = Ok m ->
  (forall x, wp_token_to_id m (hashes ++ x) = None) /\
  (forall s toks, wp_tokenize m s = Ok toks -> runes s <> [] -> exists id, toks = [Tok id (encode (runes s)) (0, zlen (runes s))]) /\
  (forall s, runes s <> [] -> wp_token_to_id m (encode (runes s)) = None -> wp_tokenize m s = Err).
Proof.
  intros addr pick cf arrival wc fuel order m NL P Pre A F35 F91 H.
  pose proof (C68_unknown_refuted addr pick cf arrival wc fuel order m NL P Pre A F35 F91 H) as U.
  assert (NC : forall x, wp_token_to_id m (hashes ++ x) = None /\ wp_prefix m = hashes).
  { intros x. unfold wp_train in H. apply bind_Ok_inv in H as ([t news] & D & H). injection H as <-. split.
    - apply (trained_foreign addr pick cf arrival wc NL P fuel t news hashes 35 35); auto; try (now left);
      intros w i I; destruct (A w i) as (ds & E & F); rewrite E in I; destruct I as [I|[I|I]]; try lia; revert I; apply (hex_not 35 ds F); lia.
    - unfold wp_from_bpe, wp_build, trained_model. cbn [wp_prefix b_prefix]. now rewrite Pre. }
  assert (W : forall s, _) by (intros s; apply (wp_whole m s); [intros x; rewrite (proj2 (NC [])); apply NC|exact U]).
  split; [apply NC|]. split.
  - intros s toks T R. specialize (W s). rewrite T in W. destruct W as [[_ W]|(id & W & _)]; [contradiction|eauto].
  - intros s R V. specialize (W s). destruct (wp_tokenize m s) as [toks| | | |]; try contradiction; [|reflexivity].
    destruct W as [[_ W]|(id & _ & W)]; [contradiction|]. unfold wp_token_to_id in V. congruence.
Qed.
Print Assumptions C68_split_refuted.
Example C68_split_meets : wp_tokenize wt_model [97; 116]%N = Ok [Tok 8 [97; 116]%N (0, 2)] /\ wp_tokenize wt_model [116; 104; 101; 97; 116]%N = Err.
Proof. split; reflexivity. Qed.

(** Even the words of the corpus are lost: the address stands in front of their first
    character.  A word of the corpus can only be tokenized if it is a single character or also
    occurs in some word of the corpus after the first character. *)
Theorem C68_corpus_refuted : forall addr pick cf arrival wc fuel order m, tc_limit cf = None -> picks_highest pick ->
  tc_prefix cf = Some hashes -> tc_suffix cf = None -> (forall w i, is_address (addr w i)) ->
  foreign 35 cf wc -> foreign 91 cf wc -> foreign 120 cf wc ->
  wp_train addr pick cf arrival wc fuel order = Ok m ->
  forall w n rs, In (w, n) wc -> w = encode rs -> Forall scalar rs -> rs <> [] ->
    ~ initial_char cf wc w -> (forall w' n', In (w', n') wc -> ~ later_in w' w) ->
    wp_tokenize m w = Err.
Proof.
  intros addr pick cf arrival wc fuel order m NL P Pre Suf A F35 F91 F120 H w n rs Iw E S N NI NLa.
  destruct (C68_split_refuted addr pick cf arrival wc fuel order m NL P Pre A F35 F91 H) as (_ & _ & W).
  assert (R : runes w = rs) by (rewrite E; now apply runes_encode).
  apply W; rewrite R; [exact N|]. rewrite <- E. unfold wp_train in H. apply bind_Ok_inv in H as ([t news] & D & H). injection H as <-.
  destruct (wp_token_to_id _ w) as [i|] eqn:V; [|reflexivity]. exfalso.
  destruct (trained_later addr pick cf arrival wc NL P fuel t news hashes 35 120 Pre Suf) with (s := w) as [X|(w' & n' & X & Y)]; auto.
  - now left.
  - intros a j I. destruct (A a j) as (ds & Ea & F). rewrite Ea in I. destruct I as [I|[I|I]]; try lia. revert I. apply (hex_not 35 ds F). lia.
  - intros a j. destruct (A a j) as (ds & Ea & F). rewrite Ea. right. now left.
  - unfold wp_token_to_id in V. cbn [wp_from_bpe wp_build wp_vocab] in V. congruence.
  - exact (proj1 F120 w n Iw).
  - exact (NLa w' n' X Y).
Qed.
Print Assumptions C68_corpus_refuted.
(** All three words of the example corpus are lost. *)
Example C68_corpus_meets : foreign 120 wt_cf wt_wc /\ forall w n, In (w, n) wt_wc -> wp_tokenize wt_model w = Err.
Proof. split; [apply wt_foreign; lia|]. intros w n H. cbn in H. repeat (destruct H as [H|H]; [injection H as <- <-; vm_compute; reflexivity|]). destruct H. Qed.

Example C68_corpus_hypotheses : let w := [116; 104; 101]%N in
  In (w, 5) wt_wc /\ w = encode [116; 104; 101]%N /\ ~ initial_char wt_cf wt_wc w /\ forall w' n', In (w', n') wt_wc -> ~ later_in w' w.
Proof.
  cbv zeta. split; [now left|]. split; [reflexivity|]. split.
  - intros H. apply (proj2 (alphabet_keys_spec _ _)) in H. vm_compute in H. intuition discriminate.
  - intros w' n' I (c & a & u & d & C & E). pose proof (characters_fun _ _ _ C (explode_characters w')) as X. apply (f_equal (fun l => concat (tl l))) in X. cbn [tl] in X.
    rewrite !concat_app, <- E in X. pose proof (f_equal (@length N) X) as L. rewrite !app_length in L. cbn in I.
    destruct I as [I|[I|[I|[]]]]; injection I as <- <-; cbn in X, L; try lia.
    destruct (concat a); [|cbn in L; lia]. cbn in X. discriminate.
Qed.

(** * C69 *)
(** A builder made by NewWordPieceTrainerBuilder and any settings: the trainer has the last
    value given to each field, or the default ("##" for the prefix); other builders made
    before are not affected. *)
Theorem C69_trainer : forall h ops,
  let '(h1, b) := wtb_new h in
  let '(h2, b2) := chain h1 b ops in
  wtb_build h2 b2 = TCfg (last_set f_min 0 ops) (last_set f_size 30000 ops) (last_set f_special [] ops) (last_set f_limit None ops)
    (last_set f_initial [] ops) (last_set f_prefix (Some hashes) ops) (last_set f_suffix None ops) /\
  forall b', (b' < length h)%nat -> wtb_build h2 b' = wtb_build h b'.
Proof.
  intros h ops. unfold wtb_new, wtb_set. set (h1 := (firstn _ _ ++ _)%list).
  assert (L0 : (length h < length (h ++ [default_tcfg]))%nat) by (rewrite app_length; cbn; lia).
  assert (L : (length h < length h1)%nat) by (unfold h1; rewrite set_len; exact L0).
  destruct (chain_ok ops h1 (length h) L) as (A & B & C & D). destruct (chain h1 (length h) ops) as [h2 b2]. cbn [fst snd] in *. subst b2.
  unfold wtb_build. split.
  - rewrite C, apply_all. unfold h1. rewrite nth_set by exact L0. unfold nth_cfg at 1 2 3 4 5 6 7. rewrite app_nth2, Nat.sub_diag by lia. reflexivity.
  - intros b' Lb. rewrite D by lia. unfold h1. rewrite nth_set_other by (exact L0 || lia). unfold nth_cfg. now apply app_nth1.
Qed.
Print Assumptions C69_trainer.
Example C69_trainer_meets : let '(h1, b) := wtb_new [default_tcfg] in let '(h2, b2) := chain h1 b [SetMin 2; SetSize 100; SetMin 5] in
  wtb_build h2 b2 = TCfg 5 100 [] None [] (Some hashes) None.
Proof. reflexivity. Qed.

(** The setters return a builder, but it is the same builder: what is set on the result is set
    on the receiver too, so two trainers derived from one builder get each other's settings. *)
Theorem C69_shared_refuted : forall h b, (b < length h)%nat -> forall o1 o2,
  let '(h1, b1) := wtb_set h b o1 in
  let '(h2, b2) := wtb_set h1 b o2 in
  wtb_build h2 b1 = wtb_build h2 b2 /\ wtb_build h2 b = apply_set (apply_set (wtb_build h b) o1) o2.
Proof.
  intros h b L o1 o2. cbn [wtb_set]. split; [reflexivity|]. unfold wtb_build. rewrite nth_set by (rewrite set_len; exact L). now rewrite nth_set.
Qed.
Print Assumptions C69_shared_refuted.
(** Small and large trainers from one base: both are large. *)
Example C69_shared_meets : let '(h, base) := wtb_new [] in
  let '(h1, small) := wtb_set h base (SetSize 100) in let '(h2, large) := wtb_set h1 base (SetSize 50000) in
  tc_size (wtb_build h2 small) = 50000 /\ tc_size (wtb_build h2 large) = 50000 /\ tc_size (wtb_build h2 base) = 50000.
Proof. repeat split. Qed.

Example C69_bpe_trainer : forall minFreq size, new_bpe_trainer minFreq size = TCfg minFreq size [] None [] None None.
Proof. reflexivity. Qed.

(** The model builder: each field has its last value, or the default; the vocabulary is the
    one given, unless a file was named. *)
Theorem C69_builder_partial : forall read order ops, (forall v, Permutation (order v) v) ->
  let c := fold_left wpb_set ops wpb_new in
  (last_set g_files [] ops = [] -> exists m, wpb_build read order c = Ok m /\
     wp_vocab m = last_set g_vocab [] ops /\ wp_unk m = last_set g_unk unk_text ops /\
     wp_prefix m = last_set g_prefix hashes ops /\ wp_max m = last_set g_max 100 ops /\
     (NoDup (map fst (wp_vocab m)) -> NoDup (map snd (wp_vocab m)) -> forall s i, wp_token_to_id m s = Some i <-> wp_id_to_token m i = Some s)) /\
  (last_set g_files [] ops <> [] -> read (last_set g_files [] ops) = None -> wpb_build read order c = Fatal).
Proof.
  intros read order ops O c. unfold c. rewrite wpb_all. unfold wpb_build. cbn [wb_files wb_vocab wb_unk wb_prefix wb_max wpb_new]. split.
  - intros ->. cbn [bind]. eexists. split; [reflexivity|]. cbn [wp_build wp_vocab wp_unk wp_prefix wp_max]. repeat (split; [reflexivity|]).
    intros N1 N2 s i. apply lookup_inverse; auto.
  - intros N R. destruct (last_set g_files [] ops); [contradiction|]. now rewrite R.
Qed.
Print Assumptions C69_builder_partial.
Example C69_builder_meets : exists m, wpb_build (fun _ => None) (fun v => v) (fold_left wpb_set [WUnk [63]%N; WVocab [([97]%N, 0); ([63]%N, 1)]; WMax 5] wpb_new) = Ok m /\
  wp_tokenize m [98]%N = Ok [Tok 1 [63]%N (0, 1)] /\ wp_prefix m = hashes.
Proof. eexists. repeat split. Qed.

(** A vocabulary set after the file has been named is ignored. *)
Theorem C69_files_refuted : forall read order ops v m, last_set g_files [] ops <> [] ->
  wpb_build read order (fold_left wpb_set (ops ++ [WVocab v]) wpb_new) = Ok m ->
  exists content, read (last_set g_files [] ops) = Some content /\ load_vocab content = Ok (wp_vocab m).
Proof.
  intros read order ops v m N H. rewrite fold_left_app in H. cbn [fold_left] in H. rewrite wpb_all in H. unfold wpb_build, wpb_set in H.
  cbn [wb_files wb_vocab wb_unk wb_prefix wb_max wpb_new] in H. destruct (last_set g_files [] ops) as [|f0 f]; [contradiction|].
  destruct (read (f0 :: f)) as [content|]; [|discriminate]. exists content. split; [reflexivity|]. destruct (load_vocab content) as [w| | | |]; try discriminate.
  cbn in H. injection H as <-. reflexivity.
Qed.
Print Assumptions C69_files_refuted.
Example C69_files_meets : exists m, wpb_build (fun _ => Some [97; 10; 98; 10]%N) (fun v => v) (fold_left wpb_set ([WFiles [102]%N] ++ [WVocab [([99]%N, 7)]]) wpb_new) = Ok m /\
  wp_token_to_id m [99]%N = None /\ wp_token_to_id m [98]%N = Some 1.
Proof. eexists. repeat split. Qed.
