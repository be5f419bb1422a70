(** Proofs that the tokens of assembled tokenizers are named by their ids (C80). *)
From Coq Require Import QArith.
From Verif Require Import Base BaseProofs SliceModel EncodingModel EncodingProofs BpeModel Utf8Model NormalizedModel NormalizedProofs NormalizedSpec AddedVocabModel AddedVocabSpec AddedVocabProofs AddedPatternModel AddedPatternSpec AddedPatternProofs
  WordPieceModel UnigramModel UnigramProofs DecoderModel PreTokenizedModel ProcessorModel PipelineModel PreTokenizerModel PretrainedModel ConfigModel LoadedModel SpmModel BertNormModel UnicodeNormModel NamesSpec NamesProofs.
Open Scope Z_scope.
Open Scope list_scope.

(** ** BPE *)
Lemma lookup_in t a b r n : lookup_merge t a b = Some (r, n) -> exists k, In (k, (r, n)) t.
Proof.
  unfold lookup_merge. intros H. exists (a, b). induction t as [|[k v] t IH]; cbn [aget] in H; [discriminate H|]. destruct (pair_eqb (a, b) k) eqn:E; [|right; now apply IH].
  injection H as ->. left. f_equal. destruct k as [x y]. unfold pair_eqb in E. cbn [fst snd] in E. apply andb_true_iff in E as [E1 E2]. apply Z.eqb_eq in E1, E2. congruence.
Qed.
Section Bpe.
  Variable P : Z -> Prop.
  Definition all_ids (w : list sym) : Prop := Forall (fun s => P (s_c s)) w.
  Lemma upd_ids w i x : all_ids w -> P (s_c x) -> all_ids (upd w i x).
  Proof. intros W X. revert i. induction W as [|y w Hy W IH]; intros [|i]; cbn [upd]; constructor; auto. apply IH. Qed.
  Lemma zupd_ids w i x w' : all_ids w -> P (s_c x) -> zupd w i x = Ok w' -> all_ids w'.
  Proof. intros W X. unfold zupd. destruct (_ && _)%bool; [|discriminate]. intros H. injection H as <-. now apply upd_ids. Qed.
  Lemma zindex_ids w i x : all_ids w -> zindex w i = Ok x -> P (s_c x).
  Proof. intros W H. apply zindex_In in H. unfold all_ids in W. rewrite Forall_forall in W. now apply W. Qed.

  Variable t : merge_table.
  Hypothesis T : forall k r n, In (k, (r, n)) t -> P n.
  Lemma top_ids w q top w' q' : all_ids w -> process_top t w q top = Ok (w', q') -> all_ids w'.
  Proof.
    intros W H. unfold process_top in H. apply bind_Ok_inv in H as (cur & Hc & H). destruct (0 <? s_len cur); [|injection H as <- _; exact W].
    destruct (s_next cur =? -1); [injection H as <- _; exact W|]. apply bind_Ok_inv in H as (rgt & Hr & H). destruct (lookup_merge t (s_c cur) (s_c rgt)) as [[r n]|] eqn:E; [|injection H as <- _; exact W].
    destruct (n =? m_new top) eqn:En; [|injection H as <- _; exact W]. apply Z.eqb_eq in En. apply lookup_in in E as (k & E). apply T in E. rewrite En in E.
    apply bind_Ok_inv in H as (w1 & H1 & H). assert (W1 : all_ids w1) by (refine (zupd_ids _ _ _ _ W _ H1); exact E). apply bind_Ok_inv in H as (w2 & H2 & H).
    assert (W2 : all_ids w2) by (refine (zupd_ids _ _ _ _ W1 _ H2); exact (zindex_ids _ _ _ W Hr)). apply bind_Ok_inv in H as (w3 & H3 & H).
    assert (W3 : all_ids w3).
    { destruct (_ && _)%bool; [|injection H3 as <-; exact W2]. apply bind_Ok_inv in H3 as (nn & Hn & H3). refine (zupd_ids _ _ _ _ W2 _ H3). exact (zindex_ids _ _ _ W2 Hn). }
    apply bind_Ok_inv in H as (q1 & _ & H). apply bind_Ok_inv in H as (q2 & _ & H). injection H as <- _. exact W3.
  Qed.
  Lemma loop_ids drop fuel : forall k w q skip w', all_ids w -> merge_loop t drop fuel k w q skip = Ok w' -> all_ids w'.
  Proof.
    induction fuel as [|fuel IH]; intros k w q skip w' W H; cbn [merge_loop] in H; [discriminate H|]. destruct (qpop q) as [[top q1]|]; [|injection H as <-; exact W].
    destruct (drop k); [exact (IH _ _ _ _ _ W H)|]. apply bind_Ok_inv in H as ([w1 q2] & H1 & H). exact (IH _ _ _ _ _ (top_ids _ _ _ _ _ W H1) H).
  Qed.
  Lemma all_merged drop fuel w w' : all_ids w -> merge_all t drop fuel w = Ok w' -> all_ids w'.
  Proof.
    intros W H. apply bind_Ok_inv in H as (w1 & H1 & H). injection H as <-. pose proof (loop_ids _ _ _ _ _ _ _ W H1) as W1. unfold remove_symbols, all_ids in *.
    rewrite Forall_forall in *. intros x Hx. apply filter_In in Hx as [Hx _]. now apply W1.
  Qed.
End Bpe.

Lemma add_ids (P : Z -> Prop) w c n : all_ids P w -> P c -> all_ids P (word_add w c n).
Proof.
  intros W C. unfold word_add. destruct w as [|x w]; [constructor; [exact C|constructor]|]. unfold all_ids. apply Forall_app. split; [|constructor; [exact C|constructor]].
  apply Forall_map. apply Forall_forall. intros [i s] I. apply in_combine_r in I. unfold all_ids in W. rewrite Forall_forall in W. specialize (W _ I).
  destruct (Nat.eqb i 0); [exact W|]. destruct (Nat.eqb i _); exact W.
Qed.
Lemma init_ids (P : Z -> Prop) b s w : (forall k i, vget k (b_vocab b) = Some i -> P i) -> if_set (fun u => exists i, vget u (b_vocab b) = Some i) (b_unk b) -> init_word b s = Ok w -> all_ids P w.
Proof.
  intros V U. unfold init_word. generalize (length (runes s)) at 1 as n. intros n. generalize (combine (seq 0 (length (runes s))) (runes s)) as l. intros l.
  assert (K : forall w0, all_ids P w0 -> foldR (fun w (p : nat * N) => let '(i, r) := p in match char_id b (char_key b n i r) with Some id => Ok (word_add w id (zlen (encode_rune r))) | None => Panic end) l w0 = Ok w -> all_ids P w).
  { induction l as [|[i r] l IH]; intros w0 W0 H; cbn [foldR] in H; [injection H as <-; exact W0|]. apply bind_Ok_inv in H as (w1 & H1 & H). refine (IH w1 _ H).
    destruct (char_id b (char_key b n i r)) as [id|] eqn:E; [|discriminate H1]. injection H1 as <-. apply add_ids; [exact W0|]. unfold char_id in E.
    destruct (vget _ (b_vocab b)) eqn:Ev; [injection E as <-; exact (V _ _ Ev)|]. destruct (b_unk b) as [u|]; [|discriminate E]. destruct (U u eq_refl) as (j & Ej). rewrite Ej in E. injection E as <-. exact (V _ _ Ej). }
  apply K. constructor.
Qed.
Lemma bpe_named (R : Z -> str -> Prop) b : two_way (b_vocab b) (b_vocab_r b) -> (forall k rank new, In (k, (rank, new)) (b_merges b) -> exists s, vget s (b_vocab b) = Some new) ->
  if_set (fun u => exists i, vget u (b_vocab b) = Some i) (b_unk b) -> (forall s i, vget s (b_vocab b) = Some i -> R i s) ->
  forall s toks, bpe_tokenize b s = Ok toks -> Forall (fun t => R (t_id t) (t_value t)) toks.
Proof.
  intros [_ Inv] M U K s toks H. unfold bpe_tokenize in H. destruct (Nat.eqb (length s) 0); [injection H as <-; constructor|].
  apply bind_Ok_inv in H as (w & H & E). injection E as <-. apply bind_Ok_inv in H as (w0 & H0 & H).
  set (P := fun i => exists s, vget s (b_vocab b) = Some i).
  assert (W0 : all_ids P w0) by (apply (init_ids P b s w0); [intros k i E; exists k; exact E|exact U|exact H0]).
  pose proof (all_merged P (b_merges b) M _ _ _ _ W0 H) as W. unfold word_to_tokens. apply Forall_map. apply Forall_forall. intros [i o] I. apply in_combine_l in I. cbn [t_id t_value fst].
  unfold get_chars in I. apply in_map_iff in I as (x & <- & I). unfold all_ids in W. rewrite Forall_forall in W. destruct (W _ I) as (v & Ev). rewrite (proj1 (Inv _ _) Ev). exact (K _ _ Ev).
Qed.

(** ** WordPiece, WordLevel, Unigram *)
Lemma longest_known wp chars start len id v n : wp_longest wp chars start len = Some (id, v, n) -> vget v (wp_vocab wp) = Some id.
Proof. induction len as [|len IH]; cbn [wp_longest]; [discriminate|]. destruct (vget (wp_key wp chars start (S len)) (wp_vocab wp)) eqn:E; [intros H; injection H as <- <- _; exact E|exact IH]. Qed.
Lemma wp_named (R : Z -> str -> Prop) wp : (forall s i, vget s (wp_vocab wp) = Some i -> R i s) -> forall s toks, wp_tokenize wp s = Ok toks -> Forall (fun t => R (t_id t) (t_value t)) toks.
Proof.
  intros K s toks H. unfold wp_tokenize in H.
  assert (Un : forall n, wp_unknown wp n = Ok toks -> Forall (fun t => R (t_id t) (t_value t)) toks).
  { intros n E. unfold wp_unknown in E. destruct (vget _ (wp_vocab wp)) eqn:Ev; [|discriminate E]. injection E as <-. constructor; [exact (K _ _ Ev)|constructor]. }
  destruct (_ <? _); [exact (Un _ H)|]. apply bind_Ok_inv in H as (r & Hr & H). destruct r as [l|]; [|exact (Un _ H)]. injection H as ->. clear Un.
  revert Hr. generalize (runes s) as chars. intros chars. generalize (length chars) at 1 as fuel. intros fuel. generalize 0%nat as start.
  assert (N : Forall (fun t => R (t_id t) (t_value t)) []) by constructor. revert N. generalize (@nil token) as acc. induction fuel as [|fuel IH]; intros acc N start H; cbn [wp_loop] in H.
  - destruct (Nat.ltb _ _); [discriminate H|]. injection H as <-. exact N.
  - destruct (Nat.ltb _ _); [|injection H as <-; exact N]. destruct (wp_longest wp chars start _) as [[[id v] n]|] eqn:E; [|discriminate H]. refine (IH _ _ _ H).
    apply Forall_app. split; [exact N|]. constructor; [exact (K _ _ (longest_known _ _ _ _ _ _ _ E))|constructor].
Qed.
Lemma wl_named (R : Z -> str -> Prop) wl : (forall s i, vget s (wl_vocab wl) = Some i -> R i s) -> (forall s i, vget (wl_unk wl) (wl_vocab wl) = Some i -> vget s (wl_vocab wl) = None -> R i s) ->
  forall s toks, wl_tokenize wl s = Ok toks -> Forall (fun t => R (t_id t) (t_value t)) toks.
Proof.
  intros K U s toks H. unfold wl_tokenize in H. destruct (vget s (wl_vocab wl)) eqn:E; [injection H as <-; constructor; [exact (K _ _ E)|constructor]|].
  destruct (vget (wl_unk wl) _) eqn:Eu; [|discriminate H]. injection H as <-. constructor; [exact (U _ _ eq_refl E)|constructor].
Qed.

(** ** Added tokens *)
Section Added.
  Variable m : base_model.
  Variable pattern : added_token -> option str.
  Variable compiles : str -> bool.
  Variable Q : added_token -> Prop.
  Definition from_calls (av : added_vocab) : Prop := Forall (fun t => at_content t <> [] /\ Q t) (av_special av ++ av_added av).
  Lemma refresh_kept av av' : refresh m pattern compiles av = Ok av' -> av_special av' = av_special av /\ av_added av' = av_added av.
  Proof.
    intros H. unfold refresh in H. apply bind_Ok_inv in H as (l & _ & H). destruct (forallb _ _); [|discriminate H]. injection H as <-. auto.
  Qed.
  Lemma content_nonempty (t : added_token) : Nat.eqb (length (at_content t)) 0 = false -> at_content t <> [].
  Proof. intros E X. rewrite X in E. discriminate E. Qed.
  Lemma one_kept av n t : from_calls av -> Q t -> from_calls (fst (add_one m (av, n) t)).
  Proof.
    intros F K. unfold add_one. destruct (Nat.eqb _ 0) eqn:E; [exact F|]. destruct (av_token_to_id m av _); [exact F|]. unfold from_calls in *. cbn [fst av_special av_added].
    destruct (is_special av _); [exact F|]. rewrite app_assoc. apply Forall_app. split; [exact F|]. constructor; [split; [exact (content_nonempty t E)|exact K]|constructor].
  Qed.
  Lemma ones_kept ts : Forall Q ts -> forall st, from_calls (fst st) -> from_calls (fst (fold_left (add_one m) ts st)).
  Proof. induction 1 as [|t ts K F IH]; intros [av n] G; cbn [fold_left]; [exact G|]. apply IH. now apply one_kept. Qed.
  Lemma tokens_kept ts av av' n : Forall Q ts -> from_calls av -> add_tokens m pattern compiles ts av = Ok (av', n) -> from_calls av'.
  Proof.
    intros F G H. unfold add_tokens in H. destruct (fold_left (add_one m) ts (av, 0)) as [av1 ig] eqn:E. apply bind_Ok_inv in H as (av2 & H2 & H). injection H as <- _.
    destruct (refresh_kept _ _ H2) as [E1 E2]. unfold from_calls. rewrite E1, E2. pose proof (ones_kept ts F (av, 0) G) as K. rewrite E in K. exact K.
  Qed.
  Lemma notes_kept ts : Forall Q ts -> forall av, from_calls av -> from_calls (fold_left note_special ts av).
  Proof.
    induction 1 as [|t ts K F IH]; intros av G; cbn [fold_left]; [exact G|]. apply IH. unfold note_special. destruct (Nat.eqb _ 0) eqn:E; [exact G|]. destruct (is_special av _); [exact G|].
    cbn [negb andb]. unfold from_calls in *. cbn [av_special av_added]. apply Forall_app in G as [G1 G2]. apply Forall_app. split; [|exact G2]. apply Forall_app. split; [exact G1|].
    constructor; [split; [exact (content_nonempty t E)|exact K]|constructor].
  Qed.
  Lemma calls_kept cs : forall av av' ns, (forall c t, In c cs -> In t (call_tokens c) -> Q t) -> from_calls av -> add_history m pattern compiles av cs = Ok (av', ns) -> from_calls av'.
  Proof.
    induction cs as [|c cs IH]; intros av av' ns K G H; cbn [add_history] in H; [injection H as <- _; exact G|].
    apply bind_Ok_inv in H as ([av1 n] & H1 & H). apply bind_Ok_inv in H as ([av2 ns2] & H2 & H). injection H as <- _. cbn [fst] in *.
    refine (IH av1 av2 ns2 (fun c t I => K c t (or_intror I)) _ H2). assert (F : Forall Q (call_tokens c)) by (apply Forall_forall; intros t I; exact (K c t (or_introl eq_refl) I)).
    destruct c as [ts|ts]; cbn [add_step call_tokens] in *; [exact (tokens_kept _ _ _ _ F G H1)|]. unfold add_special_tokens in H1. exact (tokens_kept _ _ _ _ F (notes_kept _ F _ G) H1).
  Qed.
End Added.

Lemma patterns_named (R : Z -> str -> Prop) is_word n ids nm ts : (forall t i, ids t = Some i -> R i t) ->
  Forall (fun t => at_content t <> [] /\ at_lstrip t = false /\ at_rstrip t = false /\ (at_single t = true -> n = None)) ts ->
  forall l, token_patterns is_word n ids nm ts = Ok l -> Forall (fun x => tr_text (fst x) <> [] /\ tr_left (fst x) = false /\ tr_right (fst x) = false /\ R (snd x) (tr_text (fst x))) l.
Proof.
  intros K F. induction F as [|t ts (Ne & Hl & Hr & Hs) F IH]; intros l E; cbn [token_patterns] in E; [injection E as <-; constructor|].
  destruct (ids (at_content t)) as [id|] eqn:Ei; [|discriminate]. apply bind_Ok_inv in E as (r & Er & E). apply bind_Ok_inv in E as (rest & Ee & E). injection E as <-.
  specialize (IH _ Ee). destruct (Bool.eqb (at_norm t) nm); [|exact IH]. constructor; [|exact IH]. cbn [fst snd]. unfold get_pattern in Er. destruct (at_single t).
  - rewrite (Hs eq_refl) in Er. destruct (runes (at_content t)); [discriminate Er|]. cbn [apply_normalizer bind] in Er. injection Er as <-. cbn [tr_text tr_left tr_right]. split; [exact Ne|]. split; [exact Hl|]. split; [exact Hr|]. exact (K _ _ Ei).
  - injection Er as <-. cbn [tr_text tr_left tr_right]. split; [exact Ne|]. split; [exact Hl|]. split; [exact Hr|]. exact (K _ _ Ei).
Qed.
Lemma matching_named (R : Z -> str -> Prop) l : Forall (fun x => tr_text (fst x) <> [] /\ tr_left (fst x) = false /\ tr_right (fst x) = false /\ R (snd x) (tr_text (fst x))) l -> found_named R (re_matching l).
Proof.
  intros F s k ml a b E I. cbn [re_matching mt_find mt_ids] in *. rewrite nth_error_map in E. destruct (nth_error l k) as [x|] eqn:Ex; [|discriminate E]. injection E as <-.
  rewrite Forall_forall in F. destruct (F x (nth_error_In _ _ Ex)) as (Ne & Hl & Hr & K). destruct (find_all (fst x) Ne s) as (_ & Rec & _). rewrite Forall_forall in Rec.
  destruct (Rec _ I) as (c & d & (S1 & S2 & S3 & S4 & _) & A & B). cbn [fst snd] in A, B. destruct A as [->|[A _]]; [|congruence]. destruct B as [[-> _]|[B _]]; [|congruence].
  split; [exact S1|]. split; [exact S3|]. exists (snd x). split; [now rewrite nth_error_map, Ex|]. now rewrite S4.
Qed.

(** ** Assembled tokenizers *)
Section Assembled.
  Variable ss si : list io_pair -> list io_pair.
  Hypothesis HS : sorts start_key ss.
  Hypothesis HI : sorts id_key si.
  Variable u : unicode.
  Variables is_word cc mn sp : N -> bool.
  Variable lower : str -> str.
  Variable lib : norm_lib.
  Variable graphemes : str -> list str.
  Context {S : Type}.
  Variable of_q : Q -> S.
  Variable lt : S -> S -> bool.
  Variables bot zero : S.
  Variable plus : S -> S -> S.
  Variable bonus : nat -> S.
  Variable penal : S -> S.
  Variable dropping : bpe -> Q -> str -> res (list token).
  Local Notation assemble := (assemble u is_word cc mn sp lower lib graphemes of_q lt bot zero plus bonus penal dropping).
  Local Notation run_model := (run_model of_q lt bot zero plus bonus penal dropping).

  Lemma lookups_ok m : whole_model m -> AddedVocabSpec.base_ok (lookups m).
  Proof.
    destruct m as [b [q|]|w|w|g]; cbn [whole_model lookups]; [contradiction|intros [[A B] _]; split; assumption|intros [A B]; split; assumption|intros [A B]; split; assumption|].
    intros N. split; [|intros t i; exact (ug_inverse g N t i)]. intros t i. cbn [bm_t2i bm_size]. intros H. apply ug_lookup in H as (k & x & Ek & Ei & _). subst i.
    assert (L : (k < length (map fst (ug_vocab g)))%nat) by (apply nth_error_Some; rewrite nth_error_map, Ei; discriminate). rewrite map_length in L. unfold zlen. lia.
  Qed.

  Lemma scored_id g t : ug_token_to_id (scored of_q g) t = ug_token_to_id g t.
  Proof.
    unfold ug_token_to_id, scored. cbn [ug_vocab]. unfold ug_ids. rewrite map_length. f_equal. generalize (ug_vocab g) as v. intros v.
    generalize (@nil (str * Z)) as m. generalize 0%nat as k. induction v as [|[x q] v IH]; intros k m; [reflexivity|]. cbn [length seq map combine fold_left fst snd]. apply IH.
  Qed.

  Lemma assembled_named l a : whole_model (l_model l) -> all_as_written l -> assemble l = Ok a ->
    let R := named_or_unknown (l_model l) a in
    if_set (specials_named R) (l_post l) -> if_set (padding_named R) (l_pad l) -> parts_named R (as_tok a).
  Proof.
    intros W A H R Po Pa. unfold LoadedModel.assemble in H. apply bind_Ok_inv in H as (av & Hav & H). apply bind_Ok_inv in H as (raw & Hraw & H). apply bind_Ok_inv in H as (nrm & Hnrm & H).
    assert (Ea : as_lookups a = lookups (l_model l) /\ as_added a = av /\ as_tok a = Tkz raw nrm (norm_fun cc mn sp lower lib graphemes (l_norm l)) (option_map (pre_tokenize u) (l_pre l)) (Some (run_model (l_model l))) (l_post l) (l_trunc l) (l_pad l)) by (injection H as <-; auto).
    destruct Ea as (E1 & E2 & E3). rewrite E3. clear H.
    unfold added_by in Hav. apply bind_Ok_inv in Hav as ([av' ns] & Hh & Hav). injection Hav as ->. cbn [fst] in *.
    pose proof (lookups_ok _ W) as B. pose proof (added_inverse _ _ _ _ _ _ B Hh) as Inv.
    assert (K : forall t i, av_token_to_id (lookups (l_model l)) av t = Some i -> R i t).
    { intros t i E. left. unfold named_by. rewrite E1, E2. now apply Inv. }
    assert (Km : forall t i, bm_t2i (lookups (l_model l)) t = Some i -> R i t).
    { intros t i E. apply K. exact (model_ids_kept _ _ _ _ _ _ _ _ B Hh E). }
    assert (Kp : forall nm mt, looked_for is_word (norm_fun cc mn sp lower lib graphemes (l_norm l)) (lookups (l_model l)) av nm = Ok mt -> found_named R mt).
    { intros nm mt E. unfold looked_for in E. apply bind_Ok_inv in E as (pl & Ep & E). injection E as <-. apply matching_named. refine (patterns_named R _ _ _ _ _ K _ _ Ep).
      pose proof (calls_kept _ _ _ (as_written (l_norm l)) (l_calls l) _ _ _ A (Forall_nil _ : from_calls (as_written (l_norm l)) new_added_vocab) Hh) as F. unfold from_calls in F.
      refine (Forall_impl _ _ F). intros t (Ne & L1 & L2 & L3). split; [exact Ne|]. split; [exact L1|]. split; [exact L2|]. intros X. rewrite (L3 X). reflexivity. }
    unfold parts_named. cbn [tk_raw tk_normalized tk_pre tk_model tk_processor tk_padding]. split; [exact (Kp _ _ Hraw)|]. split; [exact (Kp _ _ Hnrm)|].
    split. { intros f E. destruct (l_pre l) as [p|]; [|discriminate E]. injection E as <-. apply pre_adds_none. }
    split; [|split; [exact Po|exact Pa]]. intros f E. injection E as <-. intros s toks H. unfold LoadedModel.run_model in H. apply bind_Ok_inv in H as (ts & Ht & H). injection H as ->.
    assert (Ku : forall t i, unknown_id (l_model l) = Some i -> bm_t2i (lookups (l_model l)) t = None -> R i t).
    { intros t i X Y. right. rewrite E1. split; assumption. }
    destruct (l_model l) as [b [q|]|w|w|g]; cbn [whole_model lookups] in *; [contradiction| | | |].
    - destruct W as (W1 & W2 & W3). exact (bpe_named R b W1 W2 W3 Km _ _ Ht).
    - exact (wp_named R w Km _ _ Ht).
    - refine (wl_named R w Km _ _ _ Ht). intros t i X Y. exact (Ku t i X Y).
    - assert (G : forall l0 off, Forall (fun t => R (t_id t) (t_value t)) (ug_tokens (scored of_q g) off l0)).
      { intros l0 off. refine (Forall_impl _ _ (ug_tokens_ids (scored of_q g) l0 off)). intros t. rewrite !scored_id. intros [X|[X Y]]; [exact (Km _ _ X)|exact (Ku _ _ Y X)]. }
      unfold ug_tokenize in Ht. destruct (ug_bytes _); [injection Ht as <-; apply G|]. apply bind_Ok_inv in Ht as (x & _ & Ht). injection Ht as <-. apply G.
  Qed.
  Lemma named_mono (R R' : Z -> str -> Prop) e : (forall i s, R i s -> R' i s) -> named R e -> named R' e.
  Proof.
    intros K. induction e as [e IH] using Encoding_ind'. intros N. apply named_inv in N as [N1 N2]. constructor.
    - clear -N1 K. induction N1; constructor; auto.
    - clear N1. induction IH as [|x l Hx IH IHl]; [constructor|]. apply Forall_cons_iff in N2 as [N N2]. constructor; auto.
  Qed.
  Lemma names_decoded a e : named (named_by a) e -> tokens_of_ids (as_lookups a) (as_added a) false (ids e) = tokens e.
  Proof.
    intros N. apply named_inv in N as [N _]. induction N as [|i s l l' E _ IH]; [reflexivity|]. cbn [tokens_of_ids]. unfold named_by in E. rewrite E. cbn [negb orb]. now rewrite IH.
  Qed.
  Lemma assembled_encodes l a : whole_model (l_model l) -> all_as_written l -> assemble l = Ok a ->
    let R := named_or_unknown (l_model l) a in
    if_set (specials_named R) (l_post l) -> if_set (padding_named R) (l_pad l) ->
    forall ot x add e, tk_encode ss si (as_tok a) ot x add = Ok (Some e) -> named R e.
  Proof. intros W A H R Po Pa ot x add e E. exact (encode_named R ss si HS HI _ _ _ _ _ (assembled_named _ _ W A H Po Pa) E). Qed.
End Assembled.

(** ** Where it fails *)
From Verif Require Import Utf8Proofs PipelineSpec PipelineProofs PlacedProofs TokensSpec TokensProofs AddedFindProofs DecoderProofs BpeSaveModel PreTokenizedSpec PreTokenizedProofs RoundTripProofs ApiModel.
Lemma not_named R e i s : In (i, s) (combine (ids e) (tokens e)) -> ~ R i s -> ~ named R e.
Proof.
  intros I N K. apply N. apply named_inv in K as [K _]. clear N. induction K as [|x y l l' Hxy _ IH]; [destruct I|]. destruct I as [I|I]; [injection I as <- <-; exact Hxy|now apply IH].
Qed.
Lemma strip_found w : w <> [] -> In (0, zlen (w ++ [32%N])) (find_re (TRe false false w false true) None (w ++ [32%N]) 0 0).
Proof.
  intros Ne. assert (E : match_at (TRe false false w false true) None (w ++ [32%N]) = Some (length w + 1)%nat).
  { unfold match_at. cbn [tr_left andb]. destruct (w ++ [32%N]) as [|b s'] eqn:Es; [destruct w; discriminate Es|]. rewrite <- Es. unfold match_core. cbn [tr_text tr_bl tr_br tr_right negb orb andb].
    assert (X : starts_with w (w ++ [32%N]) = true) by (apply starts_with_iff; eauto). rewrite X.
    replace (skipn (length w) (w ++ [32%N])) with [32%N]; [reflexivity|]. now rewrite skipn_app, skipn_all, Nat.sub_diag. }
  unfold zlen. rewrite app_length. cbn [length]. remember (w ++ [32%N]) as s eqn:Es. destruct s as [|b s']; [destruct w; discriminate Es|]. cbn [find_re]. rewrite E.
  replace (length w + 1)%nat with (Datatypes.S (length w)) by lia. left. reflexivity.
Qed.
Lemma part_whole {A} (s : list A) : part 0 (zlen s) s = s.
Proof. unfold part, zlen. rewrite Z.sub_0_r, Nat2Z.id. cbn [Z.to_nat skipn]. apply firstn_all. Qed.

Section Fails.
  Variable ss si : list io_pair -> list io_pair.
  Hypothesis HS : sorts start_key ss.
  Hypothesis HI : sorts id_key si.

  Lemma stripped_value t w id ty ot e : clean w -> w <> [] -> tk_raw t = re_matching [(TRe false false w false true, id)] ->
    matching_ok (tk_normalized t) -> with_default normalizer_ok (tk_normalizer t) -> with_default keeps_added (tk_pre t) ->
    encode_sequence ss si t ty ot (Raw (w ++ [32%N])) = Ok e -> In (id, w ++ [32%N]) (combine (ids e) (tokens e)).
  Proof.
    intros C Ne Er M2 N K H. assert (Cw : clean (w ++ [32%N])).
    { destruct C as (rs & Sc & Z0 & ->). exists (rs ++ [32%N]). split; [|split].
      - apply Forall_app. split; [exact Sc|]. constructor; [left; lia|constructor].
      - apply Forall_app. split; [exact Z0|]. constructor; [discriminate|constructor].
      - rewrite encode_app. reflexivity. }
    assert (V : valid_utf8 w) by (destruct C as (rs & Sc & _ & ->); exists rs; auto).
    assert (M1 : matching_ok (tk_raw t)) by (rewrite Er; apply re_matching_ok; constructor; [split; [exact Ne|exact V]|constructor]).
    assert (Nw : w ++ [32%N] <> []) by (destruct w; discriminate).
    destruct (added_kept ss si HS HI t ty ot _ e M1 M2 N K Cw Nw H) as (fs & F & Sub).
    assert (I : In (Some id, w ++ [32%N]) (cut_added ss si (tk_raw t) (w ++ [32%N]))).
    { unfold cut_added. rewrite Er. cbn [re_matching mt_ids mt_find map fst snd]. apply in_map_iff. exists (Some id, (0, zlen (w ++ [32%N]))). split; [cbn [fst snd]; now rewrite part_whole|].
      apply (find_single ss si HS HI _ [id]); [destruct w; [congruence|unfold zlen; cbn; lia]| |exact (strip_found w Ne)].
      exact (proj1 (find_all (TRe false false w false true) Ne (w ++ [32%N]))). }
    assert (J : In (id, w ++ [32%N]) (concat fs)).
    { clear -F I. induction F as [|x f l fs Hx F IH]; [destruct I|]. cbn [concat]. apply in_app_iff. destruct I as [->|I]; [left|right; now apply IH].
      unfold found_in in Hx. cbn [fst snd] in Hx. subst f. left. reflexivity. }
    clear -Sub J. induction Sub; [destruct J|destruct J as [<-|J]; [left; reflexivity|right; auto]|right; auto].
  Qed.

  Lemma unknown_value t w s ty ot e : tk_model t = Some (fun s => do toks <- wl_tokenize w s; Ok (Some toks)) -> tk_normalizer t = None -> tk_pre t = None ->
    matching_ok (tk_raw t) -> matching_ok (tk_normalized t) -> Forall (fun l => l = []) (mt_find (tk_raw t) s) -> Forall (fun l => l = []) (mt_find (tk_normalized t) s) ->
    clean s -> s <> [] -> vget s (wl_vocab w) = None -> encode_sequence ss si t ty ot (Raw s) = Ok e ->
    exists i, vget (wl_unk w) (wl_vocab w) = Some i /\ ids e = [i] /\ tokens e = [s].
  Proof.
    intros Em En Ep M1 M2 F1 F2 C Ne Ev H. destruct (raw_tokens ss si _ _ _ _ _ H) as (p & p' & toks & Hp & Hp' & F & (R1 & R2 & _) & _). rewrite Ep in Hp'. subst p'.
    assert (Es : exists sp, pt_splits p = [sp] /\ sp_toks sp = None /\ sp_text sp = s).
    { clear F. unfold extract_and_normalize in Hp. destruct (raw_apart ss si HS HI (tk_raw t) s M1 C) as (p1 & E1 & O1 & [G _] & U1). rewrite E1 in Hp. cbn [bind] in Hp.
      pose proof (new_in_place s C) as P. destruct (indices_labels ss si HS HI s (tk_raw t) (new_ns s) M1 P Ne) as (sps & Ei & N1 & L1).
      change (ns_norm (new_ns s)) with s in L1. rewrite (unfound ss si _ s HS HI Ne F1) in L1.
      unfold pt_split, pt_new, pt_from_ns in E1. cbn [pt_splits pt_orig split_pieces sp_toks sp_ns] in E1. rewrite Ei in E1. cbn [bind] in E1. fold PipelineProofs.nonempty in E1.
      rewrite (PipelineProofs.filter_true _ _ N1), app_nil_r in E1. injection E1 as <-. cbn [pt_splits pt_orig] in *.
      inversion L1 as [|? sp ? l [Tx Kx] L1']; subst. inversion L1'; subst. cbn [fst snd] in Tx, Kx. clear L1 L1'. apply Forall_cons_iff in G as [[Pp _] _].
      unfold pt_split in Hp. cbn [pt_splits pt_orig split_pieces] in Hp. rewrite Kx, En in Hp. cbn [apply_normalizer bind] in Hp.
      assert (Ns : ns_norm (sp_ns sp) <> []) by (unfold sp_text in Tx; rewrite Tx; exact Ne).
      destruct (indices_labels ss si HS HI _ (tk_normalized t) (sp_ns sp) M2 Pp Ns) as (sps2 & Ei2 & N2 & L2). rewrite Ei2 in Hp. cbn [bind] in Hp. fold PipelineProofs.nonempty in Hp.
      rewrite (PipelineProofs.filter_true _ _ N2), app_nil_r in Hp. injection Hp as <-. cbn [pt_splits]. unfold sp_text in Tx. rewrite Tx, (unfound ss si _ s HS HI Ne F2) in L2.
      inversion L2 as [|? sp2 ? l [Ty Ky] L2']; subst. inversion L2'; subst. exists sp2. auto. }
    destruct Es as (sp & Es & Kn & Tn). rewrite Es in F. inversion F as [|? ts ? l0 [_ X] F']; subst. inversion F'; subst. cbn [concat] in *. rewrite Kn in X. destruct X as (f & Ef & X).
    rewrite Em in Ef. injection Ef as <-. unfold wl_tokenize in X. rewrite Ev in X. destruct (vget (wl_unk w) (wl_vocab w)) as [i|]; cbn [bind] in X; [|discriminate X].
    injection X as <-. exists i. rewrite R1, R2. auto.
  Qed.
  Lemma roberta_nil t cls sep prefix s e : tk_processor t = Some (PRoberta cls sep false prefix) -> tk_trunc t = None -> encode_sequence ss si t 0 OByte (Raw s) = Ok e ->
    forall add, tokenize ss si t s add = Panic.
  Proof.
    intros Ep Et H add. unfold tokenize, encode_single. cbn [tk_encode]. rewrite H, Ep, Et. cbn [bind]. unfold post_process, post_truncate. cbn [bind fst snd process].
    unfold roberta_process. destruct (given add); cbn [negb bind]; [reflexivity|]. destruct (tk_padding t); reflexivity.
  Qed.
End Fails.

From Coq Require Import Permutation.
From Verif Require Import BpeTokProofs LoadedSpec LoadedProofs.
Lemma two_way_numbered v order : LoadedSpec.numbered v -> Permutation order v -> two_way v (build_vocab_r order).
Proof.
  intros N P. split.
  - intros t i H. apply aget_str_in in H. destruct N as (_ & _ & F). rewrite Forall_forall in F. exact (F _ H).
  - intros t i. split.
    + intros H. destruct (vocab_r_total v order i t P H) as [t' H']. rewrite H'. f_equal. pose proof (vocab_r_inverse v order i t' (proj1 N) P H') as H''. exact (numbered_inj v t t' i N H H'').
    + exact (vocab_r_inverse v order i t (proj1 N) P).
Qed.
Lemma specials_mono (R R' : Z -> str -> Prop) p : (forall i s, R i s -> R' i s) -> specials_named R p -> specials_named R' p.
Proof.
  intros M. revert p. fix IH 1. intros [a b|a b c d|x y toks|x y|l]; cbn [specials_named].
  - intros [H1 H2]. auto.
  - intros [H1 H2]. auto.
  - intros H k is ts I. specialize (H k is ts I). clear -H M. induction H; constructor; auto.
  - auto.
  - induction l as [|q l IHl]; cbn [fold_right]; [auto|]. intros [H1 H2]. split; [exact (IH q H1)|exact (IHl H2)].
Qed.
