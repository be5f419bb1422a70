(** Proofs about trained tokenizers (C78). *)
From Coq Require Import Permutation.
From Verif Require Import Base BaseProofs Utf8Model EncodingModel EncodingProofs BpeModel BpeTokProofs AddedVocabModel AddedVocabSpec AddedVocabProofs AddedPatternModel DecoderModel DecoderSpec DecoderProofs PreTokenizerModel PreTokenizerSpec PreTokenizedModel ProcessorModel
  PipelineModel PipelineSpec ReturnSpec RoundTripSpec RoundTripProofs RoundTripBpeProofs PretrainedModel TrainerModel TrainerSpec TrainerProofs TrainTextProofs TrainedModel TrainedSpec ConfigModel LoadedModel LoadedSpec LoadedAddedProofs LoadedProofs.
Open Scope Z_scope.

Lemma values_nodup (l : list str) (v : vocab) : NoDup (map fst v) -> (forall s i, In (s, i) v -> at_index l i s) -> NoDup (map snd v).
Proof.
  induction v as [|[s i] v IH]; intros N U; cbn [map]; [constructor|]. cbn [map fst] in N. apply NoDup_cons_iff in N as [N1 N2]. constructor; [|apply IH; [exact N2|intros; apply U; now right]].
  intros H. apply in_map_iff in H as ([s' j] & E & H). cbn [snd] in E. subst j. destruct (U s i (or_introl eq_refl)) as [_ A]. destruct (U s' i (or_intror H)) as [_ A'].
  apply N1, in_map_iff. exists (s', i). split; [cbn [fst]; congruence|exact H].
Qed.

Section Training.
  Context (addr : nat -> nat -> str) (pick : list tmerge -> nat) (cf : tcfg) (arrival : list nat) (wc : list (str * Z)) (fuel : nat).
  Context (t : tables) (news : list ((Z * Z) * Z)).
  Hypothesis pick_max : picks_highest pick.
  Hypothesis done : train_bpe addr pick cf arrival wc fuel = Ok (t, news).
  Hypothesis no_prefix : TrainerModel.tc_prefix cf = None.
  Hypothesis no_suffix : tc_suffix cf = None.
  Hypothesis no_limit : tc_limit cf = None.
  Local Notation M := (trained_model cf (t, news)).
  Local Notation v := (fst t).
  Lemma lim : limit_ok cf.
  Proof using no_limit. intros l. rewrite no_limit. discriminate. Qed.

  Lemma vocab_ok : NoDup (map fst v) /\ forall s, vget s v = last_index s (snd t).
  Proof using pick_max done no_limit. destruct (train_facts addr pick cf arrival wc lim pick_max fuel t news done) as (base & T & _). exact T. Qed.
  Lemma vocab_in s : In s (map fst v) <-> In s (snd t).
  Proof using pick_max done no_limit.
    destruct vocab_ok as [N T]. split; intros H.
    - apply in_map_iff in H as ([k i] & <- & H). apply (ag_nodup str_eqb str_eqb_eq) in H; [|exact N]. unfold vget in T. rewrite T in H. apply last_index_at in H as [_ H]. now apply nth_error_In in H.
    - destruct (last_index s (snd t)) as [i|] eqn:E; [|apply last_index_none in E; contradiction]. rewrite <- T in E. apply (ag_in str_eqb str_eqb_eq) in E. apply in_map_iff. exists (s, i). auto.
  Qed.
  Lemma vocab_keys : incl (snd t) (map fst v) /\ incl (map fst v) (snd t).
  Proof using pick_max done no_limit. split; intros s; apply vocab_in. Qed.

  (** If a text is made twice, there is an id beyond the size of the vocabulary; otherwise ids are numbered. *)
  Lemma numbered_trained : NoDup (snd t) -> numbered v.
  Proof using pick_max done no_limit.
    intros ND. destruct vocab_ok as [N T]. split; [exact N|].
    assert (U : forall s i, In (s, i) v -> at_index (snd t) i s).
    { intros s i H. apply (ag_nodup str_eqb str_eqb_eq) in H; [|exact N]. unfold vget in T. rewrite T in H. now apply last_index_at in H. }
    assert (L : zlen v = zlen (snd t)).
    { unfold zlen. f_equal. rewrite <- (map_length fst v). apply Nat.le_antisymm; apply NoDup_incl_length; [exact N|apply vocab_keys|exact ND|apply vocab_keys]. }
    split; [exact (values_nodup (snd t) v N U)|]. apply Forall_forall. intros [s i] H. cbn [snd]. rewrite L. exact (at_index_lt _ _ _ (U s i H)).
  Qed.
  Lemma short_vocab : ~ NoDup (snd t) -> zlen v < zlen (snd t) /\ exists s, vget s v = Some (zlen (snd t) - 1).
  Proof using pick_max done no_limit.
    intros D. destruct vocab_ok as [N T]. split.
    - unfold zlen. apply inj_lt. rewrite <- (map_length fst v). apply Nat.lt_nge. intros G. apply D. apply (NoDup_incl_NoDup N G). apply vocab_keys.
    - destruct (snd t) as [|x l] eqn:E using rev_ind; [exfalso; apply D; constructor|]. exists x. rewrite T, last_index_snoc, str_eqb_refl. f_equal. unfold zlen. rewrite app_length. cbn. lia.
  Qed.

  Lemma trained_literal : NoDup (snd t) -> literal M.
  Proof using pick_max done no_prefix no_limit.
    intros ND. destruct (numbered_trained ND) as (N & _). pose proof (trained_usable addr pick cf arrival wc fuel t news lim pick_max done ND) as U. cbn [trained_model b_vocab fst] in U.
    assert (V : forall s id, vget s v = Some id -> vrget id (build_vocab_r v) = Some s).
    { intros s id H. pose proof (numbered_base v v (numbered_trained ND) (Permutation_refl v)) as [_ B]. apply B. exact H. }
    split; [exact no_prefix|]. split; [exact V|]. intros c1 c2 rank new H.
    destruct (trained_merges addr pick cf arrival wc fuel t news lim pick_max done c1 c2 rank new H) as (sa & sb & sb' & A & Bb & W & C & _). rewrite no_prefix in W. cbn in W. subst sb'.
    exists sa, sb. split; [apply V; now apply U|]. split; [apply V; now apply U|]. now apply U.
  Qed.
  Lemma initial_known c : In c (tc_initial cf) -> vget c v <> None.
  Proof using pick_max done no_prefix no_suffix no_limit.
    intros H. destruct (train_initial addr pick cf arrival wc lim fuel t news no_prefix no_suffix done) as (kept & rest & m & K1 & K2 & _ & K4 & _). rewrite no_limit in K4.
    assert (R : rest = []). { rewrite K1 in K4. unfold zlen in K4. rewrite app_length in K4. destruct rest; [reflexivity|cbn in K4; lia]. }
    assert (I : In c (snd t)). { rewrite K2. apply in_or_app. left. rewrite <- (app_nil_r kept), <- R, <- K1. apply alphabet_keys_spec. right. exact H. }
    apply vocab_in in I. intros E. apply in_map_iff in I as ([k i] & <- & I). apply (ag_nodup str_eqb str_eqb_eq) in I; [|apply vocab_ok]. unfold vget in E. cbn [fst] in E. congruence.
  Qed.
  Lemma unwritten_unknown s : ~ In s (tc_initial cf) -> (forall w n a z, In (w, n) wc -> w <> a ++ s ++ z) -> vget s v = None.
  Proof using pick_max done no_prefix no_suffix no_limit.
    intros I W. destruct (vget s v) as [i|] eqn:E; [exfalso|reflexivity]. destruct vocab_ok as [N T]. rewrite T in E. apply last_index_at in E as [_ E]. apply nth_error_In in E.
    destruct (train_text addr pick cf arrival wc (fun _ => True) no_limit) with (fuel := fuel) (t := t) (news := news) (x := s) as [_ K].
    - intros x _. now rewrite no_prefix.
    - intros w n _. apply Forall_forall. auto.
    - intros c _. apply Forall_forall. auto.
    - intros a b. apply Forall_forall. auto.
    - exact done.
    - exact E.
    - destruct K as [[(w & n & Hw & cs & Hc & H)|K]|(us & a & u & c & H & Eu & _ & ->)]; [|contradiction|].
      + apply in_split in H as (a & z & ->). apply characters_concat in Hc. rewrite concat_app in Hc. cbn [concat] in Hc. exact (W w n _ _ Hw (eq_sym Hc)).
      + apply all_units_in in H as (k & j & Hk & ->). rewrite (units_plain addr cf j _ no_prefix no_suffix) in Eu.
        pose proof (Permutation_in k (sort_strs_perm (map fst wc)) Hk) as Hw. apply in_map_iff in Hw as ([k' n] & <- & Hw). cbn [fst] in Eu.
        pose proof (characters_concat _ _ (explode_characters k')) as X. rewrite Eu, !concat_app in X. exact (W k' n _ _ Hw (eq_sym X)).
  Qed.
End Training.

(** ** Special tokens *)
Definition config_of (x : added_token) : token_config := TC 0 (at_content x) (at_single x) (at_lstrip x) (at_rstrip x) (at_norm x) true.
Lemma config_added l : map added_of (map config_of l) = l.
Proof. rewrite map_map. rewrite <- (map_id l) at 2. apply map_ext. intros []. reflexivity. Qed.
Lemma config_content l : map tc_content (map config_of l) = map at_content l.
Proof. rewrite map_map. reflexivity. Qed.
Lemma filter_special l : filter tc_special (map config_of l) = map config_of l.
Proof. induction l; [reflexivity|]. cbn. now f_equal. Qed.
Lemma filter_other l : filter (fun t => negb (tc_special t)) (map config_of l) = [].
Proof. now induction l. Qed.
Lemma listed_config l : listed (map config_of l) = map at_content l.
Proof. unfold listed. rewrite filter_special, filter_other, config_content. apply app_nil_r. Qed.
Lemma unknown_all t2i l : forall seen, (forall s, In s l -> t2i s = None /\ ~ In s seen) -> NoDup l -> unknown t2i seen l = l.
Proof.
  induction l as [|s l IH]; intros seen H N; [reflexivity|]. cbn [unknown]. destruct (H s (or_introl eq_refl)) as [-> Ns]. apply NoDup_cons_iff in N as [N1 N2].
  destruct (existsb _ seen) eqn:E; [apply existsb_str in E; contradiction|]. f_equal. apply IH; [|exact N2]. intros x Hx. destruct (H x (or_intror Hx)) as [A B]. split; [exact A|]. intros [->|K]; contradiction.
Qed.
Lemma position_nth l : NoDup l -> forall i s, nth_error l i = Some s -> position s l = Some i.
Proof.
  induction l as [|x l IH]; intros N i s H; [destruct i; discriminate|]. apply NoDup_cons_iff in N as [N1 N2]. cbn [position]. destruct i; [injection H as ->; now rewrite str_eqb_refl|].
  cbn [nth_error] in H. destruct (str_eqb s x) eqn:E; [apply str_eqb_eq in E; subst x; exfalso; apply N1; now apply nth_error_In in H|]. now rewrite (IH N2 i s H).
Qed.

(** ** The round trip *)
Section Round.
  Variable ss si : list io_pair -> list io_pair.
  Hypothesis HS : sorts start_key ss.
  Hypothesis HI : sorts id_key si.
  Variable u : unicode.
  Variable is_word : N -> bool.
  Hypothesis Mo : forall b, PipelineSpec.model_ok (always (bpe_tokenize b)).
  Context (addr : nat -> nat -> str) (pick : list tmerge -> nat) (cf : tcfg) (arrival : list nat) (wc : list (str * Z)) (fuel : nat).
  Context (t : tables) (news : list ((Z * Z) * Z)).
  Variables (specials : list added_token) (prefix : bool) (po : option processor) (pa : option pad_params).
  Hypothesis pick_max : picks_highest pick.
  Hypothesis done : train_bpe addr pick cf arrival wc fuel = Ok (t, news).
  Hypothesis Bs : byte_settings cf.
  Hypothesis Ss : special_settings cf wc specials.
  Hypothesis ND : NoDup (snd t).
  Hypothesis U : prefix = true -> un_letter u 32 = false /\ un_number u 32 = false.

  Lemma trained_round : exists a, train_tokenizer u is_word (PTByteLevel prefix) po (Some DByteLevel) pa addr pick cf specials arrival wc fuel = Ok a /\
    (forall i s, nth_error (TrainerModel.tc_special cf) i = Some s -> av_token_to_id (as_lookups a) (as_added a) s = Some (zlen (fst t) + Z.of_nat i)) /\
    forall ot x add, clean_inputs x -> ot <> OInvalid -> Forall (free_of (TrainerModel.tc_special cf)) (encode_texts x) ->
      ends_with (ids_from (zlen (fst t)) (length specials)) (dual x) add po pa ->
      exists e, tk_encode ss si (as_tok a) ot x add = Ok (Some e) /\ as_decode a (ids e) true = Ok (concat (map (spaced prefix) (encode_texts x))).
  Proof.
    destruct Bs as (NP & NS & NL & Vb). destruct Ss as (Sc & Sn & Sf).
    pose proof (numbered_trained addr pick cf arrival wc fuel t news pick_max done NL ND) as Nu. pose proof (trained_literal addr pick cf arrival wc fuel t news pick_max done NP NL ND) as Li.
    set (v := fst t) in *. set (m := vocab_model v (build_vocab_r v)). set (ad := map config_of specials).
    pose proof (numbered_base v v Nu (Permutation_refl v)) as B. fold m in B.
    assert (Fa : Forall (fun t => tc_content t <> [] /\ valid_utf8 (tc_content t)) ad).
    { apply Forall_map, Forall_forall. intros x Hx. cbn. rewrite Sc, Forall_map, Forall_forall in Sf. destruct (Sf x Hx) as (A1 & A2 & _). auto. }
    assert (Un : forall s, In s (TrainerModel.tc_special cf) -> vget s v = None).
    { intros s Hs. rewrite Forall_forall in Sf. destruct (Sf s Hs) as (_ & _ & A & W). exact (unwritten_unknown addr pick cf arrival wc fuel t news pick_max done NP NS NL s A W). }
    destruct (step_special m B ad Fa tc_special [] _ _ (reached_nil m ad)) as (av & n & Ea & R0).
    assert (R : reached m ad (listed ad) (special_content ad) av).
    { destruct R0 as (R1 & R2 & R3 & R4 & R5). unfold ad in *. rewrite filter_special, config_content in *. rewrite listed_config. cbn [app] in R2. split; [exact R1|]. split; [exact R2|]. split; [exact R3|].
      assert (Eq : forall s, (False \/ In s (map at_content specials)) <-> special_content (map config_of specials) s).
      { intros s. unfold special_content. split.
        - intros [[]|H]. apply in_map_iff in H as (c & <- & Hc). exists (config_of c). split; [now apply in_map|split; reflexivity].
        - intros (c & Hc & _ & <-). right. apply in_map_iff in Hc as (x & <- & Hx). cbn. now apply in_map. }
      split; [intros x Hx; apply Eq; auto|intros s; rewrite R5; apply Eq]. }
    unfold ad in Ea at 1. rewrite filter_special, config_added in Ea.
    destruct (looked_made m ad Fa av R is_word false) as (l1 & E1 & F1). destruct (looked_made m ad Fa av R is_word true) as (l2 & E2 & F2).
    assert (Fi : forall i s, nth_error (TrainerModel.tc_special cf) i = Some s -> file_id (fun s => vget s v) (zlen v) ad s = Some (zlen v + Z.of_nat i)).
    { intros i s H. unfold file_id. rewrite (Un s (nth_error_In _ _ H)). unfold ad. rewrite listed_config, <- Sc, unknown_all; [|intros x Hx; split; [now apply Un|intros []]|exact Sn]. now rewrite (position_nth _ Sn i s H). }
    assert (Hid : forall i, In i (ids_from (zlen v) (length specials)) -> In i (special_ids (fun s => vget s v) (zlen v) ad)).
    { intros i H. unfold ids_from in H. apply in_map_iff in H as (k & <- & H). apply in_seq in H as [_ H]. cbn [Nat.add] in H.
      destruct (nth_error specials k) as [x|] eqn:E; [|apply nth_error_None in E; lia]. unfold special_ids. apply in_flat_map. exists (config_of x). split; [unfold ad; apply in_map; now apply nth_error_In in E|].
      cbn [tc_special config_of tc_content]. rewrite (Fi k (at_content x)); [now left|]. rewrite Sc. now apply map_nth_error. }
    assert (Sh : forall i, In i (ids_from (zlen v) (length specials)) -> shown m av true i = None) by (intros i H; apply (hidden_ids m B ad av R); exact (Hid i H)).
    eexists. split; [unfold train_tokenizer; rewrite done; cbn [bind]; unfold with_trained; cbn [trained_model b_vocab b_vocab_r fst]; fold v m; unfold added_by; cbn [add_history add_step]; rewrite Ea; cbn [bind fst]; rewrite E1; cbn [bind]; rewrite E2; reflexivity|].
    cbn [as_lookups as_added as_tok]. split; [intros i s H; rewrite (reached_ids m ad av R); exact (Fi i s H)|].
    intros ot x add C Hot W [P1 P2]. set (tk := Tkz _ _ _ _ _ _ _ _).
    destruct (RoundTripProofs.round_trip ss si HS HI tk (always (bpe_tokenize (trained_model cf (t, news)))) u prefix m av true) with (mk := ByNew) (ot := ot) (x := x) (add := add) as (e & E & D).
    - exact (looked_ok m ad Fa av l1 F1).
    - exact (looked_ok m ad Fa av l2 F2).
    - reflexivity.
    - reflexivity.
    - exact U.
    - reflexivity.
    - apply Mo.
    - intros bs Ne Hb. apply (bytes_spelled _ _ bs Li); [| |exact Ne|exact Hb].
      + intros k Hk. exact (initial_known addr pick cf arrival wc fuel t news pick_max done NP NS NL _ (Vb k Hk)).
      + intros s id Hs _. apply (shown_other m B ad av R s id Hs). intros (c & Hc & _ & <-). unfold ad in Hc. apply in_map_iff in Hc as (y & <- & Hy). cbn [config_of tc_content] in Hs.
        cbn [trained_model b_vocab fst] in Hs. fold v in Hs. rewrite (Un (at_content y)) in Hs; [discriminate|]. rewrite Sc. now apply in_map.
    - split; [|split]; [|exact I|].
      + cbn. destruct po; [apply P1|constructor].
      + cbn. unfold returning_padding. destruct pa; [apply P2|exact I].
    - split; [|split; [reflexivity|]]; cbn.
      + destruct po as [p|]; [|exact I]. apply (hides_mono (except (ids_from (zlen v) (length specials)))); [|apply P1]. intros i. unfold except. destruct (existsb _ _) eqn:Ee; [|discriminate].
        intros _. apply existsb_exists in Ee as (j & Hj & Ej). apply Z.eqb_eq in Ej. subst j. now apply Sh.
      + destruct pa as [d|]; [|exact I]. apply Sh, P2.
    - exact C.
    - exact Hot.
    - exists e. split; [exact E|]. unfold as_decode. cbn [as_lookups as_added as_decoder option_map]. rewrite D. f_equal. f_equal. apply map_ext_in. intros s Hs. unfold kept.
      rewrite Forall_forall in W. assert (W' : unwritten ad s).
      { intros c a z Hc. unfold ad in Hc. apply in_map_iff in Hc as (y & <- & Hy). apply (W s Hs). rewrite Sc. cbn. now apply in_map. }
      apply (unfound_parts ss si tk s HS HI); [exact (looked_absent m ad Fa av l1 s F1 W')|exact (looked_absent m ad Fa av l2 s F2 W')].
  Qed.
End Round.

(** ** Ids that clash *)
Lemma combine_seq {A} (l : list A) (f : nat -> Z) i x : nth_error l i = Some x -> forall k, In (x, f (k + i)%nat) (combine l (map f (seq k (length l)))).
Proof.
  revert l. induction i as [|i IH]; intros [|y l] H k; try discriminate.
  - injection H as ->. rewrite Nat.add_0_r. now left.
  - cbn [nth_error] in H. cbn [length seq map combine]. right. specialize (IH l H (Datatypes.S k)). now replace (k + Datatypes.S i)%nat with (Datatypes.S k + i)%nat by lia.
Qed.
Lemma add_fresh m ts : Forall (fun t => at_content t <> [] /\ bm_t2i m (at_content t) = None) ts -> NoDup (map at_content ts) ->
  forall av n, (forall s, In s (map at_content ts) -> ~ In s (map fst (av_map av))) ->
  av_map (fst (fold_left (add_one m) ts (av, n))) = av_map av ++ combine (map at_content ts) (ids_from (bm_size m + zlen (av_map av)) (length ts)).
Proof.
  induction 1 as [|x ts [Ne Hx] F IH]; intros N av n D; [cbn; now rewrite app_nil_r|]. cbn [fold_left map length]. cbn [map] in N, D. apply NoDup_cons_iff in N as [N1 N2].
  unfold add_one at 2. destruct (length (at_content x) =? 0)%nat eqn:El; [apply Nat.eqb_eq, length_zero_iff_nil in El; congruence|].
  assert (Ea : aget str_eqb (at_content x) (av_map av) = None) by (apply (ag_none str_eqb str_eqb_eq); apply D; now left).
  unfold av_token_to_id. rewrite Ea, Hx. rewrite IH; [|exact N2|]; cbn [av_map].
  - rewrite (aset_fresh _ str_eqb_eq) by (apply (ag_none str_eqb str_eqb_eq); exact Ea). rewrite <- app_assoc. cbn [app]. f_equal. unfold ids_from. cbn [seq map combine]. f_equal; [f_equal; lia|].
    f_equal. rewrite <- seq_shift, map_map. apply map_ext. intros i. unfold zlen. rewrite app_length. cbn [length]. lia.
  - intros s Hs. rewrite (aset_fresh _ str_eqb_eq) by (apply (ag_none str_eqb str_eqb_eq); exact Ea). rewrite map_app, in_app_iff. cbn [map fst In]. intros [K|[<-|[]]]; [apply (D s (or_intror Hs) K)|contradiction].
Qed.

Lemma trained_clash u is_word pre po dec pa addr pick cf specials arrival wc fuel t news a :
  picks_highest pick -> train_bpe addr pick cf arrival wc fuel = Ok (t, news) -> TrainerModel.tc_prefix cf = None -> tc_suffix cf = None -> tc_limit cf = None ->
  special_settings cf wc specials -> ~ NoDup (snd t) -> zlen (snd t) <= zlen (fst t) + zlen specials ->
  train_tokenizer u is_word pre po dec pa addr pick cf specials arrival wc fuel = Ok a ->
  exists s w i, In s (TrainerModel.tc_special cf) /\ vget w (fst t) = Some i /\ w <> s /\
    av_token_to_id (as_lookups a) (as_added a) s = Some i /\ av_token_to_id (as_lookups a) (as_added a) w = Some i.
Proof.
  intros P D NP NS NL (Sc & Sn & Sf) Du Le E.
  assert (Un : forall s, In s (TrainerModel.tc_special cf) -> vget s (fst t) = None).
  { intros s Hs. rewrite Forall_forall in Sf. destruct (Sf s Hs) as (_ & _ & A & W). exact (unwritten_unknown addr pick cf arrival wc fuel t news P D NP NS NL s A W). }
  destruct (short_vocab addr pick cf arrival wc fuel t news P D NL Du) as [Lt (w & Hw)].
  unfold train_tokenizer in E. rewrite D in E. cbn [bind] in E. unfold with_trained in E. cbn [trained_model b_vocab b_vocab_r fst] in E. set (m := vocab_model _ _) in E.
  apply bind_Ok_inv in E as (av & Ea & E). apply bind_Ok_inv in E as (raw & _ & E). apply bind_Ok_inv in E as (nrm & _ & E). injection E as <-. cbn [as_lookups as_added].
  unfold added_by in Ea. apply bind_Ok_inv in Ea as ([av' cs] & Ea & Eq). injection Eq as <-. cbn [fst]. cbn [add_history add_step] in Ea. apply bind_Ok_inv in Ea as ([av1 n] & Ea & Eq). cbn [fst] in Eq. injection Eq as <- _.
  unfold add_special_tokens, add_tokens in Ea. set (av0 := fold_left note_special specials new_added_vocab) in Ea. destruct (fold_left (add_one m) specials (av0, 0)) as [av2 ign] eqn:Ef.
  apply bind_Ok_inv in Ea as (av3 & Er & Eq). injection Eq as <- _. destruct (refresh_map m _ _ av2 av3 Er) as (R1 & _).
  destruct (note_special_spec (fun _ => true) specials new_added_vocab) as (N1 & _). fold av0 in N1. cbn in N1.
  assert (Mp : av_map av3 = combine (map at_content specials) (ids_from (zlen (fst t)) (length specials))).
  { rewrite R1. replace av2 with (fst (fold_left (add_one m) specials (av0, 0))) by now rewrite Ef. rewrite (add_fresh m specials).
    - rewrite N1. cbn [app zlen length]. cbn [m vocab_model bm_size]. f_equal. unfold zlen. cbn. now rewrite Z.add_0_r.
    - rewrite Sc in Sf. apply Forall_forall. intros x Hx. rewrite Forall_map, Forall_forall in Sf. split; [apply (Sf x Hx)|]. cbn. apply Un. rewrite Sc. now apply in_map.
    - now rewrite <- Sc.
    - intros s _. rewrite N1. intros []. }
  assert (Ln : length (ids_from (zlen (fst t)) (length specials)) = length (map at_content specials)) by (unfold ids_from; now rewrite !map_length, seq_length).
  assert (Ks : map fst (av_map av3) = map at_content specials).
  { rewrite Mp. clear -Ln. revert Ln. generalize (ids_from (zlen (fst t)) (length specials)) (map at_content specials). intros b c. revert b. induction c as [|y c IH]; intros [|i b] L; try discriminate; [reflexivity|]. cbn [combine map fst]. f_equal. apply IH. now injection L. }
  set (k := Z.to_nat (zlen (snd t) - 1 - zlen (fst t))). assert (Hk : (k < length specials)%nat) by (unfold k, zlen in *; lia).
  destruct (nth_error specials k) as [x|] eqn:Ex; [|apply nth_error_None in Ex; lia].
  exists (at_content x), w, (zlen (snd t) - 1). assert (Hx : In (at_content x) (TrainerModel.tc_special cf)) by (rewrite Sc; apply in_map; now apply nth_error_In in Ex).
  split; [exact Hx|]. split; [exact Hw|]. split; [intros ->; rewrite (Un _ Hx) in Hw; discriminate|]. unfold av_token_to_id. split.
  - assert (K : aget str_eqb (at_content x) (av_map av3) = Some (zlen (snd t) - 1)); [|now rewrite K]. apply (ag_nodup str_eqb str_eqb_eq); [rewrite Ks, <- Sc; exact Sn|].
    rewrite Mp. unfold ids_from. rewrite <- (map_length at_content specials). replace (zlen (snd t) - 1) with ((fun i => zlen (fst t) + Z.of_nat i) (0 + k)%nat) by (cbv beta; unfold k; lia).
    apply (combine_seq (map at_content specials) (fun i => zlen (fst t) + Z.of_nat i) k (at_content x) (map_nth_error at_content k specials Ex) 0%nat).
  - destruct (aget str_eqb w (av_map av3)) as [j|] eqn:Ew; [|exact Hw]. exfalso. apply (ag_in str_eqb str_eqb_eq) in Ew. assert (I : In w (map fst (av_map av3))) by (apply in_map_iff; exists (w, j); auto).
    rewrite Ks, <- Sc in I. rewrite (Un _ I) in Hw. discriminate.
Qed.
