(** One text through a tokenizer with the metaspace pre-tokenizer (C75). *)
From Verif Require Import Base BaseProofs Utf8Model Utf8Proofs NormalizedModel NormalizedSpec NormalizedProofs NormalizedInvProofs ChunkProofs EncodingModel EncodingSpec EncodingProofs
  BpeModel BpeSpec BpeSaveModel AddedVocabModel AddedVocabSpec UnigramModel UnigramSpec UnigramProofs DecoderModel PreTokenizedModel PreTokenizerModel PreTokenizerSpec PreTokenizerProofs
  MetaspaceSpec PipelineModel PipelineSpec TokensSpec ReturnSpec RoundTripSpec RoundTripBpeProofs RoundTripProofs WordsSpec MetaTripSpec MetaTripProofs MetaModelProofs.
Open Scope Z_scope.

Lemma blank_idem r c : blank r c = c <-> c = 32%N \/ white c = false /\ c <> r.
Proof.
  unfold blank. destruct (white c) eqn:E; cbn [orb].
  - split; [intros <-; auto|]. intros [->|[H _]]; [reflexivity|discriminate].
  - destruct (N.eqb_spec c r) as [->|H]; [|tauto]. split; [intros <-; auto|]. intros [->|[_ H]]; [reflexivity|congruence].
Qed.
Lemma back_faithful scheme r rs : meta_back scheme r rs = rs <-> faithful scheme r rs.
Proof.
  unfold meta_back, faithful. destruct rs as [|c rs]; cbn [map hd_error]; [split; [split; [constructor|discriminate]|reflexivity]|].
  assert (K : forall l, map (blank r) l = l <-> Forall (fun c => c = 32%N \/ white c = false /\ c <> r) l).
  { induction l as [|d l IH]; cbn [map]; [split; [constructor|reflexivity]|]. rewrite Forall_cons_iff, <- IH, <- blank_idem. split; [intros H; injection H as -> ->; auto|intros [-> ->]; reflexivity]. }
  specialize (K (c :: rs)). cbn [map] in K. rewrite <- K. destruct (prepends scheme) eqn:P; cbn [andb].
  - destruct (N.eqb_spec (blank r c) 32) as [B|B].
    + split.
      * intros H. exfalso. apply (f_equal (@length N)) in H. rewrite map_length in H. cbn [length] in H. lia.
      * intros [H N]. exfalso. apply (f_equal (hd 0%N)) in H. cbn [hd] in H. apply N; [reflexivity|]. congruence.
    + split; [|tauto]. intros H. split; [exact H|]. intros _ Q. injection Q as ->. apply B. apply (f_equal (hd 0%N)) in H. exact H.
  - split; [intros H; split; [exact H|discriminate]|tauto].
Qed.

Lemma back_scalar scheme r rs : Forall scalar rs -> Forall scalar (meta_back scheme r rs).
Proof.
  intros F. assert (G : Forall scalar (map (blank r) rs)).
  { apply Forall_map. eapply Forall_impl; [|exact F]. intros c H. unfold blank. destruct (_ || _)%bool; [left; reflexivity|exact H]. }
  unfold meta_back. destruct (map (blank r) rs) as [|c l]; [constructor|]. apply Forall_cons_iff in G as [G1 G2]. destruct (_ && _)%bool; [exact G2|now constructor].
Qed.
(** A vocabulary with all characters of a word has a segmentation of it. *)
Lemma entry_in {S} (voc : list (str * S)) t : In t (map fst voc) -> exists k sc, entry voc t k sc.
Proof.
  induction voc as [|[t0 s0] voc IH]; intros H; [destruct H|]. destruct (in_dec (list_eq_dec N.eq_dec) t (map fst voc)) as [Y|Y].
  - destruct (IH Y) as (k & sc & E & L). exists (Datatypes.S k), sc. split; [exact E|]. intros [|m] Hm; [lia|]. cbn [map nth_error]. apply L. lia.
  - destruct H as [H|H]; [|contradiction]. cbn [fst] in H. subst t0. exists 0%nat, s0. split; [reflexivity|]. intros [|m] Hm E; [lia|]. cbn [map nth_error] in E. apply nth_error_In in E. contradiction.
Qed.
Lemma letters {S} (u : unigram (S := S)) ws : Forall (fun c => In (encode_rune c) (map fst (ug_vocab u))) ws -> exists gs, segmentation u (encode ws) gs.
Proof.
  induction ws as [|c ws IH]; intros F; [exists []; constructor|]. apply Forall_cons_iff in F as [H F]. destruct (IH F) as (gs & Sg). destruct (entry_in _ _ H) as (k & sc & En).
  exists (Known (encode_rune c) k sc :: gs). rewrite encode_cons. apply (seg_cons u (Known (encode_rune c) k sc) (encode ws) gs); [|exact Sg]. split; [exact En|].
  pose proof (encode_rune_nonempty c). destruct (encode_rune c) as [|x l] eqn:E; [congruence|]. rewrite <- E. assert (length (encode_rune c) <= 4)%nat by (unfold encode_rune; repeat match goal with |- context [if ?b then _ else _] => destruct b end; cbn [length]; lia).
  rewrite E in *. cbn [length] in *. lia.
Qed.

Section Sorted.
  Variable ss si : list io_pair -> list io_pair.
  Hypothesis HS : sorts start_key ss.
  Hypothesis HI : sorts id_key si.

  Lemma text_parts t scheme r rs : Forall scalar rs -> Forall (fun l => l = []) (mt_find (tk_raw t) (encode rs)) -> Forall (fun l => l = []) (mt_find (tk_normalized t) (encode rs)) ->
    input_parts ss si t scheme r (ISingle (Raw (encode rs))) = match rs with [] => [] | _ => [led scheme r true rs] end.
  Proof.
    intros Sc F1 F2. unfold input_parts. cbn [encode_texts input_texts flat_map]. rewrite app_nil_r. destruct rs as [|c rs]; [reflexivity|].
    assert (Ne : encode (c :: rs) <> []) by (rewrite encode_cons; intros E; apply app_eq_nil in E as [E _]; now apply (encode_rune_nonempty c)).
    assert (A : all_parts ss si t (encode (c :: rs)) = [(None, encode (c :: rs))]).
    { unfold all_parts. rewrite (unfound ss si (tk_raw t) _ HS HI Ne F1). cbn [flat_map fst snd app]. rewrite (unfound ss si (tk_normalized t) _ HS HI Ne F2). cbn [app]. destruct (encode (c :: rs)); [congruence|reflexivity]. }
    unfold led_parts. rewrite A. cbn [led_part fst snd flat_map app]. now rewrite runes_encode.
  Qed.
  Lemma text_back t scheme r rs : Forall scalar rs -> Forall (fun l => l = []) (mt_find (tk_raw t) (encode rs)) -> Forall (fun l => l = []) (mt_find (tk_normalized t) (encode rs)) ->
    meta_text ss si t scheme r (ISingle (Raw (encode rs))) = encode (meta_back scheme r rs).
  Proof.
    intros Sc F1 F2. unfold meta_text. rewrite text_parts by assumption. f_equal. unfold meta_back. destruct rs as [|c rs]; [reflexivity|]. cbn [concat]. rewrite app_nil_r. unfold led. cbn [map].
    assert (L : leads scheme true = prepends scheme) by (destruct scheme; reflexivity). rewrite L. destruct (prepends scheme); cbn [andb]; [|reflexivity].
    destruct (blank r c =? 32)%N eqn:B; cbn [negb]; rewrite ?B, ?N.eqb_refl; reflexivity.
  Qed.
  Lemma text_words t scheme r rs w : scalar r -> Forall scalar rs -> Forall (fun l => l = []) (mt_find (tk_raw t) (encode rs)) -> Forall (fun l => l = []) (mt_find (tk_normalized t) (encode rs)) ->
    In w (meta_words ss si t scheme r (ISingle (Raw (encode rs)))) ->
    exists ws, w = encode ws /\ ws <> [] /\ Forall scalar ws /\ Forall (fun c => c = r \/ In c rs /\ white c = false) ws.
  Proof.
    intros Sr Sc F1 F2 H. unfold meta_words in H. rewrite text_parts in H by assumption. destruct rs as [|c0 rs]; [destruct H|]. cbn [flat_map] in H. rewrite app_nil_r in H.
    apply in_map_iff in H as (ws & <- & Hw). exists ws. split; [reflexivity|]. fold (to_mark r) in Hw. change (fun c => if (c =? 32)%N then r else c) with (to_mark r) in Hw.
    assert (Q : Forall (fun c => c = r \/ In c (c0 :: rs) /\ white c = false) (map (to_mark r) (led scheme r true (c0 :: rs)))).
    { assert (M : forall l, incl l (c0 :: rs) -> Forall (fun c => c = r \/ In c (c0 :: rs) /\ white c = false) (map (to_mark r) (map (blank r) l))).
      { intros l Hl. apply Forall_forall. intros y Hy. apply in_map_iff in Hy as (z & <- & Hz). apply in_map_iff in Hz as (c & <- & Hc). rewrite blank_mark. change (re_space c) with (white c). destruct (white c) eqn:E; [now left|]. right. auto. }
      specialize (M (c0 :: rs) (incl_refl _)). unfold led. cbn [map] in *. destruct (_ && _); [|exact M]. constructor; [now left|exact M]. }
    cbn [cut_up] in Hw. split; [|split].
    - pose proof (segments_nonempty (stay MergedWithNext (N.eqb r)) (map (to_mark r) (led scheme r true (c0 :: rs)))) as N. rewrite Forall_forall in N. exact (N _ Hw).
    - pose proof (cut_up_text MergedWithNext (N.eqb r) (map (to_mark r) (led scheme r true (c0 :: rs))) ltac:(discriminate)) as T. cbn [cut_up] in T. apply Forall_forall. intros c Hc.
      assert (In c (map (to_mark r) (led scheme r true (c0 :: rs)))) by (rewrite <- T; apply in_concat; eauto). rewrite Forall_forall in Q, Sc. destruct (Q c H) as [->|[K _]]; auto.
    - pose proof (cut_up_text MergedWithNext (N.eqb r) (map (to_mark r) (led scheme r true (c0 :: rs))) ltac:(discriminate)) as T. cbn [cut_up] in T. apply Forall_forall. intros c Hc.
      assert (In c (map (to_mark r) (led scheme r true (c0 :: rs)))) by (rewrite <- T; apply in_concat; eauto). rewrite Forall_forall in Q. exact (Q c H).
  Qed.

  Lemma round_trip t f u r scheme m av skip mk ot x add : metaspace_tok ss si (shown m av skip) u scheme r f t ->
    ending_returns t (dual x) add -> ending_hides (shown m av skip) t (dual x) add -> clean_inputs x -> ot <> OInvalid ->
    Forall (spells_whole f (shown m av skip)) (meta_words ss si t scheme r x) ->
    exists e, tk_encode ss si t ot x add = Ok (Some e) /\
      decode_ids m av (Some (decode mk (DMetaspace (encode_rune r) (prepends scheme)))) (ids e) skip = Ok (meta_text ss si t scheme r x).
  Proof. intros (Sr & R0 & M1 & M2 & No & Pre & Fm & Mo & Ah). now apply (meta_round_trip ss si HS HI t f u). Qed.
  Lemma text_trip t f u r scheme m av skip mk ot rs add : metaspace_tok ss si (shown m av skip) u scheme r f t ->
    ending_returns t false add -> ending_hides (shown m av skip) t false add -> clean (encode rs) -> Forall scalar rs -> ot <> OInvalid ->
    Forall (fun l => l = []) (mt_find (tk_raw t) (encode rs)) -> Forall (fun l => l = []) (mt_find (tk_normalized t) (encode rs)) ->
    Forall (spells_whole f (shown m av skip)) (meta_words ss si t scheme r (ISingle (Raw (encode rs)))) ->
    exists e, tk_encode ss si t ot (ISingle (Raw (encode rs))) add = Ok (Some e) /\
      decode_ids m av (Some (decode mk (DMetaspace (encode_rune r) (prepends scheme)))) (ids e) skip = Ok (encode (meta_back scheme r rs)).
  Proof.
    intros Mt R H C Sc Hot F1 F2 Sp. destruct (round_trip t f u r scheme m av skip mk ot (ISingle (Raw (encode rs))) add Mt R H C Hot Sp) as (e & E & D). exists e. split; [exact E|].
    now rewrite D, text_back.
  Qed.

  Lemma bpe_words t scheme r rs b name : literal b -> scalar r -> Forall scalar rs ->
    Forall (fun l => l = []) (mt_find (tk_raw t) (encode rs)) -> Forall (fun l => l = []) (mt_find (tk_normalized t) (encode rs)) ->
    vget (encode_rune r) (b_vocab b) <> None -> Forall (fun c => white c = false -> vget (encode_rune c) (b_vocab b) <> None) rs ->
    (forall s id, vget s (b_vocab b) = Some id -> makes b s -> name id = Some s) ->
    Forall (spells_whole (always (bpe_tokenize b)) name) (meta_words ss si t scheme r (ISingle (Raw (encode rs)))).
  Proof.
    intros L Sr Sc F1 F2 Vr Vc Nm. apply Forall_forall. intros w Hw. destruct (text_words t scheme r rs w Sr Sc F1 F2 Hw) as (ws & -> & Ne & Ss & K).
    apply bpe_spells_whole; [exact L|now exists ws| | |exact Nm].
    - intros E. destruct ws as [|c ws]; [congruence|]. rewrite encode_cons in E. apply app_eq_nil in E as [E _]. now apply (encode_rune_nonempty c).
    - rewrite runes_encode by assumption. eapply Forall_impl; [|exact K]. intros c [->|[Hc E]]; [exact Vr|]. rewrite Forall_forall in Vc. now apply Vc.
  Qed.

  Lemma unigram_words {S} (u : unigram (S := S)) lt bot zero plus bonus penal t scheme r rs name : score_laws lt bot plus -> ug_bytes u = false ->
    Forall (fun p => valid_utf8 (fst p)) (ug_vocab u) -> scalar r -> Forall scalar rs ->
    Forall (fun l => l = []) (mt_find (tk_raw t) (encode rs)) -> Forall (fun l => l = []) (mt_find (tk_normalized t) (encode rs)) ->
    In (encode_rune r) (map fst (ug_vocab u)) -> Forall (fun c => white c = false -> In (encode_rune c) (map fst (ug_vocab u))) rs ->
    (forall w, In w (meta_words ss si t scheme r (ISingle (Raw (encode rs)))) ->
      (forall k v sc a z, ug_unk u = Some (Z.of_nat k) -> nth_error (ug_vocab u) k = Some (v, sc) -> w <> a ++ v ++ z) /\
      (forall gs, segmentation u w gs -> lt bot (total lt zero plus bonus penal u gs) = true)) ->
    (forall s id, ug_token_to_id u s = Some id -> ug_unk u <> Some id -> name id = Some s) ->
    Forall (spells_whole (always (ug_tokenize lt bot zero plus bonus penal u)) name) (meta_words ss si t scheme r (ISingle (Raw (encode rs)))).
  Proof.
    intros Ls B Vt Sr Sc F1 F2 Vr Vc W Nm. apply Forall_forall. intros w Hw. destruct (W w Hw) as [Nu Fin]. destruct (text_words t scheme r rs w Sr Sc F1 F2 Hw) as (ws & -> & Ne & Ss & K).
    assert (V : Forall (fun c => In (encode_rune c) (map fst (ug_vocab u))) ws).
    { eapply Forall_impl; [|exact K]. intros c [->|[Hc E]]; [exact Vr|]. rewrite Forall_forall in Vc. now apply Vc. }
    apply unigram_spells; auto; [now exists ws| |rewrite runes_encode by assumption; exact V| |].
    - intros E. destruct ws as [|c ws]; [congruence|]. rewrite encode_cons in E. apply app_eq_nil in E as [E _]. now apply (encode_rune_nonempty c).
    - destruct (letters u ws V) as (gs & Sg). exists gs. split; [exact Sg|]. now apply Fin.
    - intros v id a z Hv E. apply Nm; [exact Hv|]. intros Eu. apply ug_lookup in Hv as (k & sc & -> & [En _]). exact (Nu k v sc a z Eu En E).
  Qed.
End Sorted.
