(** Proofs about reading a text back from its windows (C82). *)
From Verif Require Import Base BaseProofs Utf8Model Utf8Proofs NormalizedModel NormalizedSpec EncodingModel EncodingSpec EncodingProofs AddedVocabModel AddedVocabSpec DecoderModel DecoderProofs BpeModel PreTokenizedModel PreTokenizedSpec PreTokenizedProofs PreTokenizerModel PreTokenizerSpec PreTokenizerProofs
  ProcessorModel PipelineModel PipelineSpec PipelineProofs TokensSpec TokensProofs ReturnSpec ReturnEndProofs ReturnProofs RoundTripSpec RoundTripEndProofs RoundTripProofs WindowsSpec WindowsProofs WindowTextSpec.
Open Scope Z_scope.

Section Names.
  Variable name : Z -> option str.
  Notation sees := (filter (fun i => match name i with Some _ => true | None => false end)).
  Lemma sees_hidden l : Forall (fun i => name i = None) l -> sees l = [].
  Proof. induction 1 as [|i l H F IH]; [reflexivity|]. cbn [filter]. now rewrite H. Qed.
  Lemma sees_all l : Forall (fun i => name i <> None) l -> sees l = l.
  Proof. induction 1 as [|i l H F IH]; [reflexivity|]. cbn [filter]. destruct (name i); [now rewrite IH|congruence]. Qed.
  Lemma sees_pads d k : name (pd_id d) = None -> sees (repeat (pd_id d) k) = [].
  Proof. intros H. apply sees_hidden. induction k; constructor; assumption. Qed.
  Lemma read_visible pa r e B C x : hidden_around name B C pa -> reads pa r e (join2 [B; x; C]) -> visible name e = sees (fst x).
  Proof.
    intros [H1 H2] [E _]. unfold visible. rewrite E, filter_app. apply Forall_app in H1 as [HB HC].
    assert (P : forall k, sees (fst (padded pa k)) = []) by (intros k; destruct pa as [d|]; [cbn [padded fst]; apply sees_pads; now apply H2|reflexivity]).
    rewrite P. cbn [join2 flat_map fst]. rewrite !filter_app, (sees_hidden _ HB), (sees_hidden _ HC). cbn [app filter]. now rewrite !app_nil_r.
  Qed.
  Lemma windows_visible pa r B C e ws l : hidden_around name B C pa -> Forall2 (fun w part => reads pa r part (join2 [B; piece_of e w; C])) ws l ->
    map (visible name) l = map (fun w => sees (at_window (ids e) w)) ws.
  Proof. intros H F. induction F as [|w part ws l R F IH]; [reflexivity|]. cbn [map]. rewrite IH, (read_visible _ _ _ _ _ _ H R). reflexivity. Qed.
  Lemma rejoin_0 {A} (l : list (list A)) : rejoin 0 l = concat l.
  Proof. destruct l as [|x l]; [reflexivity|]. cbn [rejoin concat]. f_equal. induction l as [|y l IH]; [reflexivity|]. cbn [map concat]. now rewrite IH. Qed.
  Lemma filter_concat (l : list (list Z)) : concat (map sees l) = sees (concat l).
  Proof. induction l as [|x l IH]; [reflexivity|]. cbn [map concat]. now rewrite filter_app, IH. Qed.
  Lemma window_all (P : Z -> Prop) l w : Forall P l -> Forall P (at_window l w).
  Proof.
    intros H. unfold at_window, window. rewrite Forall_forall in *. intros x Hx. apply H. rewrite <- (firstn_skipn (fst w) l). apply in_or_app. right.
    rewrite <- (firstn_skipn (snd w) (skipn (fst w) l)). apply in_or_app. now left.
  Qed.
  Lemma windows_rejoin m s (l : list Z) ws : cut_to m s (length l) ws -> s = 0%nat \/ Forall (fun i => name i <> None) l ->
    rejoin s (map (fun w => sees (at_window l w)) ws) = sees l.
  Proof.
    intros Cut [->|V].
    - rewrite rejoin_0. rewrite <- (map_map (at_window l) sees), filter_concat, <- rejoin_0. now rewrite (rejoin_cut _ _ _ _ Cut).
    - rewrite (sees_all l V). rewrite (map_ext _ (at_window l)) by (intros w; now apply sees_all, window_all). exact (rejoin_cut _ _ _ _ Cut).
  Qed.
End Names.
Lemma shown_sees m av skip l : shown_all m av skip (filter (fun i => match shown m av skip i with Some _ => true | None => false end) l) = shown_all m av skip l.
Proof. induction l as [|i l IH]; [reflexivity|]. cbn [filter]. unfold shown_all in *. cbn [flat_map]. destruct (shown m av skip i) eqn:E; [cbn [flat_map]; rewrite E|]; now rewrite IH. Qed.
Lemma decode_shown m av dec a b skip : shown_all m av skip a = shown_all m av skip b -> decode_ids m av dec a skip = decode_ids m av dec b skip.
Proof. intros H. unfold decode_ids. rewrite !tokens_of_shown, H. reflexivity. Qed.

Section Encode.
  Context (ss si : list io_pair -> list io_pair).
  Lemma same_words t ty ot : forall l i, encode_words ss si (untruncated t) ty ot i l = encode_words ss si t ty ot i l.
  Proof. induction l as [|s l IH]; intros i; [reflexivity|]. cbn [encode_words]. rewrite IH. reflexivity. Qed.
  Lemma same_sequence t ty ot x : encode_sequence ss si (untruncated t) ty ot x = encode_sequence ss si t ty ot x.
  Proof. destruct x as [s|l]; [reflexivity|]. unfold encode_sequence. now rewrite same_words. Qed.
  Lemma whole_visible name t ot x add B C e e' :
    pads_right (tk_padding t) -> single_frame add (tk_processor t) B C -> hidden_around name B C (tk_padding t) ->
    encode_sequence ss si t 0 ot x = Ok e -> tk_encode ss si (untruncated t) ot (ISingle x) add = Ok (Some e') ->
    visible name e' = filter (fun i => match name i with Some _ => true | None => false end) (ids e).
  Proof.
    intros D F Hd E H. cbn [tk_encode] in H. rewrite same_sequence, E in H. cbn [bind] in H. unfold post_process in H. apply bind_Ok_inv in H as (ep & H1 & H). cbn in H1. injection H1 as <-. cbn [fst snd] in H.
    apply bind_Ok_inv in H as (ro & H2 & H3). destruct ro as [r1|]; [|cbn in H3; destruct (tk_padding t); discriminate H3].
    pose proof (pads_parts _ _ _ D H3) as P. inversion P as [|? ? ? ? P1 _]; subst. pose proof (ids_single _ _ _ _ _ _ F H2) as I1. pose proof (tokens_single _ _ _ _ _ _ F H2) as T1.
    unfold fparts in I1, T1. injection I1 as I1 _. injection T1 as T1 _. change (filter _ (ids e)) with (filter (fun i => match name i with Some _ => true | None => false end) (fst (ids e, tokens e))).
    apply (read_visible name (tk_padding t) e' e' B C (ids e, tokens e) Hd). replace (join2 [B; (ids e, tokens e); C]) with (ids r1, tokens r1); [exact P1|]. unfold join2. cbn. rewrite !app_nil_r, I1, T1. reflexivity.
  Qed.
  Lemma windows_shown m av skip t ot x add M st s B C e r :
    let name := shown m av skip in
    tk_trunc t = Some (Trunc M st s) -> 0 <= s -> pads_right (tk_padding t) -> single_frame add (tk_processor t) B C -> hidden_around name B C (tk_padding t) ->
    encode_sequence ss si t 0 ot x = Ok e -> s = 0 \/ Forall (fun i => name i <> None) (ids e) ->
    tk_encode ss si t ot (ISingle x) add = Ok (Some r) -> shown_all m av skip (reassembled name s r) = shown_all m av skip (ids e).
  Proof.
    intros name Ht Hs D F Hd E V H. destruct (encodes_single ss si t ot x add M st s B C e r Ht Hs D F E H) as (ws & Cut & R).
    unfold reassembled. rewrite (windows_visible name _ _ _ _ _ _ _ Hd R). rewrite (windows_rejoin name _ _ _ _ Cut) by (destruct V as [->|V]; [now left|now right]). apply shown_sees.
  Qed.
  Lemma windows_text m av skip dec t ot x add M st s B C e e' r :
    let name := shown m av skip in
    tk_trunc t = Some (Trunc M st s) -> 0 <= s -> pads_right (tk_padding t) -> single_frame add (tk_processor t) B C -> hidden_around name B C (tk_padding t) ->
    encode_sequence ss si t 0 ot x = Ok e -> s = 0 \/ Forall (fun i => name i <> None) (ids e) ->
    tk_encode ss si t ot (ISingle x) add = Ok (Some r) -> tk_encode ss si (untruncated t) ot (ISingle x) add = Ok (Some e') ->
    decode_ids m av dec (reassembled name s r) skip = decode_ids m av dec (ids e') skip.
  Proof.
    intros name Ht Hs D F Hd E V H H'. apply decode_shown. unfold name. rewrite (windows_shown m av skip t ot x add M st s B C e r Ht Hs D F Hd E V H).
    pose proof (whole_visible name t ot x add B C e e' D F Hd E H') as W. unfold visible, name in W. rewrite <- (shown_sees m av skip (ids e)), <- W. apply shown_sees.
  Qed.
End Encode.

(** ** Byte-level tokenizers *)
Section Bytes.
  Variable ss si : list io_pair -> list io_pair.
  Hypothesis HS : sorts start_key ss.
  Hypothesis HI : sorts id_key si.
  Lemma raw_named name t u prefix ty ot s e : byte_level name u prefix t -> clean s -> encode_sequence ss si t ty ot (Raw s) = Ok e -> Forall (fun i => name i <> None) (ids e).
  Proof.
    intros (M1 & M2 & No & Pre & U & f & Fm & Mo & Sp) C E. assert (N : with_default normalizer_ok (tk_normalizer t)) by (now rewrite No).
    destruct (raw_tokens ss si _ _ _ _ _ E) as (p & p' & toks & Q1 & Q2 & F & (R1 & _) & _). rewrite Pre in Q2.
    destruct (extract_laid ss si HS HI t s p M1 M2 N C Q1) as (L1 & O1 & U1). specialize (U1 No). destruct (byte_words u prefix p p' U L1 U1 Q2) as (gs & G1 & G2 & G3 & G4).
    rewrite R1. apply Forall_map. clear -F G1 G3 G4 Sp Fm. revert gs G1 G3 G4. induction F as [|sp ts l toks [_ X] F IH]; intros gs G1 G3 G4; [constructor|].
    destruct gs as [|g gs]; [discriminate|]. cbn [map] in G3. injection G3 as G3 G3'. apply Forall_cons_iff in G1 as [[Ng Vg] G1']. apply Forall_cons_iff in G4 as [Hs G4']. rewrite Hs in X. destruct X as (f' & Ef & X).
    assert (f' = f) by congruence. subst f'. rewrite G3 in X. destruct (Sp g Ng (valid_bytes _ Vg)) as (ts' & Y1 & _ & _ & Y4). assert (ts' = ts) by congruence. subst ts'.
    cbn [concat]. apply Forall_app. split; [|exact (IH gs G1' G3' G4')]. eapply Forall_impl; [|exact Y4]. intros x Hx. cbn beta in Hx. rewrite Hx. discriminate.
  Qed.
  Lemma input_named name t u prefix ty ot x e : byte_level name u prefix t -> clean_input x -> encode_sequence ss si t ty ot x = Ok e -> Forall (fun i => name i <> None) (ids e).
  Proof.
    intros B C E. destruct x as [s|l]; [exact (raw_named name t u prefix ty ot s e B C E)|]. destruct (words_tokens ss si _ _ _ _ _ E) as (es & F & I & _). rewrite I. cbn [clean_input] in C. clear -F C B HS HI.
    induction F as [|w e l es Hw F IH]; [constructor|]. apply Forall_cons_iff in C as [C1 C2]. cbn [map concat]. apply Forall_app. split; [|exact (IH C2)]. exact (raw_named name t u prefix ty ot w e B C1 Hw).
  Qed.
  Lemma bytes_windows t u prefix m av skip mk ot x add M st s B C :
    let name := shown m av skip in byte_level name u prefix t -> ending_returns t false add ->
    tk_trunc t = Some (Trunc M st s) -> 0 <= s -> single_frame add (tk_processor t) B C -> hidden_around name B C (tk_padding t) ->
    clean_input x -> ot <> OInvalid ->
    exists r, tk_encode ss si t ot (ISingle x) add = Ok (Some r) /\
      decode_ids m av (Some (decode mk DByteLevel)) (reassembled name s r) skip = Ok (concat (map (fun s => concat (map (spaced prefix) (plain_parts ss si t s))) (input_texts x))).
  Proof.
    intros name By (R1 & R2 & R3) Ht Hs F Hd Cx Hot. pose proof By as (M1 & M2 & No & Pre & U & f & Fm & Mo & Sp).
    destruct (input_decodes ss si HS HI t f u prefix m av skip M1 M2 No Pre U Fm Mo Sp (fun _ => True) (fun _ _ _ _ _ => proj2 (Forall_forall _ _) (fun _ _ => I)) 0 ot x Cx Hot) as (e & E & D & V & _).
    assert (Pl : plain e). { destruct (sequence_plain ss si _ _ _ _ _ E). split; [exact (sequence_parallel ss si _ _ _ _ _ E)|auto]. }
    destruct (post_returns (tk_processor t) (tk_trunc t) (tk_padding t) e None add) as (r & Er); auto; [discriminate|]. exists r.
    assert (H : tk_encode ss si t ot (ISingle x) add = Ok (Some r)) by (cbn [tk_encode]; rewrite E; exact Er). split; [exact H|].
    assert (Dr : pads_right (tk_padding t)) by (intros d Ed; unfold returning_padding in R3; rewrite Ed in R3; exact R3).
    unfold decode_ids. rewrite tokens_of_shown. unfold name. rewrite (windows_shown ss si m av skip t ot x add M st s B C e r Ht Hs Dr F Hd E (or_intror (input_named name t u prefix 0 ot x e By Cx E)) H).
    cbn [decode]. unfold bl_chain. rewrite D. rewrite bl_decode_render by now apply valid_bytes. reflexivity.
  Qed.
End Bytes.
