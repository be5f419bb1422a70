(** C75: decoding a text encoded with the metaspace pre-tokenizer. *)
From Verif Require Import Base BaseProofs Utf8Model Utf8Proofs PatternModel NormalizedModel NormalizedSpec NormalizedProofs EncodingModel BpeModel BpeTokProofs BpeSaveModel AddedVocabModel AddedVocabSpec AddedFindProofs
  WordPieceModel UnigramModel UnigramSpec UnigramProofs DecoderModel PreTokenizedModel PreTokenizerModel PreTokenizerSpec ProcessorModel MetaspaceSpec PipelineModel PipelineSpec PipelineProofs TokensSpec TokensProofs PropByteLevel PropModels PropPipeline PropTokens ReturnSpec
  RoundTripSpec RoundTripBpeProofs RoundTripProofs WordsSpec TurnedProofs BertWordsProofs MetaTripSpec MetaTripProofs MetaModelProofs MetaTextProofs.
Open Scope Z_scope.

(** * Any input *)

(** If the model spells the words it is given with whole characters, encoding returns, and the
    ids decode to the parts of the texts between the added tokens, one after the other. *)
Theorem C75_inputs_partial : forall sort_start sort_id, sorts start_key sort_start -> sorts id_key sort_id ->
  forall t f u mark scheme m av skip mk ot x add, metaspace_tok sort_start sort_id (shown m av skip) u scheme mark f t ->
  ending_returns t (dual x) add -> ending_hides (shown m av skip) t (dual x) add -> clean_inputs x -> ot <> OInvalid ->
  Forall (spells_whole f (shown m av skip)) (meta_words sort_start sort_id t scheme mark x) ->
  exists e, tk_encode sort_start sort_id t ot x add = Ok (Some e) /\
    decode_ids m av (Some (decode mk (DMetaspace (encode_rune mark) (prepends scheme)))) (ids e) skip = Ok (meta_text sort_start sort_id t scheme mark x).
Proof. exact round_trip. Qed.
Print Assumptions C75_inputs_partial.

(** * A text in which no added token is found *)

(** With BPE: if the vocabulary has the mark and the characters of the text. *)
Theorem C75_bpe_partial : forall sort_start sort_id, sorts start_key sort_start -> sorts id_key sort_id ->
  forall t b u mark scheme m av skip mk ot rs add, metaspace_tok sort_start sort_id (shown m av skip) u scheme mark (always (bpe_tokenize b)) t ->
  ending_returns t false add -> ending_hides (shown m av skip) t false add -> clean (encode rs) -> Forall scalar rs -> ot <> OInvalid ->
  Forall (fun l => l = []) (mt_find (tk_raw t) (encode rs)) -> Forall (fun l => l = []) (mt_find (tk_normalized t) (encode rs)) ->
  literal b -> vget (encode_rune mark) (b_vocab b) <> None -> Forall (fun c => white c = false -> vget (encode_rune c) (b_vocab b) <> None) rs ->
  (forall s id, vget s (b_vocab b) = Some id -> makes b s -> shown m av skip id = Some s) ->
  exists e, tk_encode sort_start sort_id t ot (ISingle (Raw (encode rs))) add = Ok (Some e) /\
    decode_ids m av (Some (decode mk (DMetaspace (encode_rune mark) (prepends scheme)))) (ids e) skip = Ok (encode (meta_back scheme mark rs)).
Proof.
  intros ss si HS HI t b u mark scheme m av skip mk ot rs add Mt R H C Sc Hot F1 F2 L V1 V2 Nm.
  apply (text_trip ss si HS HI t _ u mark scheme m av skip mk ot rs add Mt R H C Sc Hot F1 F2). apply (bpe_words ss si HS HI); auto. apply Mt.
Qed.
Print Assumptions C75_bpe_partial.

(** With Unigram: if moreover the unknown token is not written in the text and no score is as
    low as minus infinity. *)
Theorem C75_unigram_partial : forall sort_start sort_id, sorts start_key sort_start -> sorts id_key sort_id ->
  forall (S : Type) (ug : unigram (S := S)) lt bot zero plus bonus penal t u mark scheme m av skip mk ot rs add,
  metaspace_tok sort_start sort_id (shown m av skip) u scheme mark (always (ug_tokenize lt bot zero plus bonus penal ug)) t ->
  ending_returns t false add -> ending_hides (shown m av skip) t false add -> clean (encode rs) -> Forall scalar rs -> ot <> OInvalid ->
  Forall (fun l => l = []) (mt_find (tk_raw t) (encode rs)) -> Forall (fun l => l = []) (mt_find (tk_normalized t) (encode rs)) ->
  score_laws lt bot plus -> ug_bytes ug = false -> Forall (fun p => valid_utf8 (fst p)) (ug_vocab ug) ->
  In (encode_rune mark) (map fst (ug_vocab ug)) -> Forall (fun c => white c = false -> In (encode_rune c) (map fst (ug_vocab ug))) rs ->
  (forall w, In w (meta_words sort_start sort_id t scheme mark (ISingle (Raw (encode rs)))) ->
    (forall k v sc a z, ug_unk ug = Some (Z.of_nat k) -> nth_error (ug_vocab ug) k = Some (v, sc) -> w <> a ++ v ++ z) /\
    (forall gs, segmentation ug w gs -> lt bot (total lt zero plus bonus penal ug gs) = true)) ->
  (forall s id, ug_token_to_id ug s = Some id -> ug_unk ug <> Some id -> shown m av skip id = Some s) ->
  exists e, tk_encode sort_start sort_id t ot (ISingle (Raw (encode rs))) add = Ok (Some e) /\
    decode_ids m av (Some (decode mk (DMetaspace (encode_rune mark) (prepends scheme)))) (ids e) skip = Ok (encode (meta_back scheme mark rs)).
Proof.
  intros ss si HS HI S ug lt bot zero plus bonus penal t u mark scheme m av skip mk ot rs add Mt R H C Sc Hot F1 F2 Ls B Vt V1 V2 W Nm.
  apply (text_trip ss si HS HI t _ u mark scheme m av skip mk ot rs add Mt R H C Sc Hot F1 F2). apply (unigram_words ss si HS HI); auto. apply Mt.
Qed.
Print Assumptions C75_unigram_partial.

(** A text comes back exactly if it has no mark, no white space but spaces and, where a mark is
    put in front, does not begin with a space. *)
Theorem C75_faithful : forall scheme mark rs, meta_back scheme mark rs = rs <-> faithful scheme mark rs.
Proof. exact back_faithful. Qed.
Print Assumptions C75_faithful.

(** All other texts come back changed. *)
Theorem C75_text_refuted : forall sort_start sort_id, sorts start_key sort_start -> sorts id_key sort_id ->
  forall t f u mark scheme m av skip mk ot rs add, metaspace_tok sort_start sort_id (shown m av skip) u scheme mark f t ->
  ending_returns t false add -> ending_hides (shown m av skip) t false add -> clean (encode rs) -> Forall scalar rs -> ot <> OInvalid ->
  Forall (fun l => l = []) (mt_find (tk_raw t) (encode rs)) -> Forall (fun l => l = []) (mt_find (tk_normalized t) (encode rs)) ->
  Forall (spells_whole f (shown m av skip)) (meta_words sort_start sort_id t scheme mark (ISingle (Raw (encode rs)))) ->
  ~ faithful scheme mark rs ->
  exists e, tk_encode sort_start sort_id t ot (ISingle (Raw (encode rs))) add = Ok (Some e) /\
    decode_ids m av (Some (decode mk (DMetaspace (encode_rune mark) (prepends scheme)))) (ids e) skip <> Ok (encode rs).
Proof.
  intros ss si HS HI t f u mark scheme m av skip mk ot rs add Mt R H C Sc Hot F1 F2 Sp Nf.
  destruct (text_trip ss si HS HI t f u mark scheme m av skip mk ot rs add Mt R H C Sc Hot F1 F2 Sp) as (e & E & D). exists e. split; [exact E|]. rewrite D. intros Q.
  apply Nf, back_faithful. injection Q as Q. apply (f_equal runes) in Q. now rewrite !runes_encode in Q by (try assumption; apply back_scalar; assumption).
Qed.
Print Assumptions C75_text_refuted.

(** * Examples *)

(** Unigram with the unknown token, the mark, "a", "b" and the mark with "a". *)
Definition mt_mark : str := encode_rune 9601.
Definition mt_ug : unigram (S := option Z) :=
  UG [(default_unk, Some (-200)); (mt_mark, Some (-100)); ([97]%N, Some (-100)); ([98]%N, Some (-100)); ((mt_mark ++ [97])%N, Some (-20))] (Some 0) false true.
Definition mt_base : base_model := Base (ug_token_to_id mt_ug) (ug_id_to_token mt_ug) 5.
Definition mt_added : added_vocab := AV [] [(5, [60; 47; 115; 62]%N); (7, PropTokens.mark)] [] [] [[60; 47; 115; 62]%N; PropTokens.mark] [] [].
Definition mt_tok (scheme : prepend_scheme) (set : matching) : tokenizer :=
  Tkz set no_matching None (Some (pre_tokenize u55 (PTMetaspace mt_mark (find_chars (N.eqb 9601)) scheme)))
    (Some (always (ug_tokenize zlt None (Some 0) zplus zbonus zpenal mt_ug))) None None None.
(** "a b" comes back, " a<tab>b" and the mark do not, nor the added token between "a" and "a". *)
Example C75_example :
  let decoded scheme set x := match tk_encode (isort start_key) (isort id_key) (mt_tok scheme set) OByte x true with
    | Ok (Some e) => Some (ids e, decode_ids mt_base mt_added (Some (decode ByNew (DMetaspace mt_mark (prepends scheme)))) (ids e) true) | _ => None end in
  decoded Always no_matching (ISingle (Raw [97; 32; 98]%N)) = Some ([4; 1; 3], Ok [97; 32; 98]%N) /\
  decoded Never no_matching (ISingle (Raw [97; 32; 98]%N)) = Some ([2; 1; 3], Ok [97; 32; 98]%N) /\
  decoded Always no_matching (ISingle (Raw [32; 97; 9; 98]%N)) = Some ([4; 1; 3], Ok [97; 32; 98]%N) /\
  decoded First mark_set (ISingle (Raw ([97] ++ PropTokens.mark ++ [97])%N)) = Some ([4; 7; 2], Ok [97; 97]%N) /\
  decoded Always mark_set (ISingle (Raw ([97] ++ PropTokens.mark ++ [97])%N)) = Some ([4; 7; 4], Ok [97; 32; 97]%N) /\
  decoded Always no_matching (IDual (Raw [97]%N) (Words [[98]; [97]]%N)) = Some ([4; 1; 3; 4], Ok [97; 32; 98; 32; 97]%N).
Proof. vm_compute. repeat split. Qed.
(** The tokenizer with the added token, and the text "a b", meet the assumptions. *)
Lemma mt_meets scheme : metaspace_tok (isort start_key) (isort id_key) (shown mt_base mt_added true) u55 scheme 9601 (always (ug_tokenize zlt None (Some 0) zplus zbonus zpenal mt_ug)) (mt_tok scheme mark_set).
Proof.
  split; [left; reflexivity|]. split; [discriminate|]. split; [exact mark_ok|]. split; [apply none_matching|]. split; [reflexivity|]. split; [reflexivity|]. split; [reflexivity|].
  split; [apply C54_unigram; [exact zlaws|reflexivity]|]. intros set s id w Hs H. assert (X : In id (mt_ids set)).
  { apply (found_ids (isort start_key) (isort id_key) (isort_sorts start_key) (isort_sorts id_key) set s id w); [|exact H]. intros x. destruct Hs as [-> | ->]; reflexivity. }
  destruct Hs as [-> | ->]; [|destruct X]. destruct X as [<-|[]]. vm_compute. reflexivity.
Qed.
Lemma mt_total w gs : segmentation mt_ug w gs -> zlt None (total zlt (Some 0) zplus zbonus zpenal mt_ug gs) = true.
Proof.
  unfold total. generalize 0 at 2. intros z0 Sg. revert z0. induction Sg as [|g rest gs Hg Sg IH]; intros z0; [reflexivity|]. cbn [fold_left].
  assert (K : exists z, add_seg zlt (Some 0) zplus zbonus zpenal mt_ug (Some z0) g = Some z).
  { destruct g as [t k sc|t]; cbn [add_seg]; [|eexists; vm_compute; reflexivity]. destruct Hg as [[H _] _]. destruct k as [|[|[|[|[|k]]]]]; cbn in H; try (injection H as _ <-; eexists; reflexivity). destruct k; discriminate H. }
  destruct K as (z & ->). apply IH.
Qed.
Example C75_meets : let t := mt_tok Always mark_set in
  exists e, tk_encode (isort start_key) (isort id_key) t OByte (ISingle (Raw (encode [97; 32; 98]%N))) true = Ok (Some e) /\
    decode_ids mt_base mt_added (Some (decode ByNew (DMetaspace mt_mark true))) (ids e) true = Ok (encode (meta_back Always 9601 [97; 32; 98]%N)).
Proof.
  assert (Sc : Forall scalar [97; 32; 98]%N) by (repeat constructor; left; reflexivity).
  assert (W : meta_words (isort start_key) (isort id_key) (mt_tok Always mark_set) Always 9601 (ISingle (Raw (encode [97; 32; 98]%N))) = [mt_mark ++ [97]; mt_mark ++ [98]]%N) by (vm_compute; reflexivity).
  apply (C75_unigram_partial (isort start_key) (isort id_key) (isort_sorts start_key) (isort_sorts id_key) (option Z) mt_ug zlt None (Some 0) zplus zbonus zpenal (mt_tok Always mark_set) u55 9601%N Always mt_base mt_added true ByNew OByte [97; 32; 98]%N true).
  - apply mt_meets.
  - split; [exact I|split; exact I].
  - split; [exact I|split; [reflexivity|exact I]].
  - exists [97; 32; 98]%N. repeat split; repeat constructor; unfold scalar; lia.
  - exact Sc.
  - discriminate.
  - vm_compute. repeat constructor.
  - constructor.
  - exact zlaws.
  - reflexivity.
  - repeat constructor; cbn [fst]; [exists [60; 117; 110; 107; 62]%N|exists [9601]%N|exists [97]%N|exists [98]%N|exists [9601; 97]%N]; (split; [repeat constructor; left; reflexivity|vm_compute; reflexivity]).
  - cbn. auto.
  - constructor; [intros _; vm_compute; auto 6|]. constructor; [intros H; discriminate H|]. constructor; [intros _; vm_compute; auto 6|constructor].
  - rewrite W. intros w Hw. split; [|apply mt_total]. intros k v sc a z Hk Hv E. injection Hk as Hk. destruct k; [|lia]. injection Hv as <- _. 
    assert (X : In 60%N w) by (rewrite E; apply in_or_app; right; apply in_or_app; left; cbn; auto). destruct Hw as [<-|[<-|[]]]; vm_compute in X; intuition discriminate.
  - intros s id Hs Hu. apply ug_lookup in Hs as (k & sc & -> & [H _]). destruct k as [|[|[|[|[|k]]]]]; cbn in H; try (injection H as <- _). 
    + now contradiction Hu.
    + reflexivity.
    + reflexivity.
    + reflexivity.
    + reflexivity.
    + destruct k; discriminate H.
Qed.
(** BPE with the mark, "a", "b" and a merge of the mark and "a"; the text " a<tab>b". *)
Definition mt_vocab : vocab := [(mt_mark, 0); ([97]%N, 1); ([98]%N, 2); ((mt_mark ++ [97])%N, 3)].
Definition mt_merges : merge_table := match create_merges mt_vocab [(mt_mark ++ [32; 97])%N] with Ok t => t | _ => [] end.
Definition mt_bpe : bpe := Bpe mt_vocab (build_vocab_r mt_vocab) mt_merges None None None.
Definition mt_bpe_base : base_model := vocab_model mt_vocab (build_vocab_r mt_vocab).
Definition mt_bpe_tok : tokenizer :=
  Tkz no_matching no_matching None (Some (pre_tokenize u55 (PTMetaspace mt_mark (find_chars (N.eqb 9601)) Always))) (Some (always (bpe_tokenize mt_bpe))) None None None.
Lemma mt_bpe_literal : literal mt_bpe.
Proof.
  apply loaded_literal with (lines := [(mt_mark ++ [32; 97])%N]); [| |apply Permutation_refl|vm_compute; reflexivity].
  - repeat constructor; vm_compute; intuition discriminate.
  - assert (G : forall s id, vget s mt_vocab = Some id -> vrget id (build_vocab_r mt_vocab) = Some s).
    { assert (A : forallb (fun p => match vrget (snd p) (build_vocab_r mt_vocab) with Some s => str_eqb s (fst p) | None => false end) mt_vocab = true) by (vm_compute; reflexivity).
      rewrite forallb_forall in A. intros s id H. apply aget_str_in in H. specialize (A _ H). cbn [fst snd] in A. destruct (vrget id _) as [x|]; [|discriminate]. apply str_eqb_eq in A. now subst. }
    intros s s' id H H'. apply G in H. apply G in H'. congruence.
Qed.
Example C75_bpe_meets : exists e, tk_encode (isort start_key) (isort id_key) mt_bpe_tok OByte (ISingle (Raw (encode [32; 97; 9; 98]%N))) true = Ok (Some e) /\
  decode_ids mt_bpe_base mt_added (Some (decode ByNew (DMetaspace mt_mark true))) (ids e) true = Ok (encode (meta_back Always 9601 [32; 97; 9; 98]%N)).
Proof.
  apply (C75_bpe_partial (isort start_key) (isort id_key) (isort_sorts start_key) (isort_sorts id_key) mt_bpe_tok mt_bpe u55 9601%N Always mt_bpe_base mt_added true ByNew OByte [32; 97; 9; 98]%N true).
  - split; [left; reflexivity|]. split; [discriminate|]. split; [apply none_matching|]. split; [apply none_matching|]. split; [reflexivity|]. split; [reflexivity|]. split; [reflexivity|].
    split; [apply C54_bpe|]. intros set s id w Hs H. assert (X : In id (mt_ids set)).
    { apply (found_ids (isort start_key) (isort id_key) (isort_sorts start_key) (isort_sorts id_key) set s id w); [|exact H]. intros x. destruct Hs as [-> | ->]; reflexivity. }
    destruct Hs as [-> | ->]; destruct X.
  - split; [exact I|split; exact I].
  - split; [exact I|split; [reflexivity|exact I]].
  - exists [32; 97; 9; 98]%N. repeat split; repeat constructor; unfold scalar; lia.
  - repeat constructor; unfold scalar; lia.
  - discriminate.
  - constructor.
  - constructor.
  - exact mt_bpe_literal.
  - vm_compute. discriminate.
  - constructor; [intros H; discriminate H|]. constructor; [intros _; vm_compute; discriminate|]. constructor; [intros H; discriminate H|]. constructor; [intros _; vm_compute; discriminate|constructor].
  - intros s id H _. assert (A : forallb (fun p => match shown mt_bpe_base mt_added true (snd p) with Some x => str_eqb x (fst p) | None => false end) mt_vocab = true) by (vm_compute; reflexivity).
    rewrite forallb_forall in A. pose proof (aget_str_in _ _ _ H) as Hin. specialize (A _ Hin). cbn [fst snd] in A. destruct (shown mt_bpe_base mt_added true id) as [x|]; [|discriminate]. apply str_eqb_eq in A. now subst.
Qed.
(** It is none of the texts that come back, and its words are spelled. *)
Example C75_refuted_meets : ~ faithful Always 9601 [32; 97; 9; 98]%N /\
  Forall (spells_whole (always (bpe_tokenize mt_bpe)) (shown mt_bpe_base mt_added true)) (meta_words (isort start_key) (isort id_key) mt_bpe_tok Always 9601 (ISingle (Raw (encode [32; 97; 9; 98]%N)))).
Proof.
  split; [intros [_ H]; now apply H|].
  replace (meta_words _ _ _ _ _ _) with [mt_mark ++ [97]; mt_mark ++ [98]]%N by (vm_compute; reflexivity).
  assert (V : forall c, scalar c -> valid_utf8 (encode_rune c)) by (intros c Hc; exists [c]; split; [now constructor|unfold encode; cbn; now rewrite app_nil_r]).
  assert (V1 : valid_utf8 mt_mark) by (apply V; left; reflexivity). assert (Va : valid_utf8 [97]%N) by (apply (V 97%N); left; reflexivity). assert (Vb : valid_utf8 [98]%N) by (apply (V 98%N); left; reflexivity).
  repeat constructor; (eexists; split; [vm_compute; reflexivity|]); (split; [discriminate|]); (split; [reflexivity|]).
  - constructor; [|constructor]. split; [reflexivity|]. split; [discriminate|]. exact (valid_utf8_app _ _ V1 Va).
  - constructor; [|constructor; [|constructor]]; (split; [reflexivity|]); (split; [discriminate|]); assumption.
Qed.
