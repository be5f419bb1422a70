(** C84: the encoding of a text consists exactly of its added tokens and the tokens of its words. *)
From Verif Require Import Base BaseProofs Utf8Model Utf8Proofs NormalizedModel NormalizedSpec EncodingModel BpeModel BpeSaveModel WordPieceModel WordPieceSpec AddedVocabModel AddedVocabSpec AddedFindProofs AddedPatternModel AddedPatternSpec
  PreTokenizedModel PreTokenizerModel PreTokenizerSpec ProcessorModel PipelineModel PipelineSpec PipelineProofs TokensSpec ReturnSpec RoundTripSpec PretrainedModel
  BertNormSpec WordsSpec ItemsSpec ItemsProofs MaskedProofs BertItemsSpec BertItemsProofs PropByteLevel PropPipeline PropReturn PropAddedPattern PropTokens PropWords.
Open Scope Z_scope.

(** A tokenizer without a pre-tokenizer, or with one documented to cut text.  The items of the text
    are the added tokens in it and, between them, the words of its normalized parts.  The encoding
    has the tokens of the items one after another, nothing else, and the word numbers count the
    items.  Missing: pre-tokenizers that change the text, such as byte-level. *)
Theorem C84_items_partial : forall sort_start sort_id, sorts start_key sort_start -> sorts id_key sort_id ->
  forall u t cut f ty ot s e, matching_ok (tk_raw t) -> matching_ok (tk_normalized t) -> with_default normalizer_ok (tk_normalizer t) ->
  cuts_as u t cut -> tk_model t = Some f -> clean s -> encode_sequence sort_start sort_id t ty ot (Raw s) = Ok e ->
  exists its rows, text_items sort_start sort_id t cut s its /\ Forall2 (item_tokens f) its rows /\ consists_of e rows.
Proof. exact text_consists. Qed.
Print Assumptions C84_items_partial.

(** Which tokens are found: tokens in brackets, as [MASK], that stand in the text in the order in
    which they were registered are all found, and the text between them is left. *)
Theorem C84_written_partial : forall sort_start sort_id, sorts start_key sort_start -> sorts id_key sort_id ->
  forall (l : list (str * Z)) p ps, Forall (fun x => bracketed (fst x)) l -> NoDup (map fst l) -> in_order l ps ->
  Forall (free_of (map fst l)) (p :: map snd ps) -> written p ps <> [] ->
  cut_added sort_start sort_id (re_matching (map (fun x => (TRe false false (fst x) false false, snd x)) l)) (written p ps) = written_items p ps.
Proof. exact cut_written. Qed.
Print Assumptions C84_written_partial.

(** BERT, cased or not.  A text with [MASK] tokens in it, behind them [SEP] tokens and behind them
    [CLS] tokens, becomes the ids of the words of its parts with the ids of the tokens between them.
    Each word becomes its longest pieces, or [UNK]. *)
Theorem C84_bert_partial : forall sort_start sort_id, sorts start_key sort_start -> sorts id_key sort_id ->
  forall v order cls sep mask, NoDup (map snd v) -> vget UNK v <> None -> vget CLS v = Some cls -> vget SEP v = Some sep -> vget MASK v = Some mask ->
  forall u is_word cc mn lower uncased ot p ps add, ot <> OInvalid -> written p ps <> [] ->
  in_order [(MASK, mask); (SEP, sep); (CLS, cls)] ps ->
  Forall (fun s => clean s /\ free_of [MASK; SEP; CLS] s /\ bert_reads cc mn lower true uncased true s) (p :: map snd ps) ->
  exists r e l, bert u is_word cc mn lower (wp_from_file v order) uncased = Ok r /\
    tk_encode sort_start sort_id (rd_tok r) ot (ISingle (Raw (written p ps))) add = Ok (Some e) /\
    special_ids u mn lower uncased v p ps l /\ ids e = in_frame add cls sep l.
Proof.
  intros ss si HS HI v order c s k Ni Eu Ec Es Ek u is_word cc mn lower uncased ot p ps add Hot Ne O F. set (wp := wp_from_file v order).
  apply (bert_written ss si HS HI v order u is_word cc mn lower uncased c s k Ni Ec Es Ek (C54_wordpiece wp) (C71_wordpiece wp Eu) (C54_pre_tokenizers u PTBert I) (C71_pre_tokenizers u PTBert I) p ps ot add Ne Hot O);
    (eapply Forall_impl; [|exact F]); cbn; intros x (H1 & H2 & H3); assumption.
Qed.
Print Assumptions C84_bert_partial.

(** Two texts. *)
Theorem C84_bert_pair_partial : forall sort_start sort_id, sorts start_key sort_start -> sorts id_key sort_id ->
  forall v order cls sep mask, NoDup (map snd v) -> vget UNK v <> None -> vget CLS v = Some cls -> vget SEP v = Some sep -> vget MASK v = Some mask ->
  forall u is_word cc mn lower uncased ot p ps q qs add, ot <> OInvalid -> written p ps <> [] -> written q qs <> [] ->
  in_order [(MASK, mask); (SEP, sep); (CLS, cls)] ps -> in_order [(MASK, mask); (SEP, sep); (CLS, cls)] qs ->
  Forall (fun s => clean s /\ free_of [MASK; SEP; CLS] s /\ bert_reads cc mn lower true uncased true s) (p :: map snd ps ++ q :: map snd qs) ->
  exists r e l k, bert u is_word cc mn lower (wp_from_file v order) uncased = Ok r /\
    tk_encode sort_start sort_id (rd_tok r) ot (IDual (Raw (written p ps)) (Raw (written q qs))) add = Ok (Some e) /\
    special_ids u mn lower uncased v p ps l /\ special_ids u mn lower uncased v q qs k /\ ids e = in_pair_frame add cls sep l k.
Proof.
  intros ss si HS HI v order c s k Ni Eu Ec Es Ek u is_word cc mn lower uncased ot p ps q qs add Hot Ne Ne' O O' F. set (wp := wp_from_file v order).
  apply (bert_written_pair ss si HS HI v order u is_word cc mn lower uncased c s k Ni Ec Es Ek (C54_wordpiece wp) (C71_wordpiece wp Eu) (C54_pre_tokenizers u PTBert I) (C71_pre_tokenizers u PTBert I) p ps q qs ot add Hot Ne O Ne' O');
    (eapply Forall_impl; [|exact F]); cbn; intros x (H1 & H2 & H3); assumption.
Qed.
Print Assumptions C84_bert_pair_partial.

(** In another order tokens are lost: of a [CLS] and a [SEP] behind it only the [SEP] is found.
    What stands in front of it, with the [CLS], is cut into words, and the id of [CLS] is not
    among theirs. *)
Theorem C84_cls_refuted : forall sort_start sort_id, sorts start_key sort_start -> sorts id_key sort_id ->
  forall v order cls sep mask, NoDup (map snd v) -> vget UNK v <> None -> vget CLS v = Some cls -> vget SEP v = Some sep -> vget MASK v = Some mask ->
  forall u is_word cc mn lower uncased ot a b z add, ot <> OInvalid ->
  Forall (fun s => clean s /\ free_of [MASK; SEP; CLS] s) [a; b; z] -> Forall (bert_reads cc mn lower true uncased true) [a ++ CLS ++ b; z] ->
  exists r e l, bert u is_word cc mn lower (wp_from_file v order) uncased = Ok r /\
    tk_encode sort_start sort_id (rd_tok r) ot (ISingle (Raw (a ++ CLS ++ b ++ SEP ++ z))) add = Ok (Some e) /\
    special_ids u mn lower uncased v (a ++ CLS ++ b) [((SEP, sep), z)] l /\ ids e = in_frame add cls sep l /\ ~ In cls l.
Proof.
  intros ss si HS HI v order c s k Ni Eu Ec Es Ek u is_word cc mn lower uncased ot p q z add Hot F B. set (wp := wp_from_file v order).
  apply (bert_swallows ss si HS HI v order u is_word cc mn lower uncased c s k Ni Ec Es Ek (C54_wordpiece wp) (C71_wordpiece wp Eu) (C54_pre_tokenizers u PTBert I) (C71_pre_tokenizers u PTBert I) p q z ot add Hot); auto;
    (eapply Forall_impl; [|exact F]); cbn; intros x (H1 & H2); assumption.
Qed.
Print Assumptions C84_cls_refuted.

(** [ab [M]c d]: the words of the text and the token. *)
Example C84_items_meets : let t := ex57 (Some (pre_tokenize ex_uni PTBert)) in
  cuts_as ex_uni t (bert_pieces ex_uni) /\ tk_model t = Some (always ex_words) /\ with_default normalizer_ok (tk_normalizer t) /\
  (exists n m, wf n /\ untouched n /\ ns_norm n = [97; 98; 32]%N /\ apply_normalizer (tk_normalizer t) n = Ok m /\
     match ns_norm m with [] => [] | y => flat_map (cut_item (bert_pieces ex_uni)) (cut_added (isort start_key) (isort id_key) (tk_normalized t) y) end = [(None, [97; 98]%N)]) /\
  item_tokens (always ex_words) (None, [97; 98]%N) [(1, [97; 98]%N)] /\ item_tokens (always ex_words) (Some 7, mark) [(7, mark)] /\
  match encode_sequence (isort start_key) (isort id_key) t 0 OByte (Raw ([97; 98; 32] ++ mark ++ [99; 32; 99])%N) with Ok e => (ids e, tokens e, words e) = ([1; 7; 2; 2], [[97; 98]; mark; [99]; [99]]%N, [0; 1; 2; 3]) | _ => False end.
Proof.
  split; [exists PTBert; split; reflexivity|]. split; [reflexivity|]. split; [exact I|]. split.
  - exists (new_ns [97; 98; 32]%N), (new_ns [97; 98; 32]%N). assert (C : clean [97; 98; 32]%N) by (exists [97; 98; 32]%N; split; [repeat (constructor; [left; reflexivity|]); constructor|]; split; [repeat (constructor; [discriminate|]); constructor|reflexivity]). destruct (new_in_place _ C) as (W & _). split; [exact W|]. split; [exists [97; 98; 32]%N; split; [repeat (constructor; [left; reflexivity|]); constructor|]; repeat split|]. split; [reflexivity|]. split; [reflexivity|]. vm_compute. reflexivity.
  - split; [|split; [reflexivity|vm_compute; reflexivity]]. exists [Tok 1 [97; 98]%N (0, 2)]. split; [discriminate|]. split; vm_compute; reflexivity.
Qed.
(** [a[MASK] b[SEP]]. *)
Definition it_parts : list (str * Z * str) := [((MASK, 3), [32; 98]%N); ((SEP, 2), [])].
Definition it_vocab : vocab := [(UNK, 0); (CLS, 1); (SEP, 2); (MASK, 3); ([97]%N, 4); ([35; 35; 98]%N, 5); ([91]%N, 6); ([93]%N, 7); ([98]%N, 8)].
Definition it_ids (uncased : bool) (s : str) (add : bool) : option (list Z) :=
  match bert u55 (fun _ => false) (fun _ => false) (fun _ => false) (fun s => s) (wp_from_file it_vocab it_vocab) uncased with
  | Ok r => match tk_encode (isort start_key) (isort id_key) (rd_tok r) OByte (ISingle (Raw s)) add with Ok (Some e) => Some (ids e) | _ => None end
  | _ => None
  end.
Lemma it_clean s : encode s = s -> Forall (fun c => (0 < c < 128)%N) s -> clean s.
Proof. intros E F. exists s. split; [eapply Forall_impl; [|exact F]; intros c H; left; cbn in H; lia|]. split; [eapply Forall_impl; [|exact F]; intros c H; cbn in H; lia|now symmetry]. Qed.
Lemma it_reads s : runes s = s -> encode s = s -> Forall (fun c => (0 < c < 128)%N) s -> next_is chinese s = false -> encode (spaced s) = s -> bert_reads (fun _ => false) (fun _ => false) (fun s => s) true true true s.
Proof.
  intros H1 H2 H3 H4 H5. unfold bert_reads. rewrite H1, H5. split.
  - eapply Forall_impl; [|exact H3]. intros c H. cbn in H. unfold dropped, extension_a. split; [|intros _]; lia.
  - split; [now apply it_clean|]. split; [reflexivity|]. intros _. split; [now intros _|]. unfold next_is. destruct (runes s); reflexivity.
Qed.
Example C84_bert_meets : NoDup (map snd it_vocab) /\ in_order [(MASK, 3); (SEP, 2); (CLS, 1)] it_parts /\
  Forall (fun s => clean s /\ free_of [MASK; SEP; CLS] s /\ bert_reads (fun _ => false) (fun _ => false) (fun s => s) true true true s) ([97; 98]%N :: map snd it_parts) /\
  it_ids true (written [97; 98]%N it_parts) true = Some [1; 4; 5; 3; 8; 2; 2] /\ it_ids false (written [97; 98]%N it_parts) false = Some [4; 5; 3; 8; 2].
Proof.
  split; [repeat constructor; cbn; intros H; repeat (destruct H as [H|H]; [discriminate H|]); destruct H|].
  split; [exists [1; 1; 0]%nat; split; reflexivity|]. split; [|split; vm_compute; reflexivity].
  assert (Fr : forall s, ~ In 91%N s -> free_of [MASK; SEP; CLS] s) by (intros s H t a z Ht ->; apply H; apply in_or_app; right; apply in_or_app; left; destruct Ht as [<-|[<-|[<-|[]]]]; now left).
  assert (K : forall s, runes s = s -> encode s = s -> Forall (fun c => (0 < c < 128)%N) s -> next_is chinese s = false -> encode (spaced s) = s -> ~ In 91%N s ->
    clean s /\ free_of [MASK; SEP; CLS] s /\ bert_reads (fun _ => false) (fun _ => false) (fun s => s) true true true s) by (intros s H1 H2 H3 H4 H5 H6; split; [now apply it_clean|]; split; [now apply Fr|now apply it_reads]).
  repeat constructor; apply K; try reflexivity; try (cbn; intros H; repeat (destruct H as [H|H]; [discriminate H|]); destruct H); repeat constructor.
Qed.
Example C84_pair_example : match bert u55 (fun _ => false) (fun _ => false) (fun _ => false) (fun s => s) (wp_from_file it_vocab it_vocab) true with
  | Ok r => match tk_encode (isort start_key) (isort id_key) (rd_tok r) OByte (IDual (Raw (written [97; 98]%N it_parts)) (Raw (written [] it_parts))) true with Ok (Some e) => Some (ids e) | _ => None end
  | _ => None
  end = Some [1; 4; 5; 3; 8; 2; 2; 3; 8; 2; 2].
Proof. vm_compute. reflexivity. Qed.
(** [[CLS]ab[SEP]]: the token comes out as a bracket, an unknown word and a bracket. *)
Example C84_cls_meets : Forall (bert_reads (fun _ => false) (fun _ => false) (fun s => s) true true true) [[] ++ CLS ++ [97; 98]%N; []] /\
  it_ids true ([] ++ CLS ++ [97; 98]%N ++ SEP ++ []) false = Some [6; 0; 7; 4; 5; 2].
Proof.
  split; [|vm_compute; reflexivity]. repeat constructor; apply it_reads; try reflexivity; repeat constructor.
Qed.
