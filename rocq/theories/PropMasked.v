(** C74: cased BERT decodes texts with special tokens in them to the words of their parts. *)
From Verif Require Import Base BaseProofs Utf8Model Utf8Proofs EncodingModel BpeModel BpeSaveModel WordPieceModel WordPieceSpec AddedVocabModel AddedVocabSpec AddedFindProofs
  PreTokenizedModel PreTokenizerModel PreTokenizerSpec ProcessorModel PipelineModel PipelineSpec ReturnSpec RoundTripSpec PretrainedModel
  BertNormSpec WordsSpec ItemsSpec BertMaskedProofs PropByteLevel PropPipeline PropReturn PropItems.
Open Scope Z_scope.

(** A text with [MASK] tokens in it, behind them [SEP] tokens and behind them [CLS] tokens.  The
    tokens are not shown, the words of the parts come back as in C74_bert_partial. *)
Theorem C74_special_partial : forall sort_start sort_id, sorts start_key sort_start -> sorts id_key sort_id ->
  forall v order cls sep mask, NoDup (map fst v) -> NoDup (map snd v) -> Permutation order v ->
  vget UNK v <> None -> vget CLS v = Some cls -> vget SEP v = Some sep -> vget MASK v = Some mask ->
  forall u is_word cc mn lower ot p ps add, ot <> OInvalid -> written p ps <> [] -> in_order [(MASK, mask); (SEP, sep); (CLS, cls)] ps ->
  Forall (fun s => clean s /\ free_of [MASK; SEP; CLS] s /\ bert_reads cc mn lower true false true s) (p :: map snd ps) ->
  exists r e xs, bert u is_word cc mn lower (wp_from_file v order) false = Ok r /\ tk_encode sort_start sort_id (rd_tok r) ot (ISingle (Raw (written p ps))) add = Ok (Some e) /\
    Forall2 (bert_sees v) (flat_map (fun s => bert_words u (bert_text true false true mn lower (runes s))) (p :: map snd ps)) xs /\ rd_decode r (ids e) true = Ok (tidy xs).
Proof.
  intros ss si HS HI v order c s k Nk Ni P Eu Ec Es Ek u is_word cc mn lower ot p ps add Hot Ne O F. set (wp := wp_from_file v order).
  apply (masked_decodes ss si HS HI v order u is_word cc mn lower c s k Nk Ni P Ec Es Ek (C54_wordpiece wp) (C71_wordpiece wp Eu) (C54_pre_tokenizers u PTBert I) (C71_pre_tokenizers u PTBert I) p ps ot add Hot Ne O);
    (eapply Forall_impl; [|exact F]); cbn; intros x (H1 & H2 & H3); assumption.
Qed.
Print Assumptions C74_special_partial.

(** Two such texts. *)
Theorem C74_special_pair_partial : forall sort_start sort_id, sorts start_key sort_start -> sorts id_key sort_id ->
  forall v order cls sep mask, NoDup (map fst v) -> NoDup (map snd v) -> Permutation order v ->
  vget UNK v <> None -> vget CLS v = Some cls -> vget SEP v = Some sep -> vget MASK v = Some mask ->
  forall u is_word cc mn lower ot p ps q qs add, ot <> OInvalid -> written p ps <> [] -> in_order [(MASK, mask); (SEP, sep); (CLS, cls)] ps ->
  written q qs <> [] -> in_order [(MASK, mask); (SEP, sep); (CLS, cls)] qs ->
  Forall (fun s => clean s /\ free_of [MASK; SEP; CLS] s /\ bert_reads cc mn lower true false true s) (p :: map snd ps ++ q :: map snd qs) ->
  exists r e xs, bert u is_word cc mn lower (wp_from_file v order) false = Ok r /\ tk_encode sort_start sort_id (rd_tok r) ot (IDual (Raw (written p ps)) (Raw (written q qs))) add = Ok (Some e) /\
    Forall2 (bert_sees v) (flat_map (fun s => bert_words u (bert_text true false true mn lower (runes s))) (p :: map snd ps ++ q :: map snd qs)) xs /\ rd_decode r (ids e) true = Ok (tidy xs).
Proof.
  intros ss si HS HI v order c s k Nk Ni P Eu Ec Es Ek u is_word cc mn lower ot p ps q qs add Hot Ne O Ne' O' F. set (wp := wp_from_file v order).
  apply (masked_pair_decodes ss si HS HI v order u is_word cc mn lower c s k Nk Ni P Ec Es Ek (C54_wordpiece wp) (C71_wordpiece wp Eu) (C54_pre_tokenizers u PTBert I) (C71_pre_tokenizers u PTBert I) p ps q qs ot add Hot Ne O Ne' O');
    (eapply Forall_impl; [|exact F]); cbn; intros x (H1 & H2 & H3); assumption.
Qed.
Print Assumptions C74_special_pair_partial.

(** [ab[MASK] b[SEP]] and [ab[MASK]c]: the hypotheses are those of C84_bert_meets. *)
Example C74_special_meets : NoDup (map fst it_vocab) /\
  match bert u55 (fun _ => false) (fun _ => false) (fun _ => false) (fun s => s) (wp_from_file it_vocab it_vocab) false with
  | Ok r => match tk_encode (isort start_key) (isort id_key) (rd_tok r) OByte (IDual (Raw (written [97; 98]%N it_parts)) (Raw (written [97; 98]%N [((MASK, 3), [99]%N)]))) true with
            | Ok (Some e) => Some (ids e, rd_decode r (ids e) true) | _ => None end
  | _ => None
  end = Some ([1; 4; 5; 3; 8; 2; 2; 4; 5; 3; 0; 2], Ok [97; 98; 32; 98; 32; 97; 98; 32; 91; 85; 78; 75; 93]%N).
Proof. split; [repeat constructor; cbn; intros H; repeat (destruct H as [H|H]; [discriminate H|]); destruct H|vm_compute; reflexivity]. Qed.
