(** C74: what cased BERT decodes to when special tokens are not skipped. *)
From Verif Require Import Base BaseProofs Utf8Model Utf8Proofs EncodingModel BpeModel BpeSaveModel WordPieceModel WordPieceSpec AddedVocabModel AddedVocabSpec AddedFindProofs
  PreTokenizedModel PreTokenizerModel PreTokenizerSpec ProcessorModel PipelineModel PipelineSpec ReturnSpec RoundTripSpec PretrainedModel
  BertNormSpec WordsSpec ItemsSpec BertKeptSpec BertKeptProofs PropByteLevel PropPipeline PropReturn PropItems.
Open Scope Z_scope.

(** The texts of C74_special_partial, when special tokens are not skipped: those of the text are
    among the words at their places, those that were added are around them. *)
Theorem C74_kept_partial : forall sort_start sort_id, sorts start_key sort_start -> sorts id_key sort_id ->
  forall v order cls sep mask, NoDup (map fst v) -> NoDup (map snd v) -> Permutation order v ->
  vget UNK v <> None -> vget CLS v = Some cls -> vget SEP v = Some sep -> vget MASK v = Some mask ->
  forall u is_word cc mn lower ot p ps add, ot <> OInvalid -> written p ps <> [] -> in_order [(MASK, mask); (SEP, sep); (CLS, cls)] ps ->
  Forall (fun s => clean s /\ free_of [MASK; SEP; CLS] s /\ bert_reads cc mn lower true false true s) (p :: map snd ps) ->
  exists r e xs, bert u is_word cc mn lower (wp_from_file v order) false = Ok r /\ tk_encode sort_start sort_id (rd_tok r) ot (ISingle (Raw (written p ps))) add = Ok (Some e) /\
    Forall2 (fun w x => bert_sees v w x /\ (In w [MASK; SEP; CLS] -> x = w))
      (words_in_frame add (with_specials (fun s => bert_words u (bert_text true false true mn lower (runes s))) p ps)) xs /\
    rd_decode r (ids e) false = Ok (tidy xs).
Proof.
  intros ss si HS HI v order c s k Nk Ni P Eu Ec Es Ek u is_word cc mn lower ot p ps add Hot Ne O F. set (wp := wp_from_file v order).
  apply (kept_decodes ss si HS HI v order u is_word cc mn lower c s k Nk Ni P Ec Es Ek (C54_wordpiece wp) (C71_wordpiece wp Eu) (C54_pre_tokenizers u PTBert I) (C71_pre_tokenizers u PTBert I) p ps ot add Hot Ne O);
    (eapply Forall_impl; [|exact F]); cbn; intros x (H1 & H2 & H3); assumption.
Qed.
Print Assumptions C74_kept_partial.

(** Two such texts. *)
Theorem C74_kept_pair_partial : forall sort_start sort_id, sorts start_key sort_start -> sorts id_key sort_id ->
  forall v order cls sep mask, NoDup (map fst v) -> NoDup (map snd v) -> Permutation order v ->
  vget UNK v <> None -> vget CLS v = Some cls -> vget SEP v = Some sep -> vget MASK v = Some mask ->
  forall u is_word cc mn lower ot p ps q qs add, ot <> OInvalid -> written p ps <> [] -> in_order [(MASK, mask); (SEP, sep); (CLS, cls)] ps ->
  written q qs <> [] -> in_order [(MASK, mask); (SEP, sep); (CLS, cls)] qs ->
  Forall (fun s => clean s /\ free_of [MASK; SEP; CLS] s /\ bert_reads cc mn lower true false true s) (p :: map snd ps ++ q :: map snd qs) ->
  exists r e xs, bert u is_word cc mn lower (wp_from_file v order) false = Ok r /\ tk_encode sort_start sort_id (rd_tok r) ot (IDual (Raw (written p ps)) (Raw (written q qs))) add = Ok (Some e) /\
    Forall2 (fun w x => bert_sees v w x /\ (In w [MASK; SEP; CLS] -> x = w))
      (words_in_pair_frame add (with_specials (fun s => bert_words u (bert_text true false true mn lower (runes s))) p ps)
         (with_specials (fun s => bert_words u (bert_text true false true mn lower (runes s))) q qs)) xs /\
    rd_decode r (ids e) false = Ok (tidy xs).
Proof.
  intros ss si HS HI v order c s k Nk Ni P Eu Ec Es Ek u is_word cc mn lower ot p ps q qs add Hot Ne O Ne' O' F. set (wp := wp_from_file v order).
  apply (kept_pair_decodes ss si HS HI v order u is_word cc mn lower c s k Nk Ni P Ec Es Ek (C54_wordpiece wp) (C71_wordpiece wp Eu) (C54_pre_tokenizers u PTBert I) (C71_pre_tokenizers u PTBert I) p ps q qs ot add Hot Ne O Ne' O');
    (eapply Forall_impl; [|exact F]); cbn; intros x (H1 & H2 & H3); assumption.
Qed.
Print Assumptions C74_kept_pair_partial.

(** The texts of C74_special_meets, hypotheses as in C84_bert_meets: [[CLS] ab [MASK] b [SEP] [SEP] ab [MASK] [UNK] [SEP]]. *)
Example C74_kept_meets : 
  match bert u55 (fun _ => false) (fun _ => false) (fun _ => false) (fun s => s) (wp_from_file it_vocab it_vocab) false with
  | Ok r => match tk_encode (isort start_key) (isort id_key) (rd_tok r) OByte (IDual (Raw (written [97; 98]%N it_parts)) (Raw (written [97; 98]%N [((MASK, 3), [99]%N)]))) true with
            | Ok (Some e) => Some (rd_decode r (ids e) false) | _ => None end
  | _ => None
  end = Some (Ok (CLS ++ [32; 97; 98; 32]%N ++ MASK ++ [32; 98; 32]%N ++ SEP ++ 32%N :: SEP ++ [32; 97; 98; 32]%N ++ MASK ++ 32%N :: UNK ++ 32%N :: SEP)).
Proof. vm_compute. reflexivity. Qed.
