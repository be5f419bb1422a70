(** The special tokens of RoBERTa written in a text (C73). *)
From Coq Require Import String QArith.
From Verif Require Import Base BaseProofs Utf8Model Utf8Proofs NormalizedModel NormalizedSpec EncodingModel BpeModel BpeTokProofs BpeSaveModel AddedVocabModel AddedVocabSpec AddedVocabProofs DecoderModel PreTokenizedModel PreTokenizerModel PreTokenizerSpec ProcessorModel PipelineModel PipelineSpec PipelineProofs TokensSpec ReturnSpec
  RoundTripSpec RoundTripBpeProofs RoundTripEndProofs RoundTripProofs AddedPatternModel AddedPatternSpec AddedPatternProofs PretrainedModel PretrainedSpec PretrainedProofs ConfigModel ItemsSpec WrittenProofs OrderSpec OrderProofs.
Open Scope Z_scope.
Open Scope list_scope.

Lemma spaced_parts prefix l : concat (map (PreTokenizerSpec.spaced prefix) (filter (fun s => match s with [] => false | _ => true end) l)) = concat (map (PreTokenizerSpec.spaced prefix) l).
Proof. induction l as [|[|c s] l IH]; [reflexivity|exact IH|]. cbn [filter map concat]. now rewrite IH. Qed.

Section Ready.
  Variable ss si : list io_pair -> list io_pair.
  Hypothesis HS : sorts start_key ss.
  Hypothesis HI : sorts id_key si.
  Variables (v order : vocab) (file : str) (b : bpe).
  Hypothesis BV : byte_vocab v.
  Hypothesis P : Permutation order v.
  Hypothesis Fb : bpe_from_files v order file = Ok b.
  Hypothesis Mo : model_ok (bpe_model b).
  Variables (u : unicode) (prefix : bool).
  Hypothesis U : prefix = true -> un_letter u 32 = false /\ un_number u 32 = false.
  Hypothesis B0 : vget BOS v = Some 0.
  Hypothesis B2 : vget EOS v = Some 2.
  Hypothesis M0 : ~ makes b BOS.
  Hypothesis M2 : ~ makes b EOS.

  Lemma roberta_between is_word ot x ps add : clean_inputs x -> ot <> OInvalid ->
    (forall t, tk_raw t = re_matching (map (fun y => (TRe false false (fst y) false false, snd y)) [(BOS, 0); (EOS, 2)]) -> flat_map (raw_parts ss si t) (encode_texts x) = filter (fun s => match s with [] => false | _ => true end) ps) ->
    exists r e ks, roberta u is_word b prefix = Ok r /\ tk_encode ss si (rd_tok r) ot x add = Ok (Some e) /\ shown_all (rd_model r) (rd_added r) true (ids e) = map bl_render ks /\
      concat ks = concat (map (PreTokenizerSpec.spaced prefix) ps) /\ valid_utf8 (concat ks) /\ rd_decode r (ids e) true = Ok (gpt_text ks).
  Proof.
    intros C Hot W0. destruct (roberta_parts ss si HS HI v order file b BV P Fb Mo u prefix U B0 B2 M0 M2 is_word) as (r & Er & R1 & R2 & K).
    destruct (K ot x add C Hot) as (e & ks & E & Ks & T & Vd & D). exists r, e, ks. split; [exact Er|]. split; [exact E|]. split; [exact Ks|]. split; [|split; [exact Vd|exact D]].
    assert (N : forall s, Forall (fun w => w <> []) (raw_parts ss si (rd_tok r) s) -> kept ss si (rd_tok r) prefix s = concat (map (PreTokenizerSpec.spaced prefix) (raw_parts ss si (rd_tok r) s))).
    { intros s H. unfold kept, seen_text. now rewrite (plain_raw ss si (rd_tok r) s HS HI R2 H). }
    pose proof (W0 (rd_tok r) R1) as W'.
    rewrite T, <- spaced_parts, <- W'. assert (A : Forall (fun w => w <> []) (flat_map (raw_parts ss si (rd_tok r)) (encode_texts x))).
    { rewrite W'. apply Forall_forall. intros w Hw. apply filter_In in Hw as [_ Hw]. destruct w; [discriminate|congruence]. }
    clear -A N. induction (encode_texts x) as [|s l IH]; [reflexivity|]. cbn [flat_map] in A. apply Forall_app in A as [A1 A2]. cbn [map concat flat_map]. rewrite map_app, concat_app, (IH A2), (N s A1). reflexivity.
  Qed.
  Let ad := [TC 0 BOS false false false false true; TC 2 EOS false false false false true].
  Lemma roberta_ad : NoDup (map tc_content ad) /\ Forall (fun k => enclosed 60 62 (tc_content k)) ad.
  Proof.
    split.
    - repeat (constructor; [cbn; intuition discriminate|]). constructor.
    - apply Forall_cons; [exists [115]%N; split; [reflexivity|split; cbn; intuition discriminate]|]. apply Forall_cons; [exists [47; 115]%N; split; [reflexivity|split; cbn; intuition discriminate]|apply Forall_nil].
  Qed.
  Lemma roberta_found is_word ot x qs rs add : clean_inputs x -> ot <> OInvalid -> encode_texts x = map (fun q => written (fst q) (snd q)) qs ->
    Forall2 (found_in [(BOS, 0); (EOS, 2)]) qs rs ->
    exists r e ks, roberta u is_word b prefix = Ok r /\ tk_encode ss si (rd_tok r) ot x add = Ok (Some e) /\ shown_all (rd_model r) (rd_added r) true (ids e) = map bl_render ks /\
      concat ks = concat (map (PreTokenizerSpec.spaced prefix) (flat_map between rs)) /\ valid_utf8 (concat ks) /\ rd_decode r (ids e) true = Ok (gpt_text ks).
  Proof.
    intros C Hot Eq F. apply (roberta_between is_word ot x _ add C Hot). intros t R1. rewrite Eq. destruct roberta_ad as [Nd Enc].
    exact (parts_found ss si 60%N 62%N t ad [(BOS, 0); (EOS, 2)] qs rs HS HI ltac:(discriminate) R1 eq_refl Nd Enc F).
  Qed.
  Lemma roberta_written is_word ot x qs add : clean_inputs x -> ot <> OInvalid -> encode_texts x = map (fun q => written (fst q) (snd q)) qs ->
    Forall (fun q => in_order [(BOS, 0); (EOS, 2)] (snd q)) qs -> Forall (free_of [BOS; EOS]) (flat_map between qs) ->
    exists r e ks, roberta u is_word b prefix = Ok r /\ tk_encode ss si (rd_tok r) ot x add = Ok (Some e) /\ shown_all (rd_model r) (rd_added r) true (ids e) = map bl_render ks /\
      concat ks = concat (map (PreTokenizerSpec.spaced prefix) (flat_map between qs)) /\ valid_utf8 (concat ks) /\ rd_decode r (ids e) true = Ok (gpt_text ks).
  Proof.
    intros C Hot Eq O F. apply (roberta_between is_word ot x _ add C Hot). intros t R1. rewrite Eq. destruct roberta_ad as [Nd Enc].
    exact (parts_written ss si 60%N 62%N t ad [(BOS, 0); (EOS, 2)] qs HS HI ltac:(discriminate) R1 eq_refl Nd Enc O F).
  Qed.
End Ready.
