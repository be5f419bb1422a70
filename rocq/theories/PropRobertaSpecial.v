(** C73: special tokens written in the texts that RoBERTa encodes. *)
From Verif Require Import Base BaseProofs Utf8Model Utf8Proofs EncodingModel BpeModel BpeTokProofs BpeSaveModel AddedVocabModel AddedVocabSpec AddedFindProofs DecoderModel
  PreTokenizerModel PreTokenizerSpec ProcessorModel PipelineModel PipelineSpec PipelineProofs TokensSpec PreTokenizedModel ReturnSpec WordPieceModel PropByteLevel PropPipeline
  RoundTripSpec RoundTripBpeProofs RoundTripEndProofs RoundTripProofs PretrainedModel PretrainedSpec PretrainedProofs ItemsSpec OrderSpec RobertaPartsProofs PropPretrained.
Open Scope Z_scope.
Open Scope list_scope.

(** Texts with "<s>" and "</s>" in them, each "<s>" in front of each "</s>": both are gone, and the
    decoded text is that of what stands between them, with a space in front of each part if the
    setting asks for one. *)
Theorem C73_roberta_special_partial : forall sort_start sort_id, sorts start_key sort_start -> sorts id_key sort_id ->
  forall v order file b, byte_vocab v -> Permutation order v -> bpe_from_files v order file = Ok b ->
  vget BOS v = Some 0 -> vget EOS v = Some 2 -> ~ makes b BOS -> ~ makes b EOS ->
  forall u prefix is_word, (prefix = true -> un_letter u 32 = false /\ un_number u 32 = false) ->
  forall ot x qs add, clean_inputs x -> ot <> OInvalid -> encode_texts x = map (fun q => written (fst q) (snd q)) qs ->
  Forall (fun q => in_order [(BOS, 0); (EOS, 2)] (snd q)) qs -> Forall (free_of [BOS; EOS]) (flat_map between qs) ->
  exists r e ks, roberta u is_word b prefix = Ok r /\ tk_encode sort_start sort_id (rd_tok r) ot x add = Ok (Some e) /\
    shown_all (rd_model r) (rd_added r) true (ids e) = map bl_render ks /\
    concat ks = concat (map (spaced prefix) (flat_map between qs)) /\
    rd_decode r (ids e) true = Ok (gpt_text ks) /\
    (gpt_text ks = concat ks <-> Forall printable (concat ks) /\ ~ In 32%N (last ks [])).
Proof.
  intros ss si HS HI v order file b BV P Fb B0 B2 M0 M2 u prefix is_word U ot x qs add C Hot Eq O F.
  destruct (roberta_written ss si HS HI v order file b BV P Fb (C54_bpe b) u prefix U B0 B2 M0 M2 is_word ot x qs add C Hot Eq O F) as (r & e & ks & Er & E & K & T & V & D).
  exists r, e, ks. split; [exact Er|]. split; [exact E|]. split; [exact K|]. split; [exact T|]. split; [exact D|]. exact (restored_iff ks V).
Qed.
Print Assumptions C73_roberta_special_partial.

(** Texts with "<s>" and "</s>" in them once at most, in any order: the decoded text is that of what
    stands between those that are found. *)
Theorem C73_roberta_order_partial : forall sort_start sort_id, sorts start_key sort_start -> sorts id_key sort_id ->
  forall v order file b, byte_vocab v -> Permutation order v -> bpe_from_files v order file = Ok b ->
  vget BOS v = Some 0 -> vget EOS v = Some 2 -> ~ makes b BOS -> ~ makes b EOS ->
  forall u prefix is_word, (prefix = true -> un_letter u 32 = false /\ un_number u 32 = false) ->
  forall ot x qs rs add, clean_inputs x -> ot <> OInvalid -> encode_texts x = map (fun q => written (fst q) (snd q)) qs ->
  Forall2 (found_in [(BOS, 0); (EOS, 2)]) qs rs ->
  exists r e ks, roberta u is_word b prefix = Ok r /\ tk_encode sort_start sort_id (rd_tok r) ot x add = Ok (Some e) /\
    shown_all (rd_model r) (rd_added r) true (ids e) = map bl_render ks /\
    concat ks = concat (map (spaced prefix) (flat_map between rs)) /\
    rd_decode r (ids e) true = Ok (gpt_text ks) /\
    (gpt_text ks = concat ks <-> Forall printable (concat ks) /\ ~ In 32%N (last ks [])).
Proof.
  intros ss si HS HI v order file b BV P Fb B0 B2 M0 M2 u prefix is_word U ot x qs rs add C Hot Eq F.
  destruct (roberta_found ss si HS HI v order file b BV P Fb (C54_bpe b) u prefix U B0 B2 M0 M2 is_word ot x qs rs add C Hot Eq F) as (r & e & ks & Er & E & K & T & V & D).
  exists r, e, ks. split; [exact Er|]. split; [exact E|]. split; [exact K|]. split; [exact T|]. split; [exact D|]. exact (restored_iff ks V).
Qed.
Print Assumptions C73_roberta_order_partial.

(** So a "</s>" in front of a "<s>" is not found: it stays in the decoded text. *)
Theorem C73_roberta_order_refuted : forall sort_start sort_id, sorts start_key sort_start -> sorts id_key sort_id ->
  forall v order file b, byte_vocab v -> Permutation order v -> bpe_from_files v order file = Ok b ->
  vget BOS v = Some 0 -> vget EOS v = Some 2 -> ~ makes b BOS -> ~ makes b EOS ->
  forall u prefix is_word, (prefix = true -> un_letter u 32 = false /\ un_number u 32 = false) ->
  forall ot p q s add, clean (p ++ EOS ++ q ++ BOS ++ s) -> ot <> OInvalid -> Forall (free_of [BOS; EOS]) [p; q; s] ->
  exists r e ks, roberta u is_word b prefix = Ok r /\ tk_encode sort_start sort_id (rd_tok r) ot (ISingle (Raw (p ++ EOS ++ q ++ BOS ++ s))) add = Ok (Some e) /\
    shown_all (rd_model r) (rd_added r) true (ids e) = map bl_render ks /\
    concat ks = spaced prefix (p ++ EOS ++ q) ++ spaced prefix s /\
    rd_decode r (ids e) true = Ok (gpt_text ks).
Proof.
  intros ss si HS HI v order file b BV P Fb B0 B2 M0 M2 u prefix is_word U ot p q s add C Hot F. set (x := ISingle (Raw (p ++ EOS ++ q ++ BOS ++ s))).
  destruct (C73_roberta_order_partial ss si HS HI v order file b BV P Fb B0 B2 M0 M2 u prefix is_word U ot x [(p, [(EOS, 2, q); (BOS, 0, s)])] [(p ++ EOS ++ q, [(BOS, 0, s)])] add) as (r & e & ks & Er & E & K & T & D & _).
  - exact C.
  - exact Hot.
  - change ([p ++ EOS ++ q ++ BOS ++ s] = [p ++ (EOS ++ q) ++ (BOS ++ s) ++ []]). now rewrite app_nil_r, <- !app_assoc.
  - constructor; [|constructor]. split; [|split; [|split; [exact F|]]]; cbn [fst snd].
    + apply Forall_cons; [right; now left|]. apply Forall_cons; [now left|apply Forall_nil].
    + repeat (constructor; [cbn; intuition discriminate|]). constructor.
    + apply found_lost with (x := (BOS, 0, s)); [|now left|exists 0%nat, 1%nat; repeat split; auto]. apply found_kept; [apply found_end|intros y []].
  - exists r, e, ks. split; [exact Er|]. split; [exact E|]. split; [exact K|]. split; [|exact D]. rewrite T. unfold between. cbn [flat_map map fst snd app concat]. now rewrite app_nil_r.
Qed.
Print Assumptions C73_roberta_order_refuted.

(** * Example *)

(** "h<s> e</s><" with the vocabulary of PropPretrained (rm_meets).  The tokens in the text get no ids
    (C58); those of the frame have the ids 0 and 2. *)
Definition rs_text : str * list (str * Z * str) := ([104]%N, [(BOS, 0, [32; 101]%N); (EOS, 2, [60]%N)]).
Example C73_roberta_special_example :
  clean (written (fst rs_text) (snd rs_text)) /\ in_order [(BOS, 0); (EOS, 2)] (snd rs_text) /\ Forall (free_of [BOS; EOS]) (between rs_text) /\
  written (fst rs_text) (snd rs_text) = [104; 60; 115; 62; 32; 101; 60; 47; 115; 62; 60]%N /\
  match roberta u55 (fun _ => false) rm_bpe true with
  | Ok r => match tk_encode (isort start_key) (isort id_key) (rd_tok r) OByte (ISingle (Raw (written (fst rs_text) (snd rs_text)))) true with Ok (Some e) => Some (ids e, rd_decode r (ids e) true) | _ => None end
  | _ => None
  end = Some ([0; 35; 107; 259; 35; 63; 2], Ok [32; 104; 32; 101; 32; 60]%N).
Proof.
  split; [|split; [|split; [|split; [reflexivity|vm_compute; reflexivity]]]].
  - exists (written (fst rs_text) (snd rs_text)). split; [repeat (constructor; [left; reflexivity|]); constructor|]. split; [repeat (constructor; [discriminate|]); constructor|reflexivity].
  - exists [1%nat; 1%nat]. split; reflexivity.
  - assert (K : forall s, ~ In 115%N s -> free_of [BOS; EOS] s).
    { intros s H t a z Ht E. apply H. rewrite E. apply in_or_app. right. apply in_or_app. left. destruct Ht as [<-|[<-|[]]]; cbn; tauto. }
    repeat (apply Forall_cons; [apply K; cbn; intuition discriminate|]). apply Forall_nil.
Qed.

(** "h</s>e<s><": "</s>" stays. *)
Example C73_roberta_order_example :
  clean ([104] ++ EOS ++ [101] ++ BOS ++ [60])%N /\ Forall (free_of [BOS; EOS]) [[104]; [101]; [60]]%N /\
  match roberta u55 (fun _ => false) rm_bpe true with
  | Ok r => match tk_encode (isort start_key) (isort id_key) (rd_tok r) OByte (ISingle (Raw ([104] ++ EOS ++ [101] ++ BOS ++ [60])%N)) true with Ok (Some e) => Some (rd_decode r (ids e) true) | _ => None end
  | _ => None
  end = Some (Ok [32; 104; 60; 47; 115; 62; 101; 32; 60]%N).
Proof.
  split; [|split; [|vm_compute; reflexivity]].
  - exists ([104] ++ EOS ++ [101] ++ BOS ++ [60])%N. split; [repeat (constructor; [left; reflexivity|]); constructor|]. split; [repeat (constructor; [discriminate|]); constructor|reflexivity].
  - assert (K : forall s, ~ In 115%N s -> free_of [BOS; EOS] s).
    { intros s H t a z Ht E. apply H. rewrite E. apply in_or_app. right. apply in_or_app. left. destruct Ht as [<-|[<-|[]]]; cbn; tauto. }
    repeat (apply Forall_cons; [apply K; cbn; intuition discriminate|]). apply Forall_nil.
Qed.
