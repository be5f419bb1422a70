(** C77: special tokens written in the texts that a BERT tokenizer loaded from a file encodes. *)
From Coq Require Import String QArith.
From Verif Require Import Base BaseProofs Utf8Model Utf8Proofs NormalizedModel NormalizedSpec EncodingModel BpeModel WordPieceModel WordPieceSpec AddedVocabModel AddedVocabSpec AddedFindProofs AddedPatternModel DecoderModel PreTokenizedModel PreTokenizedSpec PreTokenizerModel PreTokenizerSpec
  ProcessorModel PipelineModel PipelineSpec SpmModel UnicodeNormModel PretrainedModel ReturnSpec RoundTripSpec WordsSpec ConfigModel ConfigSpec ConfigLoadProofs PropByteLevel PropPipeline PropReturn PropRoundTrip PropConfig PropBertNorm BertNormSpec
  LoadedModel LoadedSpec LoadedAddedProofs LoadedProofs PropLoaded LoadedWordsSpec LoadedWordsProofs ItemsSpec WordPartsProofs PropLoadedWords OrderSpec OrderProofs.
Open Scope Z_scope.
Open Scope list_scope.

(** Files whose listed tokens are special and stand between two characters that are not in them
    otherwise, as [CLS] with its brackets; tokens written in a text in the order in which the file lists
    them are gone, and the words of what stands between them, normalized, come back as in C77_bert_partial. *)
Theorem C77_special_partial : forall sort_start sort_id, sorts start_key sort_start -> sorts id_key sort_id ->
  forall order, (forall v, Permutation (order v) v) ->
  forall to32 lower base64 compile quoted u is_word cc mn sp lib graphemes (S : Type) (of_q : Q -> S) lt bot zero plus bonus penal dropping
    v unk max handles lowercase strip cleanup po pa c l0 op cl, op <> cl ->
  bert_file lower base64 compile quoted v unk max handles lowercase strip cleanup po pa c ->
  Forall plain_special (c_added c) -> NoDup (map tc_content (c_added c)) -> Forall (fun t => enclosed op cl (tc_content t)) (c_added c) -> with_ids (fun s => vget s v) (zlen v) (c_added c) l0 ->
  exists l a, from_reader order to32 lower base64 compile quoted (Some c) = Ok l /\
    assemble u is_word cc mn sp lower lib graphemes of_q lt bot zero plus bonus penal dropping l = Ok a /\ tk_processor (as_tok a) = po /\ tk_padding (as_tok a) = pa /\
    forall ot x qs add, clean_inputs x -> ot <> OInvalid -> encode_texts x = map (fun q => written (fst q) (snd q)) qs ->
      Forall (fun q => in_order l0 (snd q)) qs ->
      Forall (fun s => clean s /\ free_of (map tc_content (c_added c)) s /\ bert_reads cc mn lower handles lowercase strip s) (flat_map between qs) ->
      ends_with (special_ids (fun s => vget s v) (zlen v) (c_added c)) (dual x) add po pa ->
      exists e xss, tk_encode sort_start sort_id (as_tok a) ot x add = Ok (Some e) /\
        Forall2 (comes_back v max unk (specials (c_added c))) (flat_map (fun s => bert_words u (BertNormSpec.bert_text handles lowercase strip mn lower (runes s))) (flat_map between qs)) xss /\
        as_decode a (ids e) true = Ok (put_together cleanup (concat xss)).
Proof.
  intros ss si HS HI order HO to32 lower base64 compile quoted u is_word cc mn sp lib graphemes S of_q lt bot zero plus bonus penal dropping v unk max handles lowercase strip cleanup po pa c l0 op cl Noc F.
  intros Pl Nd Enc W. destruct (bert_between ss si HS HI order HO to32 lower base64 compile quoted u is_word cc mn sp lib graphemes of_q lt bot zero plus bonus penal dropping C54_wordpiece C71_wordpiece (C54_pre_tokenizers u PTBert I) (C71_pre_tokenizers u PTBert I)
    v unk max handles lowercase strip cleanup po pa c l0 op cl Noc F Pl Nd Enc W) as (l & a & E1 & E2 & E3 & E4 & D).
  exists l, a. split; [exact E1|]. split; [exact E2|]. split; [exact E3|]. split; [exact E4|]. intros ot x qs add C Hot Ex O Pa En. apply (D ot x qs add C Hot Ex); [|eapply Forall_impl; [|exact Pa]; cbn; tauto|exact En].
  apply (cut_ordered op cl Noc ss si HS HI _ _ _ _ Nd Enc W qs O). eapply Forall_impl; [|exact Pa]. cbn. tauto.
Qed.
Print Assumptions C77_special_partial.

(** The tokens in any order, each of them once at most: the words of what stands between those that are
    found come back. *)
Theorem C77_order_partial : forall sort_start sort_id, sorts start_key sort_start -> sorts id_key sort_id ->
  forall order, (forall v, Permutation (order v) v) ->
  forall to32 lower base64 compile quoted u is_word cc mn sp lib graphemes (S : Type) (of_q : Q -> S) lt bot zero plus bonus penal dropping
    v unk max handles lowercase strip cleanup po pa c l0 op cl, op <> cl ->
  bert_file lower base64 compile quoted v unk max handles lowercase strip cleanup po pa c ->
  Forall plain_special (c_added c) -> NoDup (map tc_content (c_added c)) -> Forall (fun t => enclosed op cl (tc_content t)) (c_added c) -> with_ids (fun s => vget s v) (zlen v) (c_added c) l0 ->
  exists l a, from_reader order to32 lower base64 compile quoted (Some c) = Ok l /\
    assemble u is_word cc mn sp lower lib graphemes of_q lt bot zero plus bonus penal dropping l = Ok a /\ tk_processor (as_tok a) = po /\ tk_padding (as_tok a) = pa /\
    forall ot x qs rs add, clean_inputs x -> ot <> OInvalid -> encode_texts x = map (fun q => written (fst q) (snd q)) qs ->
      Forall2 (found_in l0) qs rs ->
      Forall (fun s => clean s /\ bert_reads cc mn lower handles lowercase strip s) (flat_map between rs) ->
      ends_with (special_ids (fun s => vget s v) (zlen v) (c_added c)) (dual x) add po pa ->
      exists e xss, tk_encode sort_start sort_id (as_tok a) ot x add = Ok (Some e) /\
        Forall2 (comes_back v max unk (specials (c_added c))) (flat_map (fun s => bert_words u (BertNormSpec.bert_text handles lowercase strip mn lower (runes s))) (flat_map between rs)) xss /\
        as_decode a (ids e) true = Ok (put_together cleanup (concat xss)).
Proof.
  intros ss si HS HI order HO to32 lower base64 compile quoted u is_word cc mn sp lib graphemes S of_q lt bot zero plus bonus penal dropping v unk max handles lowercase strip cleanup po pa c l0 op cl Noc F.
  intros Pl Nd Enc W. destruct (bert_between ss si HS HI order HO to32 lower base64 compile quoted u is_word cc mn sp lib graphemes of_q lt bot zero plus bonus penal dropping C54_wordpiece C71_wordpiece (C54_pre_tokenizers u PTBert I) (C71_pre_tokenizers u PTBert I)
    v unk max handles lowercase strip cleanup po pa c l0 op cl Noc F Pl Nd Enc W) as (l & a & E1 & E2 & E3 & E4 & D).
  exists l, a. split; [exact E1|]. split; [exact E2|]. split; [exact E3|]. split; [exact E4|]. intros ot x qs rs add C Hot Ex O Pa En. destruct (cut_found op cl Noc ss si HS HI _ _ _ _ Nd Enc W qs rs O) as [Ew Fc]. apply (D ot x rs add C Hot); [now rewrite Ex, Ew|exact Fc|exact Pa|exact En].
Qed.
Print Assumptions C77_order_partial.

(** * Examples *)

(** The file of PropLoadedWords with its special tokens only, and the text "He[CLS], Worlds[SEP]zz". *)
Definition bq : config := Config None (Some bf_pad) (firstn 4 bf_added) (Some bf_norm) (Some bf_pre) (Some bf_post) (Some bf_dec) (Some bf_model).
Lemma bq_file lower base64 compile quoted : bert_file lower base64 compile quoted bf_vocab (key "[UNK]") 100 true true false true (Some bf_processor) (Some bf_padding) bq.
Proof.
  destruct (bf_file lower base64 compile quoted) as (mo & no & pt & de & cleaned & C1 & C2 & C3 & C4 & C5 & T & V & H1 & H2 & H3 & In' & Ip & Id & Ipo & Ipa & Nu & Vu & Ap & Hu).
  exists mo, no, pt, de, cleaned. split; [exact C1|]. split; [exact C2|]. split; [exact C3|]. split; [exact C4|]. split; [exact C5|]. split; [exact T|]. split; [exact V|]. split; [exact H1|]. split; [exact H2|]. split; [exact H3|]. split; [exact In'|]. split; [exact Ip|]. split; [exact Id|].
  split; [exact Ipo|]. split; [exact Ipa|]. split; [exact Nu|]. split; [exact Vu|]. split.
  - apply Forall_forall. intros t Ht. rewrite Forall_forall in Ap. apply Ap. change (In t (firstn 4 bf_added)) in Ht. rewrite <- (firstn_skipn 4 (c_added bf)). apply in_or_app. now left.
  - left. cbn. tauto.
Qed.
Definition bq_ids : list (str * Z) := [(key "[PAD]", 0); (key "[UNK]", 1); (key "[CLS]", 2); (key "[SEP]", 3)].
Definition bq_text : str * list (str * Z * str) := (key "He", [(key "[CLS]", 2, key ", Worlds"); (key "[SEP]", 3, key "zz")]).
Lemma bq_reads s : Forall (fun c => (c < 128)%N /\ c <> 0%N /\ dropped (fun _ => false) c = false /\ extension_a c = false) s -> runes s = s -> encode s = s -> encode (spaced s) = s -> encode (ascii_lower s) = ascii_lower s -> length (ascii_lower s) = length s ->
  clean s /\ bert_reads (fun _ => false) (fun _ => false) ascii_lower true true false s.
Proof.
  intros F Er Ee Es El Ll. split.
  - exists s. split; [eapply Forall_impl; [|exact F]; cbn; intros c H; left; lia|]. split; [eapply Forall_impl; [|exact F]; cbn; tauto|now symmetry].
  - split; [rewrite Er; eapply Forall_impl; [|exact F]; cbn; tauto|]. cbv zeta. rewrite Er, Es. split; [|split; [exact Ll|discriminate]].
    exists (ascii_lower s). split; [|split; [|now symmetry]].
    + apply Forall_forall. intros c Hc. left. unfold ascii_lower in Hc. apply in_map_iff in Hc as (d & <- & Hd). rewrite Forall_forall in F. destruct (F d Hd) as (H & _). destruct ((65 <=? d) && (d <=? 90))%N eqn:Eb; [apply andb_prop in Eb as [E1 E2]; apply N.leb_le in E2; lia|lia].
    + apply Forall_forall. intros c Hc. unfold ascii_lower in Hc. apply in_map_iff in Hc as (d & <- & Hd). rewrite Forall_forall in F. destruct (F d Hd) as (_ & H & _). destruct ((65 <=? d) && (d <=? 90))%N; lia.
Qed.
Lemma bq_free s : ~ In 91%N s -> free_of (map tc_content (c_added bq)) s.
Proof. intros Nb t x z Ht E. apply Nb. rewrite E. apply in_or_app. right. apply in_or_app. left. destruct Ht as [<-|[<-|[<-|[<-|[]]]]]; now left. Qed.
Lemma with_free (A B C : Prop) : A /\ C -> B -> A /\ B /\ C.
Proof. tauto. Qed.
Example C77_special_meets : Forall plain_special (c_added bq) /\ NoDup (map tc_content (c_added bq)) /\ Forall (fun t => enclosed 91 93 (tc_content t)) (c_added bq) /\ with_ids (fun s => vget s bf_vocab) (zlen bf_vocab) (c_added bq) bq_ids /\
  clean (written (fst bq_text) (snd bq_text)) /\ in_order bq_ids (snd bq_text) /\
  Forall (fun s => clean s /\ free_of (map tc_content (c_added bq)) s /\ bert_reads (fun _ => false) (fun _ => false) ascii_lower true true false s) (between bq_text) /\
  ends_with (special_ids (fun s => vget s bf_vocab) (zlen bf_vocab) (c_added bq)) false true (Some bf_processor) (Some bf_padding).
Proof.
  split; [|split; [|split; [|split; [|split; [|split; [|split]]]]]].
  - repeat (apply Forall_cons; [unfold plain_special; tauto|]). apply Forall_nil.
  - repeat (constructor; [vm_compute; intuition discriminate|]). constructor.
  - apply Forall_cons; [exists (key "PAD"); split; [reflexivity|split; cbn; intuition discriminate]|]. apply Forall_cons; [exists (key "UNK"); split; [reflexivity|split; cbn; intuition discriminate]|].
    apply Forall_cons; [exists (key "CLS"); split; [reflexivity|split; cbn; intuition discriminate]|]. apply Forall_cons; [exists (key "SEP"); split; [reflexivity|split; cbn; intuition discriminate]|apply Forall_nil].
  - repeat (constructor; [split; vm_compute; reflexivity|]). constructor.
  - exists (key "He[CLS], Worlds[SEP]zz"). split; [repeat (constructor; [left; reflexivity|]); constructor|]. split; [repeat (constructor; [discriminate|]); constructor|reflexivity].
  - exists [0; 0; 1; 1]%nat. split; reflexivity.
  - repeat (apply Forall_cons; [apply with_free; [apply bq_reads; [repeat (apply Forall_cons; [split; [reflexivity|split; [discriminate|split; reflexivity]]|]); apply Forall_nil|vm_compute; reflexivity..]|apply bq_free; cbn; intuition discriminate]|]). apply Forall_nil.
  - exact (proj1 (proj2 (proj2 (proj2 (proj2 C77_meets))))).
Qed.
Example C77_special_example : match from_reader (fun v => v) (fun q => q) ascii_lower (fun _ => Err) (fun _ => None) (fun _ _ => []) (Some bq) with
  | Ok l => match assemble u55 (fun _ => false) (fun _ => false) (fun _ => false) (fun _ => false) ascii_lower lf_lib (fun _ => []) (fun q => q) (fun _ _ => false) 0%Q 0%Q Qplus (fun _ => 0%Q) (fun q => q) (fun _ _ _ => Err) l with
            | Ok a => match tk_encode (isort start_key) (isort id_key) (as_tok a) OByte (ISingle (Raw (key "He[CLS], Worlds[SEP]zz"))) true with Ok (Some e) => Some (ids e, as_decode a (ids e) true) | _ => None end
            | _ => None
            end
  | _ => None
  end = Some ([2; 4; 2; 5; 6; 7; 3; 1; 3], Ok (key "he, worlds")).
Proof. vm_compute. reflexivity. Qed.

(** The text "He[SEP], Worlds[CLS]zz": "[SEP]" is listed after "[CLS]", which follows it, and stays. *)
Definition bo_text : str * list (str * Z * str) := (key "He", [(key "[SEP]", 3, key ", Worlds"); (key "[CLS]", 2, key "zz")]).
Definition bo_found : str * list (str * Z * str) := (key "He[SEP], Worlds", [(key "[CLS]", 2, key "zz")]).
Example C77_order_meets : clean (written (fst bo_text) (snd bo_text)) /\ found_in bq_ids bo_text bo_found /\
  Forall (fun s => clean s /\ bert_reads (fun _ => false) (fun _ => false) ascii_lower true true false s) (between bo_found).
Proof.
  split; [|split].
  - exists (key "He[SEP], Worlds[CLS]zz"). split; [repeat (constructor; [left; reflexivity|]); constructor|]. split; [repeat (constructor; [discriminate|]); constructor|reflexivity].
  - split; [|split; [|split]].
    + repeat (apply Forall_cons; [cbn; tauto|]). apply Forall_nil.
    + repeat (constructor; [vm_compute; intuition discriminate|]). constructor.
    + repeat (apply Forall_cons; [apply bq_free; cbn; intuition discriminate|]). apply Forall_nil.
    + apply (found_lost bq_ids (key "He") (key "[SEP]") 3 (key ", Worlds") [(key "[CLS]", 2, key "zz")] (key ", Worlds") [(key "[CLS]", 2, key "zz")] (key "[CLS]", 2, key "zz")); [|now left|exists 2%nat, 3%nat; repeat split; auto]. apply found_kept; [apply found_end|intros y []].
  - repeat (apply Forall_cons; [apply bq_reads; [repeat (apply Forall_cons; [split; [reflexivity|split; [discriminate|split; reflexivity]]|]); apply Forall_nil|vm_compute; reflexivity..]|]). apply Forall_nil.
Qed.
Example C77_order_example : match from_reader (fun v => v) (fun q => q) ascii_lower (fun _ => Err) (fun _ => None) (fun _ _ => []) (Some bq) with
  | Ok l => match assemble u55 (fun _ => false) (fun _ => false) (fun _ => false) (fun _ => false) ascii_lower lf_lib (fun _ => []) (fun q => q) (fun _ _ => false) 0%Q 0%Q Qplus (fun _ => 0%Q) (fun q => q) (fun _ _ _ => Err) l with
            | Ok a => match tk_encode (isort start_key) (isort id_key) (as_tok a) OByte (ISingle (Raw (key "He[SEP], Worlds[CLS]zz"))) true with Ok (Some e) => Some (ids e, as_decode a (ids e) true) | _ => None end
            | _ => None
            end
  | _ => None
  end = Some ([2; 4; 1; 1; 1; 5; 6; 7; 2; 1; 3], Ok (key "he, worlds")).
Proof. vm_compute. reflexivity. Qed.
