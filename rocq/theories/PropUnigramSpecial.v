(** C76: special tokens written in the texts that a tokenizer loaded from a Unigram file encodes. *)
From Coq Require Import String QArith.
From Verif Require UnigramProofs.
From Verif Require Import Base BaseProofs Utf8Model Utf8Proofs NormalizedModel EncodingModel BpeModel BpeSpec AddedVocabModel AddedVocabSpec AddedFindProofs UnigramModel UnigramSpec DecoderModel PreTokenizerModel PreTokenizerSpec ProcessorModel
  PreTokenizedModel PipelineModel PipelineSpec PretrainedModel ConfigModel ConfigSpec ConfigProofs ConfigLoadProofs ReturnSpec RoundTripSpec WordsSpec MetaspaceSpec MetaTripSpec LoadedModel LoadedSpec LoadedProofs
  LoadedUnigramSpec LoadedUnigramProofs ItemsSpec UnigramPartsProofs PropByteLevel PropConfig PropPipeline PropMetaTrip PropLoaded PropLoadedUnigram PropLoadedSpecial OrderSpec OrderProofs.
Open Scope Z_scope.
Open Scope list_scope.

(** As C76_metaspace_special_partial, if some segmentation of each word of the texts between the tokens
    has a score above the lowest one. *)
Theorem C76_unigram_special_partial : forall sort_start sort_id, sorts start_key sort_start -> sorts id_key sort_id ->
  forall order to32 lower base64 compile quoted u is_word cc mn sp lib graphemes (S : Type) (of_q : Q -> S) lt bot zero plus bonus penal dropping,
  score_laws lt bot plus ->
  forall voc unk fuse mark scheme po pa c l0 op cl, op <> cl ->
  unigram_file lower compile quoted (tells_prefix lower compile quoted mark (prepends scheme)) voc unk fuse mark scheme po pa c ->
  Forall plain_special (c_added c) -> NoDup (map tc_content (c_added c)) -> Forall (fun t => enclosed op cl (tc_content t)) (c_added c) -> with_ids (place voc) (zlen voc) (c_added c) l0 ->
  exists l a, from_reader order to32 lower base64 compile quoted (Some c) = Ok l /\
    assemble u is_word cc mn sp lower lib graphemes of_q lt bot zero plus bonus penal dropping l = Ok a /\ tk_processor (as_tok a) = po /\ tk_padding (as_tok a) = pa /\
    forall ot x qs add, clean_inputs x -> ot <> OInvalid -> encode_texts x = map (fun q => written (fst q) (snd q)) qs ->
      Forall (fun q => in_order l0 (snd q)) qs ->
      Forall (fun s => valid_utf8 s /\ free_of (map tc_content (c_added c)) s /\ Forall (fun c => white c = false -> In (encode_rune c) (map fst voc)) (runes s)) (flat_map between qs) ->
      Forall (fun w => exists gs, let g := UG (map (fun p => (fst p, of_q (snd p))) voc) unk false fuse in
                segmentation g w gs /\ lt bot (total lt zero plus bonus penal g gs) = true) (words_between scheme mark qs) ->
      ends_with (special_ids (place voc) (zlen voc) (c_added c)) (dual x) add po pa ->
      exists e, tk_encode sort_start sort_id (as_tok a) ot x add = Ok (Some e) /\
        as_decode a (ids e) true = Ok (encode (match flat_map (fun q => concat (led_between scheme mark q)) qs with c :: l => if prepends scheme && (c =? 32)%N then l else c :: l | [] => [] end)).
Proof.
  intros ss si HS HI order to32 lower base64 compile quoted u is_word cc mn sp lib graphemes S of_q lt bot zero plus bonus penal dropping Ls voc unk fuse mark scheme po pa c l0 op cl Noc F.
  intros Pl Nd Enc W. destruct (unigram_between ss si HS HI order to32 lower base64 compile quoted u is_word cc mn sp lib graphemes of_q lt bot zero plus bonus penal dropping _ op cl voc unk fuse mark scheme (prepends scheme) po pa c l0 Noc Ls F (fun de H => (ConfigProofs.decoder_ok lower compile quoted _ _ H)) Pl Nd Enc W) as (l & a & E1 & E2 & E3 & E4 & D).
  exists l, a. split; [exact E1|]. split; [exact E2|]. split; [exact E3|]. split; [exact E4|]. intros ot x qs add C Hot Ex O Pa Fin En. apply (D ot x qs add C Hot Ex); [|exact Pa|exact Fin|exact En].
  apply (cut_ordered op cl Noc ss si HS HI _ _ _ _ Nd Enc W qs O). eapply Forall_impl; [|exact Pa]. cbn. tauto.
Qed.
Print Assumptions C76_unigram_special_partial.

(** * Examples *)

(** The file of PropLoadedUnigram with "<unk>", "</s>" and "<x>" only, and the text "a b</s>b<x>a". *)
Definition us_file : config :=
  Config None None [TC 0 (key "<unk>") false false false false true; TC 5 (key "</s>") false false false false true; TC 6 (key "<x>") false false false false true] None (Some ms_pre) (Some un_post) (Some ms_dec) (Some un_model).
Lemma us_file_ok quoted : unigram_file (fun s => s) ms_compile quoted (tells_prefix (fun s => s) ms_compile quoted 9601 (prepends Always)) un_voc (Some 0) true 9601 Always (Some un_processor) None us_file.
Proof.
  destruct (un_file_ok quoted ms_dec _ (ms_dec_ok quoted)) as (mo & pt & de & C1 & C2 & C3 & C4 & C5 & Us & Ip & Sy & Ipo & Ipa & Ndv & Vv & Sm & M0 & Vm & Fa & Fu).
  exists mo, pt, de. split; [exact C1|]. split; [exact C2|]. split; [exact C3|]. split; [exact C4|]. split; [exact C5|]. split; [exact Us|]. split; [exact Ip|]. split; [exact Sy|]. split; [exact Ipo|]. split; [exact Ipa|]. split; [exact Ndv|]. split; [exact Vv|]. split; [exact Sm|]. split; [exact M0|]. split; [exact Vm|]. split.
  - constructor; [|constructor; [|constructor; [|constructor]]]; (split; [discriminate|]); (split; [apply plain_valid; reflexivity|intros _; vm_compute; intuition discriminate]).
  - intros [|k] p H E; [|injection H as H; lia]. injection E as <-. left. reflexivity.
Qed.
Definition us_ids : list (str * Z) := [(key "<unk>", 0); (key "</s>", 5); (key "<x>", 6)].
Definition us_text : str * list (str * Z * str) := (key "a b", [(key "</s>", 5, key "b"); (key "<x>", 6, key "a")]).
Example C76_unigram_special_meets : Forall plain_special (c_added us_file) /\ NoDup (map tc_content (c_added us_file)) /\ Forall (fun t => enclosed 60 62 (tc_content t)) (c_added us_file) /\ with_ids (place un_voc) (zlen un_voc) (c_added us_file) us_ids /\
  clean (written (fst us_text) (snd us_text)) /\ in_order us_ids (snd us_text) /\
  Forall (fun s => valid_utf8 s /\ free_of (map tc_content (c_added us_file)) s /\ Forall (fun c => white c = false -> In (encode_rune c) (map fst un_voc)) (runes s)) (between us_text) /\
  Forall (fun w => exists gs, segmentation un_g w gs /\ zlt None (total zlt (Some 0) zplus zbonus zpenal un_g gs) = true) (words_between Always 9601 [us_text]) /\
  ends_with (special_ids (place un_voc) (zlen un_voc) (c_added us_file)) false true (Some un_processor) None.
Proof.
  split; [|split; [|split; [|split; [|split; [|split; [|split; [|split]]]]]]].
  - repeat (apply Forall_cons; [unfold plain_special; tauto|]). apply Forall_nil.
  - repeat (constructor; [vm_compute; intuition discriminate|]). constructor.
  - apply Forall_cons; [exists (key "unk"); split; [reflexivity|split; cbn; intuition discriminate]|]. apply Forall_cons; [exists (key "/s"); split; [reflexivity|split; cbn; intuition discriminate]|]. apply Forall_cons; [exists (key "x"); split; [reflexivity|split; cbn; intuition discriminate]|apply Forall_nil].
  - repeat (constructor; [split; vm_compute; reflexivity|]). constructor.
  - exists (key "a b</s>b<x>a"). split; [repeat (constructor; [left; reflexivity|]); constructor|]. split; [repeat (constructor; [discriminate|]); constructor|reflexivity].
  - exists [0; 1; 1]%nat. split; reflexivity.
  - repeat (apply Forall_cons; [split; [apply plain_valid; reflexivity|split; [intros t x z Ht E; apply (no_open x 60%N z t _ E); [destruct Ht as [<-|[<-|[<-|[]]]]; now left|cbn; intuition discriminate]|]]|]); [| | |apply Forall_nil];
      (repeat (apply Forall_cons; [first [intros H; discriminate H|intros _; vm_compute; auto 6]|]); apply Forall_nil).
  - replace (words_between Always 9601 [us_text]) with ([mt_mark ++ [97]; mt_mark ++ [98]; mt_mark ++ [98]; mt_mark ++ [97]]%N) by (vm_compute; reflexivity).
    repeat (apply Forall_cons; [apply un_scored; first [left; reflexivity|right; left; reflexivity]|]). apply Forall_nil.
  - split; [|exact I]. split.
    + eapply returning_template; [now left|]. constructor; [intros H; discriminate H|]. constructor; [intros _; vm_compute; discriminate|constructor].
    + split; [reflexivity|]. intros _ id k H. cbn [aget] in H. destruct (str_eqb id _); [|discriminate H]. injection H as <-. constructor; [vm_compute; reflexivity|constructor].
Qed.
Definition us_decoded (x : encode_input) : option (list Z * res str) :=
  match from_reader (fun v => v) (fun q => q) (fun s => s) (fun _ => Err) ms_compile (fun _ _ => []) (Some us_file) with
  | Ok l => match assemble u55 (fun _ => false) (fun _ => false) (fun _ => false) (fun _ => false) (fun s => s) lf_lib (fun _ => []) un_score zlt None (Some 0) zplus zbonus zpenal (fun _ _ _ => Err) l with
            | Ok a => match tk_encode (isort start_key) (isort id_key) (as_tok a) OByte x true with Ok (Some e) => Some (ids e, as_decode a (ids e) true) | _ => None end
            | _ => None
            end
  | _ => None
  end.
Example C76_unigram_special_example : us_decoded (ISingle (Raw (key "a b</s>b<x>a"))) = Some ([4; 1; 3; 5; 1; 3; 6; 4; 5], Ok (key "a b b a")).
Proof. vm_compute. reflexivity. Qed.
