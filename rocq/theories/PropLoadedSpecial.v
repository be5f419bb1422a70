(** C76: special tokens written in the texts that a tokenizer loaded from a file encodes. *)
From Coq Require Import String QArith.
From Verif Require Import Base BaseProofs Utf8Model Utf8Proofs NormalizedModel EncodingModel BpeModel AddedVocabModel AddedVocabSpec AddedFindProofs AddedPatternModel DecoderModel PreTokenizedModel PreTokenizerModel PreTokenizerSpec
  ProcessorModel PipelineModel PipelineSpec SpmModel UnicodeNormModel PretrainedModel ReturnSpec RoundTripSpec MetaspaceSpec MetaTripSpec ConfigModel ConfigSpec ConfigLoadProofs PropByteLevel PropPipeline PropRoundTrip PropConfig PropMetaTrip
  LoadedModel LoadedSpec LoadedAddedProofs LoadedProofs LoadedUnigramSpec PropLoaded ItemsSpec LoadedPartsProofs OrderSpec OrderProofs.
Open Scope Z_scope.
Open Scope list_scope.

(** Byte-level files whose listed tokens are special and stand between two characters that are not in
    them otherwise, as <|endoftext|>; tokens written in a text in the order in which the file lists them
    are gone, and everything between them comes back. *)
Theorem C76_special_partial : forall sort_start sort_id, sorts start_key sort_start -> sorts id_key sort_id ->
  forall order, (forall v, Permutation (order v) v) ->
  forall to32 lower base64 compile quoted u is_word cc mn sp lib graphemes (S : Type) (of_q : Q -> S) lt bot zero plus bonus penal dropping
    v ms prefix po pa c l0 op cl, op <> cl ->
  byte_level_file lower compile quoted v ms (PTByteLevel prefix) po pa c -> (prefix = true -> un_letter u 32 = false /\ un_number u 32 = false) ->
  Forall plain_special (c_added c) -> NoDup (map tc_content (c_added c)) -> Forall (fun t => enclosed op cl (tc_content t)) (c_added c) -> with_ids (fun s => vget s v) (zlen v) (c_added c) l0 ->
  exists l a, from_reader order to32 lower base64 compile quoted (Some c) = Ok l /\
    assemble u is_word cc mn sp lower lib graphemes of_q lt bot zero plus bonus penal dropping l = Ok a /\ tk_processor (as_tok a) = po /\ tk_padding (as_tok a) = pa /\
    forall ot x qs add, clean_inputs x -> ot <> OInvalid -> encode_texts x = map (fun q => written (fst q) (snd q)) qs ->
      Forall (fun q => in_order l0 (snd q)) qs -> Forall (free_of (map tc_content (c_added c))) (flat_map between qs) ->
      ends_with (special_ids (fun s => vget s v) (zlen v) (c_added c)) (dual x) add po pa ->
      exists e, tk_encode sort_start sort_id (as_tok a) ot x add = Ok (Some e) /\
        as_decode a (ids e) true = Ok (concat (map (spaced prefix) (flat_map between qs))).
Proof.
  intros ss si HS HI order HO to32 lower base64 compile quoted u is_word cc mn sp lib graphemes S of_q lt bot zero plus bonus penal dropping v ms prefix po pa c l0 op cl Noc F U.
  intros Pl Nd Enc W. destruct (bytes_between ss si HS HI order HO to32 lower base64 compile quoted u is_word cc mn sp lib graphemes of_q lt bot zero plus bonus penal dropping C54_bpe op cl v ms prefix po pa c l0 Noc F U Pl Nd Enc W) as (l & a & E1 & E2 & E3 & E4 & D).
  exists l, a. split; [exact E1|]. split; [exact E2|]. split; [exact E3|]. split; [exact E4|]. intros ot x qs add C Hot Ex O Pa En. apply (D ot x qs add C Hot Ex); [|exact En].
  exact (cut_ordered op cl Noc ss si HS HI _ _ _ _ Nd Enc W qs O Pa).
Qed.
Print Assumptions C76_special_partial.

(** The tokens in any order, each of them once at most: everything comes back but those that are found. *)
Theorem C76_order_partial : forall sort_start sort_id, sorts start_key sort_start -> sorts id_key sort_id ->
  forall order, (forall v, Permutation (order v) v) ->
  forall to32 lower base64 compile quoted u is_word cc mn sp lib graphemes (S : Type) (of_q : Q -> S) lt bot zero plus bonus penal dropping
    v ms prefix po pa c l0 op cl, op <> cl ->
  byte_level_file lower compile quoted v ms (PTByteLevel prefix) po pa c -> (prefix = true -> un_letter u 32 = false /\ un_number u 32 = false) ->
  Forall plain_special (c_added c) -> NoDup (map tc_content (c_added c)) -> Forall (fun t => enclosed op cl (tc_content t)) (c_added c) -> with_ids (fun s => vget s v) (zlen v) (c_added c) l0 ->
  exists l a, from_reader order to32 lower base64 compile quoted (Some c) = Ok l /\
    assemble u is_word cc mn sp lower lib graphemes of_q lt bot zero plus bonus penal dropping l = Ok a /\ tk_processor (as_tok a) = po /\ tk_padding (as_tok a) = pa /\
    forall ot x qs rs add, clean_inputs x -> ot <> OInvalid -> encode_texts x = map (fun q => written (fst q) (snd q)) qs ->
      Forall2 (found_in l0) qs rs ->
      ends_with (special_ids (fun s => vget s v) (zlen v) (c_added c)) (dual x) add po pa ->
      exists e, tk_encode sort_start sort_id (as_tok a) ot x add = Ok (Some e) /\
        as_decode a (ids e) true = Ok (concat (map (spaced prefix) (flat_map between rs))).
Proof.
  intros ss si HS HI order HO to32 lower base64 compile quoted u is_word cc mn sp lib graphemes S of_q lt bot zero plus bonus penal dropping v ms prefix po pa c l0 op cl Noc F U.
  intros Pl Nd Enc W. destruct (bytes_between ss si HS HI order HO to32 lower base64 compile quoted u is_word cc mn sp lib graphemes of_q lt bot zero plus bonus penal dropping C54_bpe op cl v ms prefix po pa c l0 Noc F U Pl Nd Enc W) as (l & a & E1 & E2 & E3 & E4 & D).
  exists l, a. split; [exact E1|]. split; [exact E2|]. split; [exact E3|]. split; [exact E4|]. intros ot x qs rs add C Hot Ex O En. destruct (cut_found op cl Noc ss si HS HI _ _ _ _ Nd Enc W qs rs O) as [Ew Fc]. apply (D ot x rs add C Hot); [now rewrite Ex, Ew|exact Fc|exact En].
Qed.
Print Assumptions C76_order_partial.

(** Metaspace files: the part in front of the first token is led by a mark as the scheme asks for the
    first part, what follows a token as it asks for others. *)
Theorem C76_metaspace_special_partial : forall sort_start sort_id, sorts start_key sort_start -> sorts id_key sort_id ->
  forall order, (forall v, Permutation (order v) v) ->
  forall to32 lower base64 compile quoted u is_word cc mn sp lib graphemes (S : Type) (of_q : Q -> S) lt bot zero plus bonus penal dropping
    v ms mark scheme po pa c l0 op cl, op <> cl ->
  metaspace_file lower compile quoted (tells_prefix lower compile quoted mark (prepends scheme)) v ms mark scheme po pa c ->
  Forall plain_special (c_added c) -> NoDup (map tc_content (c_added c)) -> Forall (fun t => enclosed op cl (tc_content t)) (c_added c) -> with_ids (fun s => vget s v) (zlen v) (c_added c) l0 ->
  exists l a, from_reader order to32 lower base64 compile quoted (Some c) = Ok l /\
    assemble u is_word cc mn sp lower lib graphemes of_q lt bot zero plus bonus penal dropping l = Ok a /\ tk_processor (as_tok a) = po /\ tk_padding (as_tok a) = pa /\
    forall ot x qs add, clean_inputs x -> ot <> OInvalid -> encode_texts x = map (fun q => written (fst q) (snd q)) qs ->
      Forall (fun q => in_order l0 (snd q)) qs ->
      Forall (fun s => valid_utf8 s /\ free_of (map tc_content (c_added c)) s /\ Forall (fun c => white c = false -> vget (encode_rune c) v <> None) (runes s)) (flat_map between qs) ->
      ends_with (special_ids (fun s => vget s v) (zlen v) (c_added c)) (dual x) add po pa ->
      exists e, tk_encode sort_start sort_id (as_tok a) ot x add = Ok (Some e) /\
        as_decode a (ids e) true = Ok (encode (match flat_map (fun q => concat (led_between scheme mark q)) qs with c :: l => if prepends scheme && (c =? 32)%N then l else c :: l | [] => [] end)).
Proof.
  intros ss si HS HI order HO to32 lower base64 compile quoted u is_word cc mn sp lib graphemes S of_q lt bot zero plus bonus penal dropping v ms mark scheme po pa c l0 op cl Noc F.
  intros Pl Nd Enc W. destruct (meta_between ss si HS HI order HO to32 lower base64 compile quoted u is_word cc mn sp lib graphemes of_q lt bot zero plus bonus penal dropping C54_bpe _ op cl v ms mark scheme (prepends scheme) po pa c l0 Noc F (fun de H => (ConfigProofs.decoder_ok lower compile quoted _ _ H)) Pl Nd Enc W) as (l & a & E1 & E2 & E3 & E4 & D).
  exists l, a. split; [exact E1|]. split; [exact E2|]. split; [exact E3|]. split; [exact E4|]. intros ot x qs add C Hot Ex O Pa En. apply (D ot x qs add C Hot Ex); [|eapply Forall_impl; [|exact Pa]; cbn; tauto|exact En].
  apply (cut_ordered op cl Noc ss si HS HI _ _ _ _ Nd Enc W qs O). eapply Forall_impl; [|exact Pa]. cbn. tauto.
Qed.
Print Assumptions C76_metaspace_special_partial.

(** The same for metaspace files. *)
Theorem C76_metaspace_order_partial : forall sort_start sort_id, sorts start_key sort_start -> sorts id_key sort_id ->
  forall order, (forall v, Permutation (order v) v) ->
  forall to32 lower base64 compile quoted u is_word cc mn sp lib graphemes (S : Type) (of_q : Q -> S) lt bot zero plus bonus penal dropping
    v ms mark scheme po pa c l0 op cl, op <> cl ->
  metaspace_file lower compile quoted (tells_prefix lower compile quoted mark (prepends scheme)) v ms mark scheme po pa c ->
  Forall plain_special (c_added c) -> NoDup (map tc_content (c_added c)) -> Forall (fun t => enclosed op cl (tc_content t)) (c_added c) -> with_ids (fun s => vget s v) (zlen v) (c_added c) l0 ->
  exists l a, from_reader order to32 lower base64 compile quoted (Some c) = Ok l /\
    assemble u is_word cc mn sp lower lib graphemes of_q lt bot zero plus bonus penal dropping l = Ok a /\ tk_processor (as_tok a) = po /\ tk_padding (as_tok a) = pa /\
    forall ot x qs rs add, clean_inputs x -> ot <> OInvalid -> encode_texts x = map (fun q => written (fst q) (snd q)) qs ->
      Forall2 (found_in l0) qs rs ->
      Forall (fun s => valid_utf8 s /\ Forall (fun c => white c = false -> vget (encode_rune c) v <> None) (runes s)) (flat_map between rs) ->
      ends_with (special_ids (fun s => vget s v) (zlen v) (c_added c)) (dual x) add po pa ->
      exists e, tk_encode sort_start sort_id (as_tok a) ot x add = Ok (Some e) /\
        as_decode a (ids e) true = Ok (encode (match flat_map (fun q => concat (led_between scheme mark q)) rs with c :: l => if prepends scheme && (c =? 32)%N then l else c :: l | [] => [] end)).
Proof.
  intros ss si HS HI order HO to32 lower base64 compile quoted u is_word cc mn sp lib graphemes S of_q lt bot zero plus bonus penal dropping v ms mark scheme po pa c l0 op cl Noc F.
  intros Pl Nd Enc W. destruct (meta_between ss si HS HI order HO to32 lower base64 compile quoted u is_word cc mn sp lib graphemes of_q lt bot zero plus bonus penal dropping C54_bpe _ op cl v ms mark scheme (prepends scheme) po pa c l0 Noc F (fun de H => (ConfigProofs.decoder_ok lower compile quoted _ _ H)) Pl Nd Enc W) as (l & a & E1 & E2 & E3 & E4 & D).
  exists l, a. split; [exact E1|]. split; [exact E2|]. split; [exact E3|]. split; [exact E4|]. intros ot x qs rs add C Hot Ex O Pa En. destruct (cut_found op cl Noc ss si HS HI _ _ _ _ Nd Enc W qs rs O) as [Ew Fc]. apply (D ot x rs add C Hot); [now rewrite Ex, Ew|exact Fc|exact Pa|exact En].
Qed.
Print Assumptions C76_metaspace_order_partial.

(** * Examples *)
Lemma no_open x y z (t : str) (s : str) : s = x ++ t ++ z -> In y t -> ~ In y s -> False.
Proof. intros -> Ht Hn. apply Hn. apply in_or_app. right. apply in_or_app. now left. Qed.

(** The file of PropLoaded with "<s>" and "<p>" only, and the text "he<s>é<p>h". *)
Definition sp_file : config := Config None (Some lf_pad) [TC 257 (key "<s>") false false false false true; TC 258 (key "<p>") false false false false true] None (Some lf_pre) (Some lf_post) (Some lf_pre) (Some lf_model).
Lemma sp_file_ok lower compile quoted : byte_level_file lower compile quoted rt_vocab [(key "h", key "e")] (PTByteLevel false) (Some lf_processor) (Some lf_padding) sp_file.
Proof.
  destruct (lf_file lower compile quoted) as (mo & pt & de & unk & suffix & C1 & C2 & C3 & C4 & C5 & Bs & Ip & Id & Ipo & Ipa & Nu & Vb & Ap).
  exists mo, pt, de, unk, suffix. split; [exact C1|]. split; [exact C2|]. split; [exact C3|]. split; [exact C4|]. split; [exact C5|]. split; [exact Bs|]. split; [exact Ip|]. split; [exact Id|]. split; [exact Ipo|]. split; [exact Ipa|]. split; [exact Nu|]. split; [exact Vb|].
  apply Forall_cons_iff in Ap as [_ Ap]. apply Forall_cons_iff in Ap as [A1 Ap]. apply Forall_cons_iff in Ap as [A2 _]. constructor; [exact A1|]. constructor; [exact A2|constructor].
Qed.
Definition sp_ids : list (str * Z) := [(key "<s>", 257); (key "<p>", 258)].
Definition sp_text : str * list (str * Z * str) := (key "he", [(key "<s>", 257, [195; 169]%N); (key "<p>", 258, key "h")]).
Example C76_special_meets : Forall plain_special (c_added sp_file) /\ NoDup (map tc_content (c_added sp_file)) /\ Forall (fun t => enclosed 60 62 (tc_content t)) (c_added sp_file) /\ with_ids (fun s => vget s rt_vocab) (zlen rt_vocab) (c_added sp_file) sp_ids /\
  clean (written (fst sp_text) (snd sp_text)) /\ in_order sp_ids (snd sp_text) /\ Forall (free_of (map tc_content (c_added sp_file))) (between sp_text) /\
  ends_with (special_ids (fun s => vget s rt_vocab) (zlen rt_vocab) (c_added sp_file)) false true (Some lf_processor) (Some lf_padding).
Proof.
  split; [|split; [|split; [|split; [|split; [|split; [|split]]]]]].
  - repeat (apply Forall_cons; [unfold plain_special; tauto|]). apply Forall_nil.
  - constructor; [intros [H|[]]; discriminate H|]. constructor; [easy|constructor].
  - apply Forall_cons; [exists (key "s"); split; [reflexivity|split; cbn; intuition discriminate]|]. apply Forall_cons; [exists (key "p"); split; [reflexivity|split; cbn; intuition discriminate]|apply Forall_nil].
  - constructor; [split; vm_compute; reflexivity|]. constructor; [split; vm_compute; reflexivity|constructor].
  - exists (key "he<s>" ++ [233%N] ++ key "<p>h"). split; [repeat (constructor; [left; reflexivity|]); constructor|]. split; [repeat (constructor; [discriminate|]); constructor|reflexivity].
  - exists [1; 1]%nat. split; reflexivity.
  - repeat (apply Forall_cons; [intros t x z Ht E; apply (no_open x 60%N z t _ E); [destruct Ht as [<-|[<-|[]]]; now left|cbn; intuition discriminate]|]). apply Forall_nil.
  - split; [split; [constructor|intros _; split; vm_compute; reflexivity]|split; [reflexivity|vm_compute; auto]].
Qed.
Definition decoded_by (c : config) (compile : str -> option (str -> list (Z * Z))) (s : str) : option (list Z * res str) :=
  match from_reader (fun v => v) (fun q => q) (fun s => s) (fun _ => Err) compile (fun _ _ => []) (Some c) with
  | Ok l => match assemble u55 (fun _ => false) (fun _ => false) (fun _ => false) (fun _ => false) (fun s => s) lf_lib (fun _ => []) (fun q => q) (fun _ _ => false) 0%Q 0%Q Qplus (fun _ => 0%Q) (fun q => q) (fun _ _ _ => Err) l with
            | Ok a => match tk_encode (isort start_key) (isort id_key) (as_tok a) OByte (ISingle (Raw s)) true with Ok (Some e) => Some (ids e, as_decode a (ids e) true) | _ => None end
            | _ => None
            end
  | _ => None
  end.
Example C76_special_example : match decoded_by sp_file (fun _ => None) (written (fst sp_text) (snd sp_text)) with Some (_, r) => r | None => Err end = Ok (key "he" ++ [195; 169]%N ++ key "h").
Proof. vm_compute. reflexivity. Qed.

(** The text "he<p>é<s>h": "<p>" is listed after "<s>", which follows it, and stays. *)
Definition so_text : str * list (str * Z * str) := (key "he", [(key "<p>", 258, [195; 169]%N); (key "<s>", 257, key "h")]).
Definition so_found : str * list (str * Z * str) := (key "he<p>" ++ [195; 169]%N, [(key "<s>", 257, key "h")]).
Example C76_order_meets : clean (written (fst so_text) (snd so_text)) /\ found_in sp_ids so_text so_found.
Proof.
  split; [|split; [|split; [|split]]].
  - exists (key "he<p>" ++ [233%N] ++ key "<s>h"). split; [repeat (constructor; [left; reflexivity|]); constructor|]. split; [repeat (constructor; [discriminate|]); constructor|reflexivity].
  - repeat (apply Forall_cons; [cbn; tauto|]). apply Forall_nil.
  - repeat (constructor; [vm_compute; intuition discriminate|]). constructor.
  - repeat (apply Forall_cons; [intros t x z Ht E; apply (no_open x 60%N z t _ E); [destruct Ht as [<-|[<-|[]]]; now left|cbn; intuition discriminate]|]). apply Forall_nil.
  - apply (found_lost sp_ids (key "he") (key "<p>") 258 [195; 169]%N [(key "<s>", 257, key "h")] [195; 169]%N [(key "<s>", 257, key "h")] (key "<s>", 257, key "h")); [|now left|exists 0%nat, 1%nat; repeat split; auto]. apply found_kept; [apply found_end|intros y []].
Qed.
Example C76_order_example : match decoded_by sp_file (fun _ => None) (written (fst so_text) (snd so_text)) with Some (_, r) => r | None => Err end = Ok (key "he<p>" ++ [195; 169]%N ++ key "h").
Proof. vm_compute. reflexivity. Qed.

(** The metaspace file with "</s>" and "<s>", and the text "a b</s>b<s> a". *)
Definition mp_file : config := Config None None [TC 4 (key "</s>") false false false false true; TC 5 (key "<s>") false false false false true] None (Some ms_pre) (Some ms_post) (Some ms_dec) (Some ms_model).
Lemma mp_file_ok quoted : metaspace_file (fun s => s) ms_compile quoted (tells_prefix (fun s => s) ms_compile quoted 9601 (prepends Always)) mt_vocab [(mt_mark, key "a")] 9601 Always (Some ms_processor) None mp_file.
Proof.
  destruct (ms_file_ok quoted ms_dec _ (ms_dec_ok quoted)) as (mo & pt & de & unk & suffix & C1 & C2 & C3 & C4 & C5 & Bs & Ip & Sy & Ipo & Ipa & Nu & Sm & M0 & Vm & Ap).
  exists mo, pt, de, unk, suffix. split; [exact C1|]. split; [exact C2|]. split; [exact C3|]. split; [exact C4|]. split; [exact C5|]. split; [exact Bs|]. split; [exact Ip|]. split; [exact Sy|]. split; [exact Ipo|]. split; [exact Ipa|]. split; [exact Nu|]. split; [exact Sm|]. split; [exact M0|]. split; [exact Vm|].
  repeat (apply Forall_cons; [split; [discriminate|]; split; [apply plain_valid; reflexivity|]; intros _; intros [(r & E)|(x & y & [E|[]] & F)]; [revert E; apply no_rune; reflexivity|injection E as <- <-; discriminate F]|]). apply Forall_nil.
Qed.
Definition mp_ids : list (str * Z) := [(key "</s>", 4); (key "<s>", 5)].
Definition mp_text : str * list (str * Z * str) := (key "a b", [(key "</s>", 4, key "b"); (key "<s>", 5, key " a")]).
Example C76_metaspace_special_meets : Forall plain_special (c_added mp_file) /\ NoDup (map tc_content (c_added mp_file)) /\ Forall (fun t => enclosed 60 62 (tc_content t)) (c_added mp_file) /\ with_ids (fun s => vget s mt_vocab) (zlen mt_vocab) (c_added mp_file) mp_ids /\
  clean (written (fst mp_text) (snd mp_text)) /\ in_order mp_ids (snd mp_text) /\
  Forall (fun s => valid_utf8 s /\ free_of (map tc_content (c_added mp_file)) s /\ Forall (fun c => white c = false -> vget (encode_rune c) mt_vocab <> None) (runes s)) (between mp_text) /\
  (forall add, ends_with (special_ids (fun s => vget s mt_vocab) (zlen mt_vocab) (c_added mp_file)) false add (Some ms_processor) None).
Proof.
  split; [|split; [|split; [|split; [|split; [|split; [|split]]]]]].
  - repeat (apply Forall_cons; [unfold plain_special; tauto|]). apply Forall_nil.
  - constructor; [intros [H|[]]; discriminate H|]. constructor; [easy|constructor].
  - apply Forall_cons; [exists (key "/s"); split; [reflexivity|split; cbn; intuition discriminate]|]. apply Forall_cons; [exists (key "s"); split; [reflexivity|split; cbn; intuition discriminate]|apply Forall_nil].
  - constructor; [split; vm_compute; reflexivity|]. constructor; [split; vm_compute; reflexivity|constructor].
  - exists (key "a b</s>b<s> a"). split; [repeat (constructor; [left; reflexivity|]); constructor|]. split; [repeat (constructor; [discriminate|]); constructor|reflexivity].
  - exists [1; 1]%nat. split; reflexivity.
  - repeat (apply Forall_cons; [split; [apply plain_valid; reflexivity|split; [intros t x z Ht E; apply (no_open x 60%N z t _ E); [destruct Ht as [<-|[<-|[]]]; now left|cbn; intuition discriminate]|]]|]); [| | |apply Forall_nil];
      (repeat (apply Forall_cons; [first [intros H; discriminate H|intros _; vm_compute; discriminate]|]); apply Forall_nil).
  - intros add. destruct ms_text as (_ & _ & _ & _ & H & _). specialize (H add). destruct H as [[H1 [H2 H3]] H4]. split; [|exact I]. split; [exact H1|]. split; [exact H2|].
    intros _ id l H. cbn [aget] in H. destruct (str_eqb id _); [|discriminate H]. injection H as <-. constructor; [vm_compute; reflexivity|constructor].
Qed.
Example C76_metaspace_special_example : decoded_by mp_file ms_compile (key "a b</s>b<s> a") = Some ([3; 0; 2; 4; 0; 2; 5; 3; 4], Ok (key "a b b a")).
Proof. vm_compute. reflexivity. Qed.

(** The metaspace file with the tokens "a b" and "a  b", and the text "ba  bba ba": "a  b" is listed
    after "a b", which follows it, and stays. *)
Definition mo_file : config := Config None None [TC 4 (key "a b") false false false false true; TC 5 (key "a  b") false false false false true] None (Some ms_pre) (Some ms_post) (Some ms_dec) (Some ms_model).
Lemma mo_file_ok quoted : metaspace_file (fun s => s) ms_compile quoted (tells_prefix (fun s => s) ms_compile quoted 9601 (prepends Always)) mt_vocab [(mt_mark, key "a")] 9601 Always (Some ms_processor) None mo_file.
Proof.
  destruct (ms_file_ok quoted ms_dec _ (ms_dec_ok quoted)) as (mo & pt & de & unk & suffix & C1 & C2 & C3 & C4 & C5 & Bs & Ip & Sy & Ipo & Ipa & Nu & Sm & M0 & Vm & Ap).
  exists mo, pt, de, unk, suffix. split; [exact C1|]. split; [exact C2|]. split; [exact C3|]. split; [exact C4|]. split; [exact C5|]. split; [exact Bs|]. split; [exact Ip|]. split; [exact Sy|]. split; [exact Ipo|]. split; [exact Ipa|]. split; [exact Nu|]. split; [exact Sm|]. split; [exact M0|]. split; [exact Vm|].
  repeat (apply Forall_cons; [split; [discriminate|]; split; [apply plain_valid; reflexivity|]; intros _; intros [(r & E)|(x & y & [E|[]] & F)]; [revert E; apply no_rune; reflexivity|injection E as <- <-; discriminate F]|]). apply Forall_nil.
Qed.
Definition mo_ids : list (str * Z) := [(key "a b", 4); (key "a  b", 5)].
Definition mo_text : str * list (str * Z * str) := (key "b", [(key "a  b", 5, key "b"); (key "a b", 4, key "a")]).
Definition mo_found : str * list (str * Z * str) := (key "ba  bb", [(key "a b", 4, key "a")]).
Lemma mo_found_in : found_in mo_ids mo_text mo_found.
Proof.
  split; [|split; [|split]].
  - repeat (apply Forall_cons; [cbn; tauto|]). apply Forall_nil.
  - repeat (constructor; [vm_compute; intuition discriminate|]). constructor.
  - repeat (apply Forall_cons; [intros t x z Ht E; apply (no_open x 32%N z t _ E); [destruct Ht as [<-|[<-|[]]]; right; now left|cbn; intuition discriminate]|]). apply Forall_nil.
  - apply (found_lost mo_ids (key "b") (key "a  b") 5 (key "b") [(key "a b", 4, key "a")] (key "b") [(key "a b", 4, key "a")] (key "a b", 4, key "a")); [|now left|exists 0%nat, 1%nat; repeat split; auto]. apply found_kept; [apply found_end|intros y []].
Qed.
Example C76_metaspace_order_meets : Forall plain_special (c_added mo_file) /\ NoDup (map tc_content (c_added mo_file)) /\ Forall (fun t => enclosed 97 98 (tc_content t)) (c_added mo_file) /\ with_ids (fun s => vget s mt_vocab) (zlen mt_vocab) (c_added mo_file) mo_ids /\
  clean (written (fst mo_text) (snd mo_text)) /\ found_in mo_ids mo_text mo_found /\
  Forall (fun s => valid_utf8 s /\ Forall (fun c => white c = false -> vget (encode_rune c) mt_vocab <> None) (runes s)) (between mo_found) /\
  (forall add, ends_with (special_ids (fun s => vget s mt_vocab) (zlen mt_vocab) (c_added mo_file)) false add (Some ms_processor) None).
Proof.
  split; [|split; [|split; [|split; [|split; [|split; [exact mo_found_in|split]]]]]].
  - repeat (apply Forall_cons; [unfold plain_special; tauto|]). apply Forall_nil.
  - constructor; [intros [H|[]]; discriminate H|]. constructor; [easy|constructor].
  - apply Forall_cons; [exists (key " "); split; [reflexivity|split; cbn; intuition discriminate]|]. apply Forall_cons; [exists (key "  "); split; [reflexivity|split; cbn; intuition discriminate]|apply Forall_nil].
  - constructor; [split; vm_compute; reflexivity|]. constructor; [split; vm_compute; reflexivity|constructor].
  - exists (key "ba  bba ba"). split; [repeat (constructor; [left; reflexivity|]); constructor|]. split; [repeat (constructor; [discriminate|]); constructor|reflexivity].
  - repeat (apply Forall_cons; [split; [apply plain_valid; reflexivity|]|]); [| |apply Forall_nil];
      (repeat (apply Forall_cons; [first [intros H; discriminate H|intros _; vm_compute; discriminate]|]); apply Forall_nil).
  - intros add. destruct ms_text as (_ & _ & _ & _ & H & _). specialize (H add). destruct H as [[H1 [H2 H3]] H4]. split; [|exact I]. split; [exact H1|]. split; [exact H2|].
    intros _ id l H. cbn [aget] in H. destruct (str_eqb id _); [|discriminate H]. injection H as <-. constructor; [vm_compute; reflexivity|constructor].
Qed.
Example C76_metaspace_order_example : decoded_by mo_file ms_compile (key "ba  bba ba") = Some ([0; 2; 1; 0; 0; 2; 2; 4; 3; 4], Ok (key "ba  bb a")).
Proof. vm_compute. reflexivity. Qed.
