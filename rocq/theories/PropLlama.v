(** C88: tokenizers loaded from files that mark spaces by a normalizer and take the marks back when
    decoding, as those of Llama. *)
From Coq Require Import String QArith.
From Verif Require Import Base BaseProofs Utf8Model Utf8Proofs NormalizedModel NormalizedSpec EncodingModel BpeModel AddedVocabModel AddedVocabSpec AddedFindProofs AddedPatternModel PatternModel DecoderModel PreTokenizedModel PreTokenizedSpec PreTokenizerModel PreTokenizerSpec
  ProcessorModel PipelineModel PipelineSpec PlacedProofs SpmModel UnicodeNormModel PretrainedModel ReturnSpec RoundTripSpec ConfigModel ConfigSpec ConfigLoadProofs PropByteLevel PropPipeline PropReturn PropRoundTrip PropMetaTrip PropConfig
  LoadedModel LoadedSpec LoadedProofs PropLoaded ItemsSpec LlamaSpec LlamaProofs LlamaPartsProofs OrderSpec OrderProofs.
Open Scope Z_scope.
Open Scope list_scope.

(** Texts of known characters in which no listed token is written, neither before nor after marking:
    they come back, each led by a space, without the first space; marks come back as spaces; if all
    texts are empty, decoding panics. *)
Theorem C88_inputs_partial : forall sort_start sort_id, sorts start_key sort_start -> sorts id_key sort_id ->
  forall order, (forall v, Permutation (order v) v) ->
  forall to32 lower base64 compile quoted u is_word cc mn sp lib graphemes (S : Type) (of_q : Q -> S) lt bot zero plus bonus penal dropping
    v ms mark fallback po pa c,
  llama_file lower base64 compile quoted v ms mark fallback po pa c ->
  exists l a, from_reader order to32 lower base64 compile quoted (Some c) = Ok l /\
    assemble u is_word cc mn sp lower lib graphemes of_q lt bot zero plus bonus penal dropping l = Ok a /\ tk_processor (as_tok a) = po /\ tk_padding (as_tok a) = pa /\
    forall ot x add, clean_inputs x -> ot <> OInvalid ->
      Forall (fun s => unwritten (c_added c) s /\ unwritten (c_added c) (marking mark s) /\ Forall (fun r => r = 32%N \/ vget (encode_rune r) v <> None) (runes s)) (encode_texts x) ->
      ends_with (special_ids (fun s => vget s v) (zlen v) (c_added c)) (dual x) add po pa ->
      exists e, tk_encode sort_start sort_id (as_tok a) ot x add = Ok (Some e) /\
        as_decode a (ids e) true = match concat (map (led_by_space mark) (encode_texts x)) with [] => Panic | _ :: t => Ok t end.
Proof.
  intros ss si HS HI order HO to32 lower base64 compile quoted u is_word cc mn sp lib graphemes S of_q lt bot zero plus bonus penal dropping v ms mark fallback po pa c F.
  exact (llama_loaded ss si HS HI order HO to32 lower base64 compile quoted u is_word cc mn sp lib graphemes of_q lt bot zero plus bonus penal dropping C54_bpe v ms mark fallback po pa c F).
Qed.
Print Assumptions C88_inputs_partial.

(** Special tokens, such as <s>, written in the texts in the order in which the file lists them: they
    are gone, and what follows each of them is led by a space. *)
Theorem C88_special_partial : forall sort_start sort_id, sorts start_key sort_start -> sorts id_key sort_id ->
  forall order, (forall v, Permutation (order v) v) ->
  forall to32 lower base64 compile quoted u is_word cc mn sp lib graphemes (S : Type) (of_q : Q -> S) lt bot zero plus bonus penal dropping
    v ms mark fallback po pa c l0 op cl, op <> cl ->
  llama_file lower base64 compile quoted v ms mark fallback po pa c ->
  Forall plain_special (c_added c) -> NoDup (map tc_content (c_added c)) -> Forall (fun t => enclosed op cl (tc_content t)) (c_added c) -> with_ids (fun s => vget s v) (zlen v) (c_added c) l0 ->
  exists l a, from_reader order to32 lower base64 compile quoted (Some c) = Ok l /\
    assemble u is_word cc mn sp lower lib graphemes of_q lt bot zero plus bonus penal dropping l = Ok a /\ tk_processor (as_tok a) = po /\ tk_padding (as_tok a) = pa /\
    forall ot x qs add, clean_inputs x -> ot <> OInvalid -> encode_texts x = map (fun q => written (fst q) (snd q)) qs ->
      Forall (fun q => in_order l0 (snd q)) qs ->
      Forall (fun s => free_of (map tc_content (c_added c)) s /\ Forall (fun r => r = 32%N \/ vget (encode_rune r) v <> None) (runes s)) (flat_map between qs) ->
      ends_with (special_ids (fun s => vget s v) (zlen v) (c_added c)) (dual x) add po pa ->
      exists e, tk_encode sort_start sort_id (as_tok a) ot x add = Ok (Some e) /\
        as_decode a (ids e) true = match concat (map (led_by_space mark) (flat_map between qs)) with [] => Panic | _ :: t => Ok t end.
Proof.
  intros ss si HS HI order HO to32 lower base64 compile quoted u is_word cc mn sp lib graphemes S of_q lt bot zero plus bonus penal dropping v ms mark fallback po pa c l0 op cl Noc F.
  intros Pl Nd Enc W. destruct (llama_between ss si HS HI order HO to32 lower base64 compile quoted u is_word cc mn sp lib graphemes of_q lt bot zero plus bonus penal dropping C54_bpe op cl v ms mark fallback po pa c l0 Noc F Pl Nd Enc W) as (l & a & E1 & E2 & E3 & E4 & D).
  exists l, a. split; [exact E1|]. split; [exact E2|]. split; [exact E3|]. split; [exact E4|]. intros ot x qs add C Hot Ex O Pa En. apply (D ot x qs add C Hot Ex); [|eapply Forall_impl; [|exact Pa]; cbn; tauto|exact En].
  apply (cut_ordered op cl Noc ss si HS HI _ _ _ _ Nd Enc W qs O). eapply Forall_impl; [|exact Pa]. cbn. tauto.
Qed.
Print Assumptions C88_special_partial.

(** The tokens in any order, each of them once at most. *)
Theorem C88_order_partial : forall sort_start sort_id, sorts start_key sort_start -> sorts id_key sort_id ->
  forall order, (forall v, Permutation (order v) v) ->
  forall to32 lower base64 compile quoted u is_word cc mn sp lib graphemes (S : Type) (of_q : Q -> S) lt bot zero plus bonus penal dropping
    v ms mark fallback po pa c l0 op cl, op <> cl ->
  llama_file lower base64 compile quoted v ms mark fallback po pa c ->
  Forall plain_special (c_added c) -> NoDup (map tc_content (c_added c)) -> Forall (fun t => enclosed op cl (tc_content t)) (c_added c) -> with_ids (fun s => vget s v) (zlen v) (c_added c) l0 ->
  exists l a, from_reader order to32 lower base64 compile quoted (Some c) = Ok l /\
    assemble u is_word cc mn sp lower lib graphemes of_q lt bot zero plus bonus penal dropping l = Ok a /\ tk_processor (as_tok a) = po /\ tk_padding (as_tok a) = pa /\
    forall ot x qs rs add, clean_inputs x -> ot <> OInvalid -> encode_texts x = map (fun q => written (fst q) (snd q)) qs ->
      Forall2 (found_in l0) qs rs ->
      Forall (fun s => Forall (fun r => r = 32%N \/ vget (encode_rune r) v <> None) (runes s)) (flat_map between rs) ->
      ends_with (special_ids (fun s => vget s v) (zlen v) (c_added c)) (dual x) add po pa ->
      exists e, tk_encode sort_start sort_id (as_tok a) ot x add = Ok (Some e) /\
        as_decode a (ids e) true = match concat (map (led_by_space mark) (flat_map between rs)) with [] => Panic | _ :: t => Ok t end.
Proof.
  intros ss si HS HI order HO to32 lower base64 compile quoted u is_word cc mn sp lib graphemes S of_q lt bot zero plus bonus penal dropping v ms mark fallback po pa c l0 op cl Noc F.
  intros Pl Nd Enc W. destruct (llama_between ss si HS HI order HO to32 lower base64 compile quoted u is_word cc mn sp lib graphemes of_q lt bot zero plus bonus penal dropping C54_bpe op cl v ms mark fallback po pa c l0 Noc F Pl Nd Enc W) as (l & a & E1 & E2 & E3 & E4 & D).
  exists l, a. split; [exact E1|]. split; [exact E2|]. split; [exact E3|]. split; [exact E4|]. intros ot x qs rs add C Hot Ex O Pa En. destruct (cut_found op cl Noc ss si HS HI _ _ _ _ Nd Enc W qs rs O) as [Ew Fc]. apply (D ot x rs add C Hot); [now rewrite Ex, Ew|exact Fc|exact Pa|exact En].
Qed.
Print Assumptions C88_order_partial.

(** A text without marks comes back; one with marks does not. *)
Theorem C88_text_partial : forall sort_start sort_id, sorts start_key sort_start -> sorts id_key sort_id ->
  forall order, (forall v, Permutation (order v) v) ->
  forall to32 lower base64 compile quoted u is_word cc mn sp lib graphemes (S : Type) (of_q : Q -> S) lt bot zero plus bonus penal dropping
    v ms mark fallback po pa c,
  llama_file lower base64 compile quoted v ms mark fallback po pa c ->
  exists l a, from_reader order to32 lower base64 compile quoted (Some c) = Ok l /\
    assemble u is_word cc mn sp lower lib graphemes of_q lt bot zero plus bonus penal dropping l = Ok a /\
    forall ot rs add, Forall (fun r => scalar r /\ r <> 0%N /\ (r = 32%N \/ vget (encode_rune r) v <> None)) rs -> rs <> [] -> ot <> OInvalid ->
      unwritten (c_added c) (encode rs) -> unwritten (c_added c) (marking mark (encode rs)) ->
      ends_with (special_ids (fun s => vget s v) (zlen v) (c_added c)) false add po pa ->
      exists e t, tk_encode sort_start sort_id (as_tok a) ot (ISingle (Raw (encode rs))) add = Ok (Some e) /\ as_decode a (ids e) true = Ok t /\
        (t = encode rs <-> ~ In mark rs).
Proof.
  intros ss si HS HI order HO to32 lower base64 compile quoted u is_word cc mn sp lib graphemes S of_q lt bot zero plus bonus penal dropping v ms mark fallback po pa c F.
  destruct (C88_inputs_partial ss si HS HI order HO to32 lower base64 compile quoted u is_word cc mn sp lib graphemes S of_q lt bot zero plus bonus penal dropping v ms mark fallback po pa c F) as (l & a & E1 & E2 & _ & _ & D).
  exists l, a. split; [exact E1|]. split; [exact E2|]. intros ot rs add Hr Ne Hot U1 U2 En.
  assert (Sc : Forall scalar rs) by (eapply Forall_impl; [|exact Hr]; cbn; tauto).
  destruct (D ot (ISingle (Raw (encode rs))) add) as (e & Ee & Ed).
  - exists rs. split; [exact Sc|]. split; [|reflexivity]. eapply Forall_impl; [|exact Hr]; cbn; tauto.
  - exact Hot.
  - constructor; [|constructor]. split; [exact U1|]. split; [exact U2|]. rewrite runes_encode by exact Sc. eapply Forall_impl; [|exact Hr]; cbn; tauto.
  - exact En.
  - exists e. cbn [encode_texts input_texts map concat] in Ed. rewrite app_nil_r in Ed. unfold led_by_space in Ed. destruct (encode rs) as [|b t] eqn:Eb.
    + exfalso. destruct rs as [|r rs']; [congruence|]. rewrite encode_cons in Eb. apply app_eq_nil in Eb as [Eb _]. exact (encode_rune_nonempty r Eb).
    + rewrite <- Eb in *. rewrite runes_encode in Ed by exact Sc. exists (encode (blanks mark rs)). split; [exact Ee|]. split; [exact Ed|].
      destruct F as (_ & _ & _ & _ & _ & _ & _ & _ & _ & _ & _ & _ & _ & _ & _ & _ & _ & _ & M32 & _). split.
      * intros E Hm. apply (f_equal runes) in E. rewrite !runes_encode in E by first [exact Sc|apply exchange_scalar; [left; reflexivity|exact Sc]].
        clear -E Hm M32. induction rs as [|r rs IH]; [exact Hm|]. cbn [blanks map] in E. injection E as E1 E2. destruct Hm as [->|Hm]; [rewrite N.eqb_refl in E1; congruence|now apply IH].
      * intros Hm. f_equal. clear -Hm. induction rs as [|r rs IH]; [reflexivity|]. cbn [blanks map]. destruct (N.eqb_spec r mark) as [->|_]; [elim Hm; now left|]. f_equal. apply IH. intros H. apply Hm. now right.
Qed.
Print Assumptions C88_text_partial.

(** Encoding the empty text returns; decoding what it gives panics. *)
Theorem C88_empty_refuted : forall sort_start sort_id, sorts start_key sort_start -> sorts id_key sort_id ->
  forall order, (forall v, Permutation (order v) v) ->
  forall to32 lower base64 compile quoted u is_word cc mn sp lib graphemes (S : Type) (of_q : Q -> S) lt bot zero plus bonus penal dropping
    v ms mark fallback po pa c,
  llama_file lower base64 compile quoted v ms mark fallback po pa c ->
  exists l a, from_reader order to32 lower base64 compile quoted (Some c) = Ok l /\
    assemble u is_word cc mn sp lower lib graphemes of_q lt bot zero plus bonus penal dropping l = Ok a /\
    forall ot add, ot <> OInvalid -> ends_with (special_ids (fun s => vget s v) (zlen v) (c_added c)) false add po pa ->
      exists e, tk_encode sort_start sort_id (as_tok a) ot (ISingle (Raw [])) add = Ok (Some e) /\ as_decode a (ids e) true = Panic.
Proof.
  intros ss si HS HI order HO to32 lower base64 compile quoted u is_word cc mn sp lib graphemes S of_q lt bot zero plus bonus penal dropping v ms mark fallback po pa c F.
  destruct (C88_inputs_partial ss si HS HI order HO to32 lower base64 compile quoted u is_word cc mn sp lib graphemes S of_q lt bot zero plus bonus penal dropping v ms mark fallback po pa c F) as (l & a & E1 & E2 & _ & _ & D).
  exists l, a. split; [exact E1|]. split; [exact E2|]. intros ot add Hot En.
  assert (U : unwritten (c_added c) []).
  { destruct F as (_ & _ & _ & _ & _ & _ & _ & _ & _ & _ & _ & _ & _ & _ & _ & _ & _ & _ & _ & _ & _ & _ & _ & _ & Ap & _). intros t x z Ht E. unfold added_apart in Ap. rewrite Forall_forall in Ap. destruct (Ap t Ht) as (Nt & _).
    symmetry in E. apply app_eq_nil in E as [_ E]. apply app_eq_nil in E as [E _]. contradiction. }
  destruct (D ot (ISingle (Raw [])) add) as (e & Ee & Ed); [exists []; repeat split; constructor|exact Hot|constructor; [|constructor]; split; [exact U|]; split; [exact U|constructor]|exact En|]. now exists e.
Qed.
Print Assumptions C88_empty_refuted.

(** The model of PropLoaded with the mark U+2581, "a", "b" and the mark merged with "a"; "</s>" at the end. *)
Definition ll_quoted (q s : str) : list (Z * Z) := match runes q with [r] => find_chars (N.eqb r) s | _ => [] end.
Definition ll_rep (a b : str) : conf := [(key "type", JStr (key "Replace")); (key "pattern", JObj [(key "String", JStr a)]); (key "content", JStr b)].
Definition ll_norm : conf :=
  [(key "type", JStr (key "Sequence")); (key "normalizers", JArr [JObj [(key "type", JStr (key "Prepend")); (key "prepend", JStr mt_mark)]; JObj (ll_rep [32%N] mt_mark)])].
Definition ll_dec : conf :=
  [(key "type", JStr (key "Sequence"));
   (key "decoders", JArr [JObj (ll_rep mt_mark [32%N]); JObj [(key "type", JStr (key "ByteFallback"))]; JObj [(key "type", JStr (key "Fuse"))];
     JObj [(key "type", JStr (key "Strip")); (key "content", JStr [32%N]); (key "start", jint 1); (key "stop", jint 0)]])].
Definition ll_with (ad : list token_config) : config := Config None None ad (Some ll_norm) None (Some ms_post) (Some ll_dec) (Some ms_model).
Definition ll_file : config :=
  ll_with [TC 4 (key "</s>") false false false false true; TC 5 (key "<xy>") false false false true false].
Lemma ll_finds r : scalar r -> finds_char ll_quoted r.
Proof. intros Sr s. unfold ll_quoted. pose proof (runes_encode [r] (Forall_cons r Sr (Forall_nil _))) as E. rewrite encode_cons, app_nil_r in E. now rewrite E. Qed.
Lemma ll_with_ok ad : added_apart [(mt_mark, key "a")] ad -> Forall (fun t => tc_single t = false) ad ->
  llama_file (fun s => s) (fun _ => Err) (fun _ => None) ll_quoted mt_vocab [(mt_mark, key "a")] 9601 true (Some ms_processor) None (ll_with ad).
Proof.
  intros Ap Hs1.
  assert (Sm : scalar 9601) by (left; reflexivity).
  destruct (ms_file_ok ll_quoted ll_dec (fun _ => True) I) as (mo & pt & de & unk & suffix & C1 & C2 & C3 & C4 & C5 & Bs & Ip & Id & Ipo & Ipa & Nu & _).
  injection C1 as <-. injection C3 as <-.
  exists ms_model, ll_norm, ll_dec, unk, suffix. split; [reflexivity|]. split; [reflexivity|]. split; [reflexivity|]. split; [reflexivity|]. split; [reflexivity|]. split; [exact Bs|].
  assert (Pg : forall a b, pattern_given (fun _ => None) ll_quoted (ll_rep a b) false (PString a (ll_quoted a))).
  { intros a b. apply (PG_string _ _ _ [(key "String", JStr a)] a); [st|st|om]. }
  split; [|split].
  - eapply IN_sequence; [st|st|]. constructor; [apply IN_prepend; [st|left; st]|]. constructor; [|constructor]. eapply IN_replace; [st|apply Pg|reflexivity|st].
  - eapply ID_sequence; [st|st|]. constructor; [eapply ID_replace; [st|apply Pg|reflexivity|st]|]. constructor; [eapply ID_plain; [cbn; tauto|st]|]. constructor; [eapply ID_plain; [cbn; tauto|st]|]. constructor; [apply ID_strip; st|constructor].
  - split; [exact Ipo|]. split; [exact Ipa|]. split; [exact Nu|]. split; [exact Sm|]. split; [discriminate|]. split; [discriminate|]. split; [discriminate|]. split; [vm_compute; discriminate|].
    split; [apply ll_finds; exact Sm|]. split; [apply ll_finds; left; reflexivity|]. split; [|split; [exact Ap|exact Hs1]].
    intros _ x y rs a b [E|[]] Sc Er X. injection E as <- <-. apply (f_equal (@length N)) in Er. pose proof (blanks_short 9601 rs) as Hs. rewrite X, <- Er in Hs. cbn in Hs. lia.
Qed.
Lemma ll_file_ok : llama_file (fun s => s) (fun _ => Err) (fun _ => None) ll_quoted mt_vocab [(mt_mark, key "a")] 9601 true (Some ms_processor) None ll_file.
Proof.
  apply ll_with_ok; [|repeat constructor].
  destruct (ms_file_ok ll_quoted ll_dec (fun _ => True) I) as (mo & pt & de & unk & suffix & _ & _ & _ & _ & _ & _ & _ & _ & _ & _ & _ & _ & _ & _ & Ap). exact Ap.
Qed.
Example C88_meets : let rs := [97; 32; 98]%N in
  Forall (fun r => scalar r /\ r <> 0%N /\ (r = 32%N \/ vget (encode_rune r) mt_vocab <> None)) rs /\ ~ In 9601%N rs /\
  unwritten (c_added ll_file) (encode rs) /\ unwritten (c_added ll_file) (marking 9601 (encode rs)) /\
  (forall add, ends_with (special_ids (fun s => vget s mt_vocab) (zlen mt_vocab) (c_added ll_file)) false add (Some ms_processor) None).
Proof.
  cbv zeta. split; [|split; [cbn; intuition discriminate|split; [|split]]].
  - constructor; [|constructor; [|constructor; [|constructor]]]; (split; [left; reflexivity|split; [discriminate|]]); [right; vm_compute; discriminate|now left|right; vm_compute; discriminate].
  - intros t x z [<-|[<-|[]]] E; apply (f_equal (@length N)) in E; rewrite !app_length in E; cbn in E; lia.
  - intros t x z Ht E. assert (X : In 60%N (marking 9601 (encode [97; 32; 98]%N))) by (rewrite E; apply in_or_app; right; apply in_or_app; left; destruct Ht as [<-|[<-|[]]]; now left). vm_compute in X. intuition discriminate.
  - apply ms_text.
Qed.
(** "a b" and " a" come back; "a▁b" as "a b"; the empty text panics. *)
Definition ll_decoded_by (c : config) (s : str) : option (list Z * res str) :=
  match from_reader (fun v => v) (fun q => q) (fun s => s) (fun _ => Err) (fun _ => None) ll_quoted (Some c) with
  | Ok l => match assemble u55 (fun _ => false) (fun _ => false) (fun _ => false) (fun _ => false) (fun s => s) lf_lib (fun _ => []) (fun q => q) (fun _ _ => false) 0%Q 0%Q Qplus (fun _ => 0%Q) (fun q => q) (fun _ _ _ => Err) l with
            | Ok a => match tk_encode (isort start_key) (isort id_key) (as_tok a) OByte (ISingle (Raw s)) true with Ok (Some e) => Some (ids e, as_decode a (ids e) true) | _ => None end
            | _ => None
            end
  | _ => None
  end.
Definition ll_decoded : str -> option (list Z * res str) := ll_decoded_by ll_file.
Example C88_example : map ll_decoded [[97; 32; 98]%N; [32; 97]%N; ([97%N] ++ mt_mark ++ [98%N]); []] =
  [Some ([3; 0; 2; 4], Ok [97; 32; 98]%N); Some ([0; 3; 4], Ok [32; 97]%N); Some ([3; 0; 2; 4], Ok [97; 32; 98]%N); Some ([4], Panic)].
Proof. vm_compute. reflexivity. Qed.

(** The same file with "</s>" and "<s>", and the text "a b</s>b<s> a". *)
Definition ll_specials : config := ll_with [TC 4 (key "</s>") false false false false true; TC 5 (key "<s>") false false false false true].
Lemma ll_specials_ok : llama_file (fun s => s) (fun _ => Err) (fun _ => None) ll_quoted mt_vocab [(mt_mark, key "a")] 9601 true (Some ms_processor) None ll_specials.
Proof.
  apply ll_with_ok; [|repeat constructor].
  repeat (apply Forall_cons; [split; [discriminate|]; split; [apply plain_valid; reflexivity|]; intros _; intros [(r & E)|(x & y & [E|[]] & F)]; [revert E; apply no_rune; reflexivity|injection E as <- <-; discriminate F]|]). apply Forall_nil.
Qed.
Definition ll_ids : list (str * Z) := [(key "</s>", 4); (key "<s>", 5)].
Definition ll_text : str * list (str * Z * str) := (key "a b", [(key "</s>", 4, key "b"); (key "<s>", 5, key " a")]).
Example C88_special_meets : Forall plain_special (c_added ll_specials) /\ NoDup (map tc_content (c_added ll_specials)) /\
  Forall (fun t => enclosed 60 62 (tc_content t)) (c_added ll_specials) /\ with_ids (fun s => vget s mt_vocab) (zlen mt_vocab) (c_added ll_specials) ll_ids /\
  written (fst ll_text) (snd ll_text) = key "a b</s>b<s> a" /\ clean (key "a b</s>b<s> a") /\ in_order ll_ids (snd ll_text) /\
  Forall (fun s => free_of (map tc_content (c_added ll_specials)) s /\ Forall (fun r => r = 32%N \/ vget (encode_rune r) mt_vocab <> None) (runes s)) (between ll_text) /\
  (forall add, ends_with (special_ids (fun s => vget s mt_vocab) (zlen mt_vocab) (c_added ll_specials)) false add (Some ms_processor) None).
Proof.
  split; [|split; [|split; [|split; [|split; [|split; [|split; [|split]]]]]]].
  - repeat (apply Forall_cons; [unfold plain_special; tauto|]). apply Forall_nil.
  - constructor; [intros [H|[]]; discriminate H|]. constructor; [easy|constructor].
  - apply Forall_cons; [exists (key "/s"); split; [reflexivity|split; cbn; intuition discriminate]|]. apply Forall_cons; [exists (key "s"); split; [reflexivity|split; cbn; intuition discriminate]|apply Forall_nil].
  - constructor; [split; vm_compute; reflexivity|]. constructor; [split; vm_compute; reflexivity|constructor].
  - reflexivity.
  - exists (key "a b</s>b<s> a"). split; [repeat (constructor; [left; reflexivity|]); constructor|]. split; [repeat (constructor; [discriminate|]); constructor|reflexivity].
  - exists [1; 1]%nat. split; reflexivity.
  - repeat (apply Forall_cons; [split; [intros t x z Ht E; apply (f_equal (In 60%N)) in E; assert (X : In 60%N (x ++ t ++ z)) by (apply in_or_app; right; apply in_or_app; left; destruct Ht as [<-|[<-|[]]]; now left); rewrite <- E in X; vm_compute in X; intuition discriminate|]|]); [| | |apply Forall_nil].
    + cbn [runes]. repeat (apply Forall_cons; [first [left; reflexivity|right; vm_compute; discriminate]|]). apply Forall_nil.
    + repeat (apply Forall_cons; [first [left; reflexivity|right; vm_compute; discriminate]|]). apply Forall_nil.
    + repeat (apply Forall_cons; [first [left; reflexivity|right; vm_compute; discriminate]|]). apply Forall_nil.
  - intros add. destruct ms_text as (_ & _ & _ & _ & H & _). specialize (H add). destruct H as [[H1 [H2 H3]] H4]. split; [|exact I]. split; [exact H1|]. split; [exact H2|].
    intros _ id l H. cbn [aget] in H. destruct (str_eqb id _); [|discriminate H]. injection H as <-. constructor; [vm_compute; reflexivity|constructor].
Qed.
Example C88_special_example : ll_decoded_by ll_specials (key "a b</s>b<s> a") = Some ([3; 0; 2; 4; 0; 2; 5; 0; 3; 4], Ok (key "a b b  a")).
Proof. vm_compute. reflexivity. Qed.

(** The same file with "a b" and "a  b", and the text "ba  bba ba": "a  b" is listed after "a b", which
    follows it, and stays. *)
Definition lo_file : config := ll_with [TC 4 (key "a b") false false false false true; TC 5 (key "a  b") false false false false true].
Lemma lo_file_ok : llama_file (fun s => s) (fun _ => Err) (fun _ => None) ll_quoted mt_vocab [(mt_mark, key "a")] 9601 true (Some ms_processor) None lo_file.
Proof.
  apply ll_with_ok; [|repeat constructor].
  repeat (apply Forall_cons; [split; [discriminate|]; split; [apply plain_valid; reflexivity|]; intros _; intros [(r & E)|(x & y & [E|[]] & F)]; [revert E; apply no_rune; reflexivity|injection E as <- <-; discriminate F]|]). apply Forall_nil.
Qed.
Definition lo_ids : list (str * Z) := [(key "a b", 4); (key "a  b", 5)].
Definition lo_text : str * list (str * Z * str) := (key "b", [(key "a  b", 5, key "b"); (key "a b", 4, key "a")]).
Definition lo_found : str * list (str * Z * str) := (key "ba  bb", [(key "a b", 4, key "a")]).
Example C88_order_meets : Forall plain_special (c_added lo_file) /\ NoDup (map tc_content (c_added lo_file)) /\ Forall (fun t => enclosed 97 98 (tc_content t)) (c_added lo_file) /\ with_ids (fun s => vget s mt_vocab) (zlen mt_vocab) (c_added lo_file) lo_ids /\
  clean (written (fst lo_text) (snd lo_text)) /\ found_in lo_ids lo_text lo_found /\
  Forall (fun s => Forall (fun r => r = 32%N \/ vget (encode_rune r) mt_vocab <> None) (runes s)) (between lo_found) /\
  (forall add, ends_with (special_ids (fun s => vget s mt_vocab) (zlen mt_vocab) (c_added lo_file)) false add (Some ms_processor) None).
Proof.
  split; [|split; [|split; [|split; [|split; [|split; [split; [|split; [|split]]|split]]]]]].
  - repeat (apply Forall_cons; [unfold plain_special; tauto|]). apply Forall_nil.
  - constructor; [intros [H|[]]; discriminate H|]. constructor; [easy|constructor].
  - apply Forall_cons; [exists (key " "); split; [reflexivity|split; cbn; intuition discriminate]|]. apply Forall_cons; [exists (key "  "); split; [reflexivity|split; cbn; intuition discriminate]|apply Forall_nil].
  - constructor; [split; vm_compute; reflexivity|]. constructor; [split; vm_compute; reflexivity|constructor].
  - exists (key "ba  bba ba"). split; [repeat (constructor; [left; reflexivity|]); constructor|]. split; [repeat (constructor; [discriminate|]); constructor|reflexivity].
  - repeat (apply Forall_cons; [cbn; tauto|]). apply Forall_nil.
  - repeat (constructor; [vm_compute; intuition discriminate|]). constructor.
  - repeat (apply Forall_cons; [intros t x z Ht E; apply (f_equal (In 32%N)) in E; assert (X : In 32%N (x ++ t ++ z)) by (apply in_or_app; right; apply in_or_app; left; destruct Ht as [<-|[<-|[]]]; right; now left); rewrite <- E in X; vm_compute in X; intuition discriminate|]). apply Forall_nil.
  - apply (found_lost lo_ids (key "b") (key "a  b") 5 (key "b") [(key "a b", 4, key "a")] (key "b") [(key "a b", 4, key "a")] (key "a b", 4, key "a")); [|now left|exists 0%nat, 1%nat; repeat split; auto]. apply found_kept; [apply found_end|intros y []].
  - repeat (apply Forall_cons; [repeat (apply Forall_cons; [first [left; reflexivity|right; vm_compute; discriminate]|]); apply Forall_nil|]). apply Forall_nil.
  - intros add. destruct ms_text as (_ & _ & _ & _ & H & _). specialize (H add). destruct H as [[H1 [H2 H3]] H4]. split; [|exact I]. split; [exact H1|]. split; [exact H2|].
    intros _ id l H. cbn [aget] in H. destruct (str_eqb id _); [|discriminate H]. injection H as <-. constructor; [vm_compute; reflexivity|constructor].
Qed.
Example C88_order_example : ll_decoded_by lo_file (key "ba  bba ba") = Some ([0; 2; 1; 0; 0; 2; 2; 4; 3; 4], Ok (key "ba  bb a")).
Proof. vm_compute. reflexivity. Qed.
