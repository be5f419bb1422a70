(** C72: decoding an encoded text gives the text. *)
From Verif Require Import Base BaseProofs Utf8Model Utf8Proofs EncodingModel BpeModel BpeTokProofs BpeSaveModel AddedVocabModel AddedVocabSpec AddedFindProofs DecoderModel
  PreTokenizerModel PreTokenizerSpec ProcessorModel PipelineModel PipelineSpec PipelineProofs TokensSpec TokensProofs PreTokenizedModel ReturnSpec PropByteLevel PropPipeline PropTokens
  RoundTripSpec RoundTripBpeProofs RoundTripEndProofs RoundTripProofs ReturnModelProofs CutBytesProofs.
Open Scope Z_scope.

(** * Byte-level tokenizers *)

(** Encoding returns, and the ids decode to the texts of the input, one after the other, each
    without the added tokens found in it and with a space in front of each part if the setting
    asks for it. *)
Theorem C72_byte_level_partial : forall sort_start sort_id, sorts start_key sort_start -> sorts id_key sort_id ->
  forall t u prefix m av skip mk ot x add, byte_level (shown m av skip) u prefix t ->
  ending_returns t (dual x) add -> ending_hides (shown m av skip) t (dual x) add -> clean_inputs x -> ot <> OInvalid ->
  exists e, tk_encode sort_start sort_id t ot x add = Ok (Some e) /\
    decode_ids m av (Some (decode mk DByteLevel)) (ids e) skip =
      Ok (concat (map (fun s => concat (map (spaced prefix) (plain_parts sort_start sort_id t s))) (encode_texts x))).
Proof.
  intros ss si HS HI t u prefix m av skip mk ot x add (M1 & M2 & No & Pre & U & f & Fm & Mo & Sp).
  exact (round_trip ss si HS HI t f u prefix m av skip M1 M2 No Pre U Fm Mo Sp mk ot x add).
Qed.
Print Assumptions C72_byte_level_partial.

(** A text in which no added token is found comes back. *)
Theorem C72_text_partial : forall sort_start sort_id, sorts start_key sort_start -> sorts id_key sort_id ->
  forall t u prefix m av skip mk ot s add, byte_level (shown m av skip) u prefix t ->
  ending_returns t false add -> ending_hides (shown m av skip) t false add -> clean s -> ot <> OInvalid ->
  Forall (fun l => l = []) (mt_find (tk_raw t) s) -> Forall (fun l => l = []) (mt_find (tk_normalized t) s) ->
  exists e, tk_encode sort_start sort_id t ot (ISingle (Raw s)) add = Ok (Some e) /\
    decode_ids m av (Some (decode mk DByteLevel)) (ids e) skip = Ok (if prefix then spaced true s else s).
Proof.
  intros ss si HS HI t u prefix m av skip mk ot s add B R H C Hot F1 F2.
  destruct (C72_byte_level_partial ss si HS HI t u prefix m av skip mk ot (ISingle (Raw s)) add B R H C Hot) as (e & E & D). exists e. split; [exact E|]. rewrite D. f_equal.
  cbn [encode_texts input_texts map concat]. rewrite app_nil_r. destruct (unfound_parts ss si t s HS HI F1 F2) as [X Y]. destruct prefix; [apply Y|exact X].
Qed.
Print Assumptions C72_text_partial.

(** An added token given as a text is lost, whether special tokens are skipped or not. *)
Theorem C72_added_refuted : forall sort_start sort_id, sorts start_key sort_start -> sorts id_key sort_id ->
  forall t u prefix m av skip mk ot s id add, byte_level (shown m av skip) u prefix t ->
  ending_returns t false add -> ending_hides (shown m av skip) t false add -> clean s -> s <> [] -> ot <> OInvalid ->
  cut_added sort_start sort_id (tk_raw t) s = [(Some id, s)] ->
  exists e, tk_encode sort_start sort_id t ot (ISingle (Raw s)) add = Ok (Some e) /\
    decode_ids m av (Some (decode mk DByteLevel)) (ids e) skip = Ok [].
Proof.
  intros ss si HS HI t u prefix m av skip mk ot s id add B R H C Ne Hot K.
  destruct (C72_byte_level_partial ss si HS HI t u prefix m av skip mk ot (ISingle (Raw s)) add B R H C Hot) as (e & E & D). exists e. split; [exact E|]. rewrite D. f_equal.
  cbn [encode_texts input_texts map concat]. unfold plain_parts. rewrite K. destruct s; reflexivity.
Qed.
Print Assumptions C72_added_refuted.

(** * Cutting in front of the byte-level pre-tokenizer *)

(** With pre-tokenizers in front that cut the text and remove nothing, whatever they look for,
    and no prefix space, the texts come back as well. *)
Theorem C72_cut_partial : forall sort_start sort_id, sorts start_key sort_start -> sorts id_key sort_id ->
  forall u front t m av skip mk ot x add, cut_byte_level (shown m av skip) u front false t -> removes_nothing (PTSequence front) ->
  ending_returns t (dual x) add -> ending_hides (shown m av skip) t (dual x) add -> clean_inputs x -> ot <> OInvalid ->
  exists e, tk_encode sort_start sort_id t ot x add = Ok (Some e) /\
    decode_ids m av (Some (decode mk DByteLevel)) (ids e) skip =
      Ok (concat (map (fun s => concat (plain_parts sort_start sort_id t s)) (encode_texts x))).
Proof. exact whole_round_trip. Qed.
Print Assumptions C72_cut_partial.
Theorem C72_cut_text_partial : forall sort_start sort_id, sorts start_key sort_start -> sorts id_key sort_id ->
  forall u front t m av skip mk ot s add, cut_byte_level (shown m av skip) u front false t -> removes_nothing (PTSequence front) ->
  ending_returns t false add -> ending_hides (shown m av skip) t false add -> clean s -> ot <> OInvalid ->
  Forall (fun l => l = []) (mt_find (tk_raw t) s) -> Forall (fun l => l = []) (mt_find (tk_normalized t) s) ->
  exists e, tk_encode sort_start sort_id t ot (ISingle (Raw s)) add = Ok (Some e) /\
    decode_ids m av (Some (decode mk DByteLevel)) (ids e) skip = Ok s.
Proof.
  intros ss si HS HI u front t m av skip mk ot s add B K R H C Hot F1 F2.
  destruct (C72_cut_partial ss si HS HI u front t m av skip mk ot (ISingle (Raw s)) add B K R H C Hot) as (e & E & D). exists e. split; [exact E|]. rewrite D. f_equal.
  cbn [encode_texts input_texts map concat]. rewrite app_nil_r. destruct (unfound_parts ss si t s HS HI F1 F2) as [X _]. now rewrite spaced_false in X.
Qed.
Print Assumptions C72_cut_text_partial.
(** What comes back in general: the documented pieces of each part, with a space in front of
    every one of them if the setting asks for it. *)
Theorem C72_pieces_partial : forall sort_start sort_id, sorts start_key sort_start -> sorts id_key sort_id ->
  forall u front prefix cut t m av skip mk ot x add, cut_byte_level (shown m av skip) u front prefix t ->
  cutting (PTSequence front) -> documented u (PTSequence front) = Some cut ->
  ending_returns t (dual x) add -> ending_hides (shown m av skip) t (dual x) add -> clean_inputs x -> ot <> OInvalid ->
  exists e, tk_encode sort_start sort_id t ot x add = Ok (Some e) /\
    decode_ids m av (Some (decode mk DByteLevel)) (ids e) skip =
      Ok (concat (map (fun s => concat (map (fun w => concat (map (spaced prefix) (map encode (cut (runes w))))) (plain_parts sort_start sort_id t s))) (encode_texts x))).
Proof. exact cut_round_trip. Qed.
Print Assumptions C72_pieces_partial.
(** So with a prefix space and digits cut off first, no text with a digit behind its first
    character comes back. *)
Theorem C72_digits_refuted : forall sort_start sort_id, sorts start_key sort_start -> sorts id_key sort_id ->
  forall u t m av skip mk ot c rs add, cut_byte_level (shown m av skip) u [PTDigits true] true t ->
  ending_returns t false add -> ending_hides (shown m av skip) t false add -> clean (encode (c :: rs)) -> Forall scalar (c :: rs) -> ot <> OInvalid ->
  Forall (fun l => l = []) (mt_find (tk_raw t) (encode (c :: rs))) -> Forall (fun l => l = []) (mt_find (tk_normalized t) (encode (c :: rs))) ->
  Exists (fun d => un_number u d = true) rs ->
  exists e r, tk_encode sort_start sort_id t ot (ISingle (Raw (encode (c :: rs)))) add = Ok (Some e) /\
    decode_ids m av (Some (decode mk DByteLevel)) (ids e) skip = Ok r /\
    r <> encode (c :: rs) /\ r <> spaced true (encode (c :: rs)).
Proof. exact digits_spaced. Qed.
Print Assumptions C72_digits_refuted.

(** * Models *)

(** A BPE model loaded from a vocabulary and a list of merges spells all words of rendered
    bytes, if the 256 characters are in the vocabulary. *)
Theorem C72_loaded_bpe : forall v order lines merges unk suffix name,
  NoDup (map fst v) -> (forall s s' id, vget s v = Some id -> vget s' v = Some id -> s' = s) -> Permutation order v ->
  create_merges v lines = Ok merges ->
  let b := Bpe v (build_vocab_r order) merges unk None suffix in
  (forall k, (k < 256)%N -> vget (byte_char k) v <> None) ->
  (forall s id, vget s v = Some id -> makes b s -> name id = Some s) ->
  model_ok (always (bpe_tokenize b)) /\
  forall bs, bs <> [] -> Forall (fun k => (k < 256)%N) bs -> spells (always (bpe_tokenize b)) name (bl_render bs).
Proof.
  intros v order lines merges unk suffix name N D P C b V Nm. split; [apply C54_bpe|]. intros bs Ne B.
  apply (bytes_spelled b name bs); [now apply loaded_literal with (lines := lines)|exact V|exact Nm|exact Ne|exact B].
Qed.
Print Assumptions C72_loaded_bpe.
(** More generally: a word whose characters are in the vocabulary is spelled. *)
Theorem C72_bpe_spells : forall b name w, literal b -> valid_utf8 w -> w <> [] ->
  Forall (fun c => vget (encode_rune c) (b_vocab b) <> None) (runes w) ->
  (forall s id, vget s (b_vocab b) = Some id -> makes b s -> name id = Some s) ->
  spells (always (bpe_tokenize b)) name w.
Proof. intros b name w L. exact (bpe_spells b L name w). Qed.
Print Assumptions C72_bpe_spells.

(** * Example *)

(** The 256 characters, "he" and special tokens around it, as for RoBERTa; padded. *)
Definition rt_vocab : vocab := map (fun k => (byte_char (N.of_nat k), Z.of_nat k)) (seq 0 256) ++ [([104; 101]%N, 256)].
Definition rt_merges : merge_table := match create_merges rt_vocab [[104; 32; 101]%N] with Ok t => t | _ => [] end.
Definition rt_bpe : bpe := Bpe rt_vocab (build_vocab_r rt_vocab) rt_merges None None None.
Definition rt_added : added_vocab := AV [] [(257, [60; 115; 62]%N); (258, [60; 112; 62]%N)] [] [] [[60; 115; 62]; [60; 112; 62]]%N [] [].
Definition rt_model : base_model := vocab_model rt_vocab (build_vocab_r rt_vocab).
Definition rt_tok (prefix : bool) (set : matching) : tokenizer :=
  Tkz set no_matching None (Some (pre_tokenize u55 (PTByteLevel prefix))) (Some (always (bpe_tokenize rt_bpe)))
    (Some (PRoberta (PTok [60; 115; 62]%N 257) (PTok [60; 115; 62]%N 257) true false)) None (Some (Padding (Fixed 9) PRight 258 0 [60; 112; 62]%N)).
Lemma rt_meets prefix set : matching_ok set -> byte_level (shown rt_model rt_added true) u55 prefix (rt_tok prefix set) /\
  (forall pair add, ending_returns (rt_tok prefix set) pair add) /\ (forall pair add, ending_hides (shown rt_model rt_added true) (rt_tok prefix set) pair add).
Proof.
  intros M.
  assert (N : NoDup (map fst rt_vocab)).
  { assert (G : forall l : list str, (fix go l := match l with [] => true | x :: l => negb (existsb (str_eqb x) l) && go l end)%bool l = true -> NoDup l).
    { induction l as [|x l IH]; intros H; [constructor|]. apply andb_true_iff in H as [H1 H2]. constructor; [|now apply IH]. intros Hx. apply negb_true_iff in H1.
      assert (existsb (str_eqb x) l = true) by (apply existsb_exists; exists x; split; [exact Hx|now apply str_eqb_eq]). congruence. }
    apply G. vm_compute. reflexivity. }
  assert (D : forall s s' id, vget s rt_vocab = Some id -> vget s' rt_vocab = Some id -> s' = s).
  { assert (G : forall s id, vget s rt_vocab = Some id -> vrget id (build_vocab_r rt_vocab) = Some s).
    { assert (A : forallb (fun p => match vrget (snd p) (build_vocab_r rt_vocab) with Some s => str_eqb s (fst p) | None => false end) rt_vocab = true) by (vm_compute; reflexivity).
      rewrite forallb_forall in A. intros s id H. apply aget_str_in in H. specialize (A _ H). cbn [fst snd] in A. destruct (vrget id _) as [x|]; [|discriminate]. apply str_eqb_eq in A. now subst. }
    intros s s' id H H'. apply G in H. apply G in H'. congruence. }
  destruct (C72_loaded_bpe rt_vocab rt_vocab [[104; 32; 101]%N] rt_merges None None (shown rt_model rt_added true) N D (Permutation_refl _)) as [Mo Sp].
  - vm_compute. reflexivity.
  - intros k Hk. assert (A : forallb (fun k => match vget (byte_char (N.of_nat k)) rt_vocab with Some _ => true | None => false end) (seq 0 256) = true) by (vm_compute; reflexivity).
    rewrite forallb_forall in A. specialize (A (N.to_nat k)). rewrite N2Nat.id in A. intros E. rewrite E in A. assert (false = true) by (apply A, in_seq; lia). discriminate.
  - intros s id H _. assert (A : forallb (fun p => match shown rt_model rt_added true (snd p) with Some x => str_eqb x (fst p) | None => false end) rt_vocab = true) by (vm_compute; reflexivity).
    rewrite forallb_forall in A. pose proof (aget_str_in _ _ _ H) as Hin. specialize (A _ Hin). cbn [fst snd] in A. destruct (shown rt_model rt_added true id) as [x|]; [|discriminate].
    apply str_eqb_eq in A. now subst.
  - split; [|split].
    + split; [exact M|]. split; [apply none_matching|]. split; [reflexivity|]. split; [reflexivity|]. split; [intros _; split; reflexivity|]. eexists. split; [reflexivity|]. split; [exact Mo|exact Sp].
    + intros pair add. split; [constructor|split; [exact I|reflexivity]].
    + intros pair add. split; [intros _; split; reflexivity|split; reflexivity].
Qed.
(** "hé" in a text, a pair and words; the added token "[M]" is lost. *)
Example C72_example :
  let decoded prefix set x := match tk_encode (isort start_key) (isort id_key) (rt_tok prefix set) OByte x true with
    | Ok (Some e) => Some (ids e, decode_ids rt_model rt_added (Some (decode ByNew DByteLevel)) (ids e) true) | _ => None end in
  decoded false no_matching (ISingle (Raw [104; 101; 32; 195; 169]%N)) = Some ([257; 256; 32; 195; 169; 257; 258; 258; 258], Ok [104; 101; 32; 195; 169]%N) /\
  decoded true no_matching (IDual (Raw [104]%N) (Words [[32; 101]; [33]]%N)) = Some ([257; 32; 104; 257; 257; 32; 101; 32; 33; 257], Ok [32; 104; 32; 101; 32; 33]%N) /\
  decoded false mark_set (ISingle (Raw ([104] ++ mark ++ [101])%N)) = Some ([257; 104; 101; 257; 258; 258; 258; 258; 258], Ok [104; 101]%N).
Proof. vm_compute. repeat split. Qed.
Example C72_example_meets : byte_level (shown rt_model rt_added true) u55 true (rt_tok true mark_set) /\
  cut_added (isort start_key) (isort id_key) (tk_raw (rt_tok true mark_set)) mark = [(Some 7, mark)].
Proof. split; [apply rt_meets, mark_ok|vm_compute; reflexivity]. Qed.

(** Digits cut off, then byte-level: "a12" comes back, or as " a 1 2" with the prefix. *)
Definition rt_cut (front : list pre_tokenizer) (prefix : bool) : tokenizer :=
  Tkz no_matching no_matching None (Some (pre_tokenize u55 (PTSequence (front ++ [PTByteLevel prefix])))) (Some (always (bpe_tokenize rt_bpe)))
    (Some (PRoberta (PTok [60; 115; 62]%N 257) (PTok [60; 115; 62]%N 257) true false)) None (Some (Padding (Fixed 9) PRight 258 0 [60; 112; 62]%N)).
Example C72_cut_meets : forall front prefix, cut_byte_level (shown rt_model rt_added true) u55 front prefix (rt_cut front prefix) /\
  removes_nothing (PTSequence [PTDigits true; PTPunctuation NormalizedModel.Contiguous; PTSplit (PatternModel.PRegexp (find_chars (un_letter u55))) NormalizedModel.Isolated false]) /\
  (forall pair add, ending_returns (rt_cut front prefix) pair add) /\ (forall pair add, ending_hides (shown rt_model rt_added true) (rt_cut front prefix) pair add).
Proof.
  intros front prefix. destruct (rt_meets prefix no_matching none_matching) as ((M1 & M2 & No & _ & U & Sp) & R & H). split; [|split; [|split]].
  - split; [exact M1|]. split; [exact M2|]. split; [reflexivity|]. split; [reflexivity|]. split; [exact U|exact Sp].
  - cbn. split; [exact I|]. split; [discriminate|]. split; [|exact I]. split; [discriminate|]. apply chars_find_well.
  - exact R.
  - exact H.
Qed.
Example C72_cut_example :
  let decoded front prefix s := match tk_encode (isort start_key) (isort id_key) (rt_cut front prefix) OByte (ISingle (Raw s)) true with
    | Ok (Some e) => Some (decode_ids rt_model rt_added (Some (decode ByNew DByteLevel)) (ids e) true) | _ => None end in
  decoded [PTDigits true; PTPunctuation NormalizedModel.Contiguous] false [97; 49; 50; 33; 32; 98]%N = Some (Ok [97; 49; 50; 33; 32; 98]%N) /\
  decoded [PTDigits true] true [97; 49; 50]%N = Some (Ok [32; 97; 32; 49; 32; 50]%N) /\ un_number u55 49 = true.
Proof. vm_compute. repeat split. Qed.
