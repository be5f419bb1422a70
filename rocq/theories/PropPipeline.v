(** C54: the offsets that Encode gives. *)
From Verif Require Import Base BaseProofs Utf8Model Utf8Proofs PatternModel PatternSpec NormalizedModel NormalizedSpec NormalizedProofs EncodingModel EncodingSpec EncodingProofs
  BpeModel BpeSpec AddedVocabModel AddedVocabSpec AddedFindProofs WordPieceModel WordPieceProofs UnigramModel UnigramSpec UnigramProofs PreTokenizedModel PreTokenizedSpec
  PreTokenizerModel ExpandedProofs ProcessorModel PipelineModel PipelineSpec PipelineProofs PipelineOffsetProofs PlacedProofs PlacedNormProofs PropBpe PropModels PropByteLevel.
Open Scope Z_scope.

(** * Every input *)

(** All ranges of the result (and of what overflows from it) lie inside the input; for a
    list of words or a pair, inside the longest of its texts. *)
Theorem C54_inside_partial : forall sort_start sort_id, sorts start_key sort_start -> sorts id_key sort_id ->
  forall t x add e, components_ok t -> clean_inputs x ->
  tk_encode sort_start sort_id t OByte x add = Ok (Some e) ->
  all_offsets (fun o => 0 <= fst o /\ fst o <= snd o /\ snd o <= inputs_len x) e.
Proof. intros ss si HS HI t x add e. exact (encode_inside ss si HS HI t x add e). Qed.
Print Assumptions C54_inside_partial.

(** The tokens of a text are in its order. *)
Theorem C54_order_partial : forall sort_start sort_id, sorts start_key sort_start -> sorts id_key sort_id ->
  forall t s add e, components_ok t -> clean s -> arranges_once (tk_processor t) ->
  (forall tr, tk_trunc t = Some tr -> 0 <= tr_stride tr) ->
  tk_encode sort_start sort_id t OByte (ISingle (Raw s)) add = Ok (Some e) -> in_text_order e.
Proof.
  intros ss si HS HI t s add e K C A Tr H. cbn [tk_encode] in H. apply bind_Ok_inv in H as (e0 & H0 & H).
  destruct (raw_offsets ss si HS HI t 0 s e0 K C H0) as (_ & O & V).
  exact (post_process_order _ _ _ e0 add e A Tr (sequence_parallel _ _ _ _ _ _ _ H0) O V H).
Qed.
Print Assumptions C54_order_partial.

(** Without post-processing: EncodeSingleSequence, for a text and for a list of words, whose
    tokens are inside their own word and in its order. *)
Theorem C54_sequence_partial : forall sort_start sort_id, sorts start_key sort_start -> sorts id_key sort_id ->
  forall t ty, components_ok t ->
  (forall s e, clean s -> encode_sequence sort_start sort_id t ty OByte (Raw s) = Ok e ->
     Forall (inside (zlen s)) (offsets e) /\ ordered (offsets e) /\ overflowing e = []) /\
  (forall l e, Forall clean l -> encode_sequence sort_start sort_id t ty OByte (Words l) = Ok e ->
     (exists os, offsets e = concat os /\ Forall2 (fun w o => Forall (inside (zlen w)) o /\ ordered o) l os) /\ overflowing e = []).
Proof. intros ss si HS HI t ty K. split; [intros s e; exact (raw_offsets ss si HS HI t ty s e K)|intros l e; exact (words_offsets ss si HS HI t ty l e K)]. Qed.
Print Assumptions C54_sequence_partial.

(** * Components that meet the contract *)

(** Pre-tokenizers: all but the byte-level one, with sound patterns... *)
Theorem C54_pre_tokenizers : forall u t, placed t -> pre_ok (pre_tokenize u t).
Proof. exact placed_ok. Qed.
Print Assumptions C54_pre_tokenizers.
(** ...and the byte-level one, alone or after others that only cut, when no normalizer is set. *)
Theorem C54_byte_level : forall u prefix, (prefix = true -> un_letter u 32 = false /\ un_number u 32 = false) ->
  pre_fresh_ok (pre_tokenize u (PTByteLevel prefix)) /\
  forall ts, cutting (PTSequence ts) -> pre_fresh_ok (pre_tokenize u (PTSequence (ts ++ [PTByteLevel prefix]))).
Proof. intros u prefix U. split; [now apply byte_level_ok|]. intros ts. now apply cut_then_bytes_ok. Qed.
Print Assumptions C54_byte_level.
(** Normalizers: one change of the whole text and then any number of local ones. *)
Theorem C54_normalizers : forall os, changes_ok os -> normalizer_ok (run_ops os).
Proof. exact changes_normalizer. Qed.
Print Assumptions C54_normalizers.
(** Models. *)
Theorem C54_bpe : forall b, model_ok (always (bpe_tokenize b)).
Proof.
  intros b. apply always_model. intros s toks C _ E. exists (zlen s). split; [|lia]. exact (C11_offsets_tile_partial b s toks (clean_valid s C) E).
Qed.
Print Assumptions C54_bpe.
Theorem C54_wordpiece : forall wp, model_ok (always (wp_tokenize wp)).
Proof.
  intros wp. apply always_model. intros s toks C N E. exists (zlen (runes s)). split; [exact (wp_tiles wp s toks N E)|]. now apply runes_le.
Qed.
Print Assumptions C54_wordpiece.
Theorem C54_wordlevel : forall wl, model_ok (always (wl_tokenize wl)).
Proof.
  intros wl. apply always_model. intros s toks C N E. exists (zlen s). split; [|lia]. rewrite (C36_wordlevel wl s toks E). cbn. split; [reflexivity|]. split; [|reflexivity].
  destruct s; [congruence|]. unfold zlen. cbn [length]. lia.
Qed.
Print Assumptions C54_wordlevel.
Theorem C54_unigram : forall (S : Type) lt (bot zero : S) plus bonus penal u, score_laws lt bot plus -> ug_bytes u = false ->
  model_ok (always (ug_tokenize lt bot zero plus bonus penal u)).
Proof.
  intros S lt bot zero plus bonus penal u L B. apply always_model. intros s toks C N E. exists (zlen s). split; [|lia].
  exact (proj1 (unigram_tiles lt bot zero plus bonus penal L u s toks B E)).
Qed.
Print Assumptions C54_unigram.

(** * Counterexamples *)

(** A text that ends in the middle of a character: the program panics, whatever the settings
    (without added tokens). *)
Theorem C54_invalid_utf8_refuted : forall sort_start sort_id, sorts start_key sort_start -> sorts id_key sort_id ->
  forall t ty wi ot rs b, Forall scalar rs -> (128 <= b < 256)%N -> tk_raw t = no_matching ->
  encode_text sort_start sort_id t ty wi ot (encode rs ++ [b]) = Panic.
Proof. intros. now apply cut_text. Qed.
Print Assumptions C54_invalid_utf8_refuted.

Definition whole (s : str) : res (option (list token)) := Ok (Some [Tok 0 s (0, zlen s)]).
Definition nbsp (c : N) : bool := (c =? 160)%N.
Definition with_model m := Tkz no_matching no_matching None None (Some m) None None None.
Definition stripping := Tkz no_matching no_matching (Some (run_ops [OStrip nbsp true true])) (Some (pre_tokenize u55 (PTByteLevel false))) (Some whole) None None None.
(** A no-break space, stripped in front of "hello!", makes the byte-level pre-tokenizer panic. *)
Theorem C54_strip_refuted :
  encode_text (isort start_key) (isort id_key) stripping 0 (-1) OByte (encode [160; 104; 101; 108; 108; 111; 33]%N) = Panic.
Proof. vm_compute. reflexivity. Qed.
Print Assumptions C54_strip_refuted.
(** Unigram with byte fallback counts six bytes for each byte: the second token of "ab" is
    reported at (6, 12). *)
Definition byte_ug : unigram (S := option Z) := UG [(byte_token 97, Some 0); (byte_token 98, Some 0)] None true true.
Theorem C54_unigram_bytes_refuted : exists e,
  encode_text (isort start_key) (isort id_key) (with_model (always (ug_tokenize zlt None (Some 0) zplus zbonus zpenal byte_ug))) 0 (-1) OByte [97; 98]%N = Ok e /\
  offsets e = [(0, 2); (6, 12)].
Proof. eexists. split; vm_compute; reflexivity. Qed.
Print Assumptions C54_unigram_bytes_refuted.
(** A NUL character in front of "!!" (byte-level, with a prefix space): the last byte is left out. *)
Theorem C54_nul_refuted : exists e,
  encode_text (isort start_key) (isort id_key) (Tkz no_matching no_matching None (Some (pre_tokenize u55 (PTByteLevel true))) (Some whole) None None None) 0 (-1) OByte [0; 33; 33]%N = Ok e /\
  offsets e = [(0, 2)].
Proof. eexists. split; vm_compute; reflexivity. Qed.
Print Assumptions C54_nul_refuted.

(** * A complete pipeline *)

(** e acute is decomposed, hyphens become spaces and ">" is put in front; then words and
    punctuation are cut and looked up. *)
Definition ex_segs (s : str) : list (list N) := map (fun c => if (c =? 233)%N then [101; 769]%N else [c]) (runes s).
Definition ex_changes : list op := [ONfd ex_segs; OReplace (PRune 45) [32]%N; OPrepend [62]%N].
Definition ex_uni : unicode := Uni (fun c => (33 <=? c) && (c <=? 47) || (c =? 62))%N (fun c => (48 <=? c) && (c <=? 57))%N (fun c => (97 <=? c) && (c <=? 122))%N (fun _ => []).
Definition ex_tok : tokenizer :=
  Tkz no_matching no_matching (Some (run_ops ex_changes)) (Some (pre_tokenize ex_uni PTBert))
    (Some (always (wl_tokenize (WL [([91; 85; 93]%N, 0); ([62]%N, 1)] [] [91; 85; 93]%N)))) (Some (PBert (PTok [91; 83; 93]%N 9) (PTok [91; 67; 93]%N 8))) None None.
Lemma none_matching : matching_ok no_matching.
Proof. intros s V. split; constructor. Qed.
Example C54_ex :
  components_ok ex_tok /\ arranges_once (tk_processor ex_tok) /\ clean (encode [233; 116; 233; 45; 97; 33]%N) /\
  exists e, tk_encode (isort start_key) (isort id_key) ex_tok OByte (ISingle (Raw (encode [233; 116; 233; 45; 97; 33]%N))) true = Ok (Some e) /\
    offsets e = [(0, 0); (0, 2); (0, 5); (6, 7); (7, 8); (0, 0)].
Proof.
  split; [|split; [exact I|split; [|eexists; split; vm_compute; reflexivity]]].
  - split; [apply none_matching|]. split; [apply none_matching|]. split; [|split; [left; apply C54_pre_tokenizers; exact I|apply C54_wordlevel]].
    apply C54_normalizers. split.
    + intros s (rs & Sc & NZ & ->). unfold ex_segs. rewrite runes_encode by assumption. split; [unfold zlen; rewrite map_length; lia|]. apply Forall_map.
      rewrite Forall_forall in *. intros c Hc. destruct (c =? 233)%N.
      * exists [101; 769]%N. repeat split; repeat constructor; unfold scalar; lia.
      * exists [c]. split; [constructor; [now apply Sc|constructor]|]. split; [constructor; [now apply NZ|constructor]|reflexivity].
    + constructor; [|constructor; [|constructor]].
      * split; [repeat split; cbn; auto|]. split; [reflexivity|]. exists [32]%N. repeat split; repeat constructor; unfold scalar; lia.
      * exists [62]%N. repeat split; repeat constructor; unfold scalar; lia.
  - exists [233; 116; 233; 45; 97; 33]%N. repeat split; repeat constructor; unfold scalar; lia.
Qed.
(** Cutting at punctuation, then byte-level: "a,é". *)
Definition ex_bytes : tokenizer :=
  Tkz no_matching no_matching None (Some (pre_tokenize ex_uni (PTSequence ([PTBert] ++ [PTByteLevel true])))) (Some whole) None None None.
Example C54_bytes_ex :
  components_ok ex_bytes /\ clean (encode [97; 44; 233]%N) /\
  exists e, tk_encode (isort start_key) (isort id_key) ex_bytes OByte (ISingle (Raw (encode [97; 44; 233]%N))) true = Ok (Some e) /\
    tokens e = [[196; 160; 97]; [196; 160; 44]; [196; 160; 195; 131; 194; 169]]%N /\ offsets e = [(0, 1); (1, 2); (2, 4)].
Proof.
  split; [|split].
  - split; [apply none_matching|]. split; [apply none_matching|]. split; [exact I|]. split.
    + right. split; [reflexivity|]. apply C54_byte_level; [intros _; split; reflexivity|]. cbn. auto.
    + cbn. intros s toks C N [= <-]. split; [|apply (NormalizedInvProofs.ordered_repeat (0, zlen s) 1)]. constructor; [|constructor]. destruct s; [congruence|]. cbn. lia.
  - exists [97; 44; 233]%N. repeat split; repeat constructor; unfold scalar; lia.
  - eexists. split; [vm_compute; reflexivity|]. split; reflexivity.
Qed.
