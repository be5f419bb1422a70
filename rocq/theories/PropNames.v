(** C80: each token of an encoding is the token of its id. *)
From Coq Require Import String QArith.
From Verif Require Import Base BaseProofs Utf8Model Utf8Proofs NormalizedModel NormalizedSpec EncodingModel BpeModel BpeTokProofs WordPieceModel UnigramModel AddedVocabModel AddedVocabSpec AddedFindProofs AddedPatternModel DecoderModel PreTokenizedModel PreTokenizerModel
  ProcessorModel PipelineModel PipelineSpec TokensSpec PropByteLevel PropTokens PropPipeline PropLoaded LoadedSpec SpmModel UnicodeNormModel ConfigModel LoadedModel ApiModel NamesSpec NamesProofs NamesLoadedProofs.
Open Scope Z_scope.
Open Scope list_scope.

(** If tokens belong to their ids in the parts of a tokenizer (the added tokens found, the model,
    the special tokens of the post-processor and the padding), then so they do in all encodings and in
    their overflowing parts: nothing between puts them out of step. *)
Theorem C80_encode_partial : forall sort_start sort_id, sorts start_key sort_start -> sorts id_key sort_id ->
  forall (R : Z -> str -> Prop) t, parts_named R t ->
  forall ot x add e, tk_encode sort_start sort_id t ot x add = Ok (Some e) -> named R e.
Proof. intros ss si HS HI R t P ot x add e. exact (encode_named R ss si HS HI t ot x add e P). Qed.
Print Assumptions C80_encode_partial.

(** Loaded BPE and WordPiece tokenizers: each token is what IdToToken gives for its id, so that
    decoding the ids is decoding the tokens; Tokenize returns the tokens of the encoding. *)
Theorem C80_loaded_partial : forall sort_start sort_id, sorts start_key sort_start -> sorts id_key sort_id ->
  forall u is_word cc mn sp lower lib graphemes (S : Type) (of_q : Q -> S) lt bot zero plus bonus penal dropping l a,
  whole_model (l_model l) -> spells_unknown (l_model l) = false -> all_as_written l ->
  assemble u is_word cc mn sp lower lib graphemes of_q lt bot zero plus bonus penal dropping l = Ok a ->
  if_set (specials_named (named_by a)) (l_post l) -> if_set (padding_named (named_by a)) (l_pad l) ->
  (forall ot x add e, tk_encode sort_start sort_id (as_tok a) ot x add = Ok (Some e) ->
     named (named_by a) e /\ as_decode a (ids e) false = decoded (as_decoder a) (tokens e)) /\
  (forall s add toks, tokenize sort_start sort_id (as_tok a) s add = Ok toks ->
     exists e, tk_encode sort_start sort_id (as_tok a) OByte (ISingle (Raw s)) (match add with Some b => b | None => false end) = Ok (Some e) /\
       toks = tokens e /\ Forall2 (named_by a) (ids e) toks).
Proof.
  intros ss si HS HI u is_word cc mn sp lower lib graphemes S of_q lt bot zero plus bonus penal dropping l a W Sp A Ea Es Ep.
  assert (K : forall i s, named_or_unknown (l_model l) a i s -> named_by a i s) by (intros i s [H|[H _]]; [exact H|destruct (l_model l); discriminate]).
  assert (G : forall ot x add e, tk_encode ss si (as_tok a) ot x add = Ok (Some e) -> named (named_by a) e).
  { intros ot x add e H. apply (named_mono (named_or_unknown (l_model l) a)); [exact K|].
    apply (assembled_encodes ss si HS HI u is_word cc mn sp lower lib graphemes of_q lt bot zero plus bonus penal dropping l a W A Ea) with (ot := ot) (x := x) (add := add); [| |exact H].
    - intros p Hp. apply (specials_mono (named_by a)); [intros; now left|exact (Es p Hp)].
    - intros d Hd. left. exact (Ep d Hd). }
  split.
  - intros ot x add e H. pose proof (G ot x add e H) as N. split; [exact N|]. unfold as_decode, decode_ids. rewrite (names_decoded a e N). now destruct (as_decoder a).
  - intros s add toks H. unfold tokenize, encode_single in H. destruct (tk_encode ss si (as_tok a) OByte (ISingle (Raw s)) (given add)) as [[e|]| | | |] eqn:E; try discriminate H. cbn [bind] in H. injection H as <-.
    exists e. pose proof (G _ _ _ _ E) as N. apply named_inv in N as [N _]. split; [exact E|]. split; [reflexivity|exact N].
Qed.
Print Assumptions C80_loaded_partial.

(** All four models: a token is that of its id, or it is a text the model does not know and has the
    unknown id. *)
Theorem C80_unknown_partial : forall sort_start sort_id, sorts start_key sort_start -> sorts id_key sort_id ->
  forall u is_word cc mn sp lower lib graphemes (S : Type) (of_q : Q -> S) lt bot zero plus bonus penal dropping l a,
  whole_model (l_model l) -> all_as_written l ->
  assemble u is_word cc mn sp lower lib graphemes of_q lt bot zero plus bonus penal dropping l = Ok a ->
  let R := named_or_unknown (l_model l) a in
  if_set (specials_named R) (l_post l) -> if_set (padding_named R) (l_pad l) ->
  forall ot x add e, tk_encode sort_start sort_id (as_tok a) ot x add = Ok (Some e) -> named R e.
Proof. exact assembled_encodes. Qed.
Print Assumptions C80_unknown_partial.

(** A BPE tokenizer with an added token, BERT's special tokens and padding, and its encoding of "ab[M]xb", cut
    at three tokens. *)
Definition nm_vocab : vocab := [([97]%N, 0); ([98]%N, 1); ([97; 98]%N, 2); (key "?", 3)].
Definition nm_bpe : bpe := Bpe nm_vocab (build_vocab_r nm_vocab) [((0, 1), (0, 2))] (Some (key "?")) None None.
Definition nm_l : loaded := Loaded (MBpe nm_bpe None) None None (Some (PBert (PTok (key "[C]") 4) (PTok (key "[S]") 5))) (Some DFuse)
  [AddSpecial [AT (key "[C]") false false false false; AT (key "[S]") false false false false]; AddTok [AT mark true false false false]] (Some (Trunc 5 LongestFirst 0)) (Some (Padding (Fixed 9) PRight 4 0 (key "[C]"))).
Definition nm_as := assemble u55 (fun _ => false) (fun _ => false) (fun _ => false) (fun _ => false) (fun s => s) lf_lib (fun _ => []) (fun q => q) (fun _ _ => false) 0%Q 0%Q Qplus (fun _ => 0%Q) (fun q => q) (fun _ _ _ => Err) nm_l.
Example C80_loaded_meets : whole_model (l_model nm_l) /\ spells_unknown (l_model nm_l) = false /\ all_as_written nm_l /\
  match nm_as with Ok a => if_set (specials_named (named_by a)) (l_post nm_l) /\ if_set (padding_named (named_by a)) (l_pad nm_l) | _ => False end /\
  match nm_as with Ok a =>
    match tk_encode (isort start_key) (isort id_key) (as_tok a) OByte (ISingle (Raw ([97; 98] ++ mark ++ [120; 98])%N)) true with
    | Ok (Some e) => Some (ids e, tokens e, as_decode a (ids e) false) | _ => None end
  | _ => None end = Some ([4; 2; 6; 3; 5; 4; 4; 4; 4], [key "[C]"; [97; 98]%N; mark; key "?"; key "[S]"; key "[C]"; key "[C]"; key "[C]"; key "[C]"], Ok (key "[C]ab[M]?[S][C][C][C][C]")).
Proof.
  split; [|split; [reflexivity|split; [|split]]].
  - split; [apply two_way_numbered; [apply numberedb_ok; reflexivity|apply Permutation_refl]|]. split.
    + intros k rank new [H|[]]. injection H as <- <- <-. exists [97; 98]%N. reflexivity.
    + intros w [= <-]. exists 3. reflexivity.
  - intros c t [<-|[<-|[]]] Ht; cbn in Ht; repeat (destruct Ht as [<-|Ht]; [repeat split|]); destruct Ht.
  - assert (K : match nm_as with Ok a => (av_id_to_token (as_lookups a) (as_added a) 4, av_id_to_token (as_lookups a) (as_added a) 5) | _ => (None, None) end = (Some (key "[C]"), Some (key "[S]"))) by (vm_compute; reflexivity).
    destruct nm_as as [a| | | |]; try discriminate K. injection K as K1 K2. split; [intros p [= <-]; split; [exact K1|exact K2]|intros d [= <-]; exact K1].
  - vm_compute. reflexivity.
Qed.

(** The parts of the same tokenizer, and one with a WordLevel model, whose encoding of "a x" has an
    unknown word. *)
Example C80_encode_meets : match nm_as with Ok a => parts_named (named_or_unknown (l_model nm_l) a) (as_tok a) | _ => False end.
Proof.
  assert (B : match nm_as with Ok _ => true | _ => false end = true) by (vm_compute; reflexivity). pose proof C80_loaded_meets as (W & _ & A & X & _). destruct nm_as as [a| | | |] eqn:K; try discriminate B. destruct X as [X1 X2].
  apply (assembled_named _ _ _ _ _ _ _ _ _ _ _ _ _ _ _ _ nm_l a W A K).
  - intros p Hp. apply (specials_mono (named_by a)); [intros; now left|exact (X1 p Hp)].
  - intros d Hd. left. exact (X2 d Hd).
Qed.
Definition nm_words : vocab := [([97]%N, 0); ([98]%N, 1); (key "?", 2)].
Definition nm_wl : loaded := Loaded (MWordLevel (WL nm_words (build_vocab_r nm_words) (key "?"))) None (Some PTBert) None None [] None None.
Definition nm_wl_as := assemble ex_uni (fun _ => false) (fun _ => false) (fun _ => false) (fun _ => false) (fun s => s) lf_lib (fun _ => []) (fun q => q) (fun _ _ => false) 0%Q 0%Q Qplus (fun _ => 0%Q) (fun q => q) (fun _ _ _ => Err) nm_wl.
Example C80_unknown_meets : whole_model (l_model nm_wl) /\ all_as_written nm_wl /\ l_post nm_wl = None /\ l_pad nm_wl = None /\
  match nm_wl_as with Ok a =>
    match tk_encode (isort start_key) (isort id_key) (as_tok a) OByte (ISingle (Raw [97; 32; 120]%N)) true with
    | Ok (Some e) => Some (ids e, tokens e, av_id_to_token (as_lookups a) (as_added a) 2) | _ => None end
  | _ => None end = Some ([0; 2], [[97]%N; [120]%N], Some (key "?")).
Proof.
  split; [apply two_way_numbered; [apply numberedb_ok; reflexivity|apply Permutation_refl]|]. split; [intros c t []|]. split; [reflexivity|]. split; [reflexivity|]. vm_compute. reflexivity.
Qed.

(** Refuted: WordLevel.  A word that is not in the vocabulary has the id of the unknown token and its own
    text, not that of the unknown token. *)
Theorem C80_wordlevel_refuted : forall sort_start sort_id, sorts start_key sort_start -> sorts id_key sort_id ->
  forall t w s ty ot e, tk_model t = Some (fun s => do toks <- wl_tokenize w s; Ok (Some toks)) -> tk_normalizer t = None -> tk_pre t = None ->
  matching_ok (tk_raw t) -> matching_ok (tk_normalized t) -> Forall (fun l => l = []) (mt_find (tk_raw t) s) -> Forall (fun l => l = []) (mt_find (tk_normalized t) s) ->
  clean s -> s <> [] -> vget s (wl_vocab w) = None -> encode_sequence sort_start sort_id t ty ot (Raw s) = Ok e ->
  exists i, vget (wl_unk w) (wl_vocab w) = Some i /\ ids e = [i] /\ tokens e = [s] /\ s <> wl_unk w.
Proof.
  intros ss si HS HI t w s ty ot e Em En Ep M1 M2 F1 F2 C Ne Ev H. destruct (unknown_value ss si HS HI t w s ty ot e Em En Ep M1 M2 F1 F2 C Ne Ev H) as (i & E1 & E2 & E3).
  exists i. split; [exact E1|]. split; [exact E2|]. split; [exact E3|]. intros ->. congruence.
Qed.
Print Assumptions C80_wordlevel_refuted.
Example C80_wordlevel_meets : let w := WL [([85]%N, 0); ([97; 98]%N, 1)] [] [85]%N in
  let t := Tkz no_matching no_matching None None (Some (fun s => do toks <- wl_tokenize w s; Ok (Some toks))) None None None in
  vget [99]%N (wl_vocab w) = None /\
  match encode_sequence (isort start_key) (isort id_key) t 0 OByte (Raw [99]%N) with Ok e => Some (ids e, tokens e) | _ => None end = Some ([0], [[99]%N]).
Proof. split; vm_compute; reflexivity. Qed.

(** Refuted: added tokens that take the white space after them (RStrip).  Their text has the white
    space in it. *)
Theorem C80_stripped_refuted : forall sort_start sort_id, sorts start_key sort_start -> sorts id_key sort_id ->
  forall t w id ty ot e, clean w -> w <> [] -> tk_raw t = re_matching [(TRe false false w false true, id)] ->
  matching_ok (tk_normalized t) -> with_default normalizer_ok (tk_normalizer t) -> with_default keeps_added (tk_pre t) ->
  encode_sequence sort_start sort_id t ty ot (Raw (w ++ [32%N])) = Ok e ->
  forall R : Z -> str -> Prop, (forall i s s', R i s -> R i s' -> s = s') -> R id w -> ~ named R e.
Proof.
  intros ss si HS HI t w id ty ot e C Ne Er M N K H R F Rw. apply (not_named R e id (w ++ [32%N])); [exact (stripped_value ss si HS HI t w id ty ot e C Ne Er M N K H)|].
  intros X. pose proof (F id _ _ Rw X) as Y. apply (f_equal (fun l => length l)) in Y. rewrite app_length in Y. cbn in Y. lia.
Qed.
Print Assumptions C80_stripped_refuted.
Example C80_stripped_meets : let t := Tkz (re_matching [(TRe false false mark false true, 7)]) no_matching None None None None None None in
  clean mark /\
  match encode_sequence (isort start_key) (isort id_key) t 0 OByte (Raw (mark ++ [32]%N)) with Ok e => Some (ids e, tokens e) | _ => None end = Some ([7], [mark ++ [32]%N]).
Proof. split; [exact mark_clean|]. vm_compute. reflexivity. Qed.

(** Refuted: Tokenize gives the tokens of the text.  With RoBERTa processing that does not trim offsets
    Encode gives nil, and Tokenize panics, whatever the text. *)
Theorem C80_tokenize_refuted : forall sort_start sort_id t cls sep prefix s e,
  tk_processor t = Some (PRoberta cls sep false prefix) -> tk_trunc t = None ->
  encode_sequence sort_start sort_id t 0 OByte (Raw s) = Ok e -> forall add, tokenize sort_start sort_id t s add = Panic.
Proof. exact roberta_nil. Qed.
Print Assumptions C80_tokenize_refuted.
Example C80_tokenize_meets : let f := fun po => Tkz mark_set no_matching None None (Some (always ex_words)) po None None in
  let tok := fun po => tokenize (isort start_key) (isort id_key) (f po) ([97; 98] ++ mark)%N None in
  tok None = Ok [[97; 98]%N; mark] /\ tok (Some (PRoberta (PTok [83]%N 3) (PTok [83]%N 3) true false)) = Ok [[97; 98]%N; mark] /\ tok (Some (PRoberta (PTok [83]%N 3) (PTok [83]%N 3) false false)) = Panic.
Proof. vm_compute. repeat split. Qed.
