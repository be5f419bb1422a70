(** C71: encoding valid text never fails. *)
From Verif Require Import Base BaseProofs Utf8Model Utf8Proofs PatternModel PatternSpec NormalizedModel NormalizedSpec NormalizedProofs EncodingModel EncodingSpec EncodingProofs
  BpeModel BpeSpec BpeTokProofs AddedVocabModel AddedVocabSpec AddedFindProofs WordPieceModel WordPieceProofs UnigramModel UnigramSpec UnigramProofs PreTokenizedModel PreTokenizedSpec
  PreTokenizerModel ExpandedProofs ProcessorModel ProcessorSpec BertNormModel PipelineModel PipelineSpec PipelineProofs PlacedProofs PlacedNormProofs PropBpe PropModels PropByteLevel PropPipeline
  ReturnSpec ReturnEndProofs ReturnProofs ReturnNormProofs ReturnModelProofs.
Open Scope Z_scope.

(** * Every input *)

(** If the components return, so does Encode, for a text, a list of words and pairs of them. *)
Theorem C71_encode_partial : forall sort_start sort_id, sorts start_key sort_start -> sorts id_key sort_id ->
  forall t ot x add, components_ok t -> components_return t -> ending_returns t (dual x) add -> clean_inputs x -> ot <> OInvalid ->
  exists e, tk_encode sort_start sort_id t ot x add = Ok (Some e).
Proof. intros ss si HS HI t ot x add. exact (encode_returns ss si HS HI t ot x add). Qed.
Print Assumptions C71_encode_partial.

(** * Components that return *)

(** Pre-tokenizers that cut, after any normalizer... *)
Theorem C71_pre_tokenizers : forall u t, cutting t -> pre_returns (pre_tokenize u t).
Proof. exact cutting_returns. Qed.
Print Assumptions C71_pre_tokenizers.
(** ...and those that rewrite, alone or after others that cut, when no normalizer is set. *)
Theorem C71_rewriting_partial : forall u t,
  match t with
  | PTByteLevel prefix => prefix = true -> un_letter u 32 = false /\ un_number u 32 = false
  | PTMetaspace _ _ _ => placed t
  | _ => False
  end ->
  pre_fresh_returns (pre_tokenize u t) /\
  forall ts, cutting (PTSequence ts) -> pre_fresh_returns (pre_tokenize u (PTSequence (ts ++ [t]))).
Proof.
  intros u t H. assert (R : pre_fresh_returns (pre_tokenize u t)).
  { destruct t; try contradiction; [now apply metaspace_returns|now apply byte_level_returns]. }
  split; [exact R|]. intros ts C. now apply cut_then_returns.
Qed.
Print Assumptions C71_rewriting_partial.
(** Normalizers: one change of the given text, or a mark put in front and one replacement;
    then changes of case and text put at either end. *)
Theorem C71_normalizers_partial : forall os, returning os -> normalizer_ok (run_ops os) /\ normalizer_returns (run_ops os).
Proof. intros os H. split; [apply changes_normalizer; now apply returning_changes|now apply returning_returns]. Qed.
Print Assumptions C71_normalizers_partial.

(** Models with an unknown token. *)
Theorem C71_bpe : forall b, b_unk b <> None -> model_returns (always (bpe_tokenize b)).
Proof.
  intros b U. apply always_returns. intros s C N. destruct (tokenize_unk_ok b s U) as (toks & E). exists toks. split; [exact E|].
  exact (tiles_there _ _ (text_there s N) (C11_offsets_tile_partial b s toks (clean_valid s C) E)).
Qed.
Print Assumptions C71_bpe.
Theorem C71_wordpiece : forall wp, vget (wp_unk wp) (wp_vocab wp) <> None -> model_returns (always (wp_tokenize wp)).
Proof.
  intros wp U. apply always_returns. intros s C N. assert (E : exists toks, wp_tokenize wp s = Ok toks).
  { destruct (wp_cases wp s) as [H|[H|(ps & G & H)]].
    - rewrite wp_unk_case by auto. destruct (vget _ _); [eauto|congruence].
    - rewrite wp_unk_case by auto. destruct (vget _ _); [eauto|congruence].
    - rewrite (wp_greedy wp s ps H G). eauto. }
  destruct E as (toks & E). exists toks. split; [exact E|]. apply (tiles_there (zlen (runes s))); [|exact (wp_tiles wp s toks N E)].
  destruct C as (rs & Sc & _ & ->). rewrite runes_encode by exact Sc. apply text_there. intros ->. now apply N.
Qed.
Print Assumptions C71_wordpiece.
Theorem C71_wordlevel : forall wl, vget (wl_unk wl) (wl_vocab wl) <> None -> model_returns (always (wl_tokenize wl)).
Proof.
  intros wl U. apply always_returns. intros s C N. unfold wl_tokenize. destruct (vget s _); [eexists; split; [reflexivity|discriminate]|].
  destruct (vget (wl_unk wl) _); [eexists; split; [reflexivity|discriminate]|congruence].
Qed.
Print Assumptions C71_wordlevel.
Theorem C71_unigram_partial : forall (S : Type) lt (bot zero : S) plus bonus penal u, score_laws lt bot plus -> ug_bytes u = false -> ug_unk u <> None ->
  model_returns (always (ug_tokenize lt bot zero plus bonus penal u)).
Proof.
  intros S lt bot zero plus bonus penal u L B U. apply always_returns. intros s C N. assert (E : exists toks, ug_tokenize lt bot zero plus bonus penal u s = Ok toks).
  { destruct (C38_best_partial S lt bot zero plus bonus penal u s L B N) as [(gs & _ & E & _)|[_ E]]; [eauto|]. destruct (ug_unk u); [eauto|congruence]. }
  destruct E as (toks & E). exists toks. split; [exact E|].
  exact (tiles_there _ _ (text_there s N) (proj1 (unigram_tiles lt bot zero plus bonus penal L u s toks B E))).
Qed.
Print Assumptions C71_unigram_partial.

(** * Counterexamples *)

(** Two ideographic spaces in front and three spaces at the end: removing spaces at both ends,
    as the default normalizer does, panics. *)
Definition wide_text : str := encode [12288; 12288; 97; 32; 32; 32]%N.
Theorem C71_strip_refuted : forall t sp lower lowercase ty wi ot, tk_raw t = no_matching ->
  tk_normalizer t = Some (default_normalize sp lower lowercase true) -> (lowercase = true -> lower wide_text = wide_text) ->
  sp 12288%N = true -> sp 32%N = true -> sp 97%N = false ->
  encode_text (isort start_key) (isort id_key) t ty wi ot wide_text = Panic.
Proof.
  intros t sp lower lowercase ty wi ot R En Lw H1 H2 H3. eapply normalizer_stops; [exact En|rewrite R; vm_compute; reflexivity|]. cbn [pt_splits sp_toks sp_ns]. split; [reflexivity|].
  unfold default_normalize.
  match goal with |- context [case_map lower ?n] => replace (if lowercase then case_map lower n else n) with n end.
  2:{ destruct lowercase; [|reflexivity]. unfold case_map. cbn [ns_norm ns_orig ns_al ns_ao ns_cells ns_shift]. change (lower _) with (lower wide_text). rewrite (Lw eq_refl). reflexivity. }
  unfold lrstrip. cbn [ns_norm]. match goal with |- context [runes ?x] => change (runes x) with ([12288; 12288; 97; 32; 32; 32]%N) end.
  cbn [rev app count_while]. rewrite H1, H2, H3. vm_compute. reflexivity.
Qed.
Print Assumptions C71_strip_refuted.
(** Two replacements, one after the other: a tab becomes eight spaces, then every two spaces
    become two marks. *)
Definition two_replacements (find : str -> list (Z * Z)) : list op :=
  [OReplace (PRune 9) (repeat 32%N 8); OReplace (PString [32; 32]%N find) (encode [9601; 9601]%N)].
Theorem C71_replace_refuted : forall t find ty wi ot, tk_raw t = no_matching -> tk_normalizer t = Some (run_ops (two_replacements find)) ->
  find (97%N :: repeat 32%N 8) = [(1, 3); (3, 5); (5, 7); (7, 9)] ->
  encode_text (isort start_key) (isort id_key) t ty wi ot [97; 9]%N = Panic.
Proof.
  intros t find ty wi ot R En F. eapply normalizer_stops; [exact En|rewrite R; vm_compute; reflexivity|]. cbn [pt_splits sp_toks sp_ns]. split; [reflexivity|].
  unfold two_replacements, run_ops. cbn [foldR]. match goal with |- context [run_op (OReplace (PRune 9) ?c) ?n] => let r := eval vm_compute in (run_op (OReplace (PRune 9) c) n) in assert (E : run_op (OReplace (PRune 9) c) n = r) by (vm_compute; reflexivity); rewrite E; clear E end.
  cbn [bind run_op]. unfold ns_replace. cbn [ns_norm]. unfold PatternModel.find_matches. cbn [length Nat.eqb]. match goal with |- context [find ?x] => change (find x) with (find (97%N :: repeat 32%N 8)) end. rewrite F. vm_compute. reflexivity.
Qed.
Print Assumptions C71_replace_refuted.
(** The BERT normalizer panics on two replacement characters in front and control characters
    at the end. *)
Definition control_text : str := encode [65533; 65533; 97; 1; 1]%N.
Theorem C71_bert_refuted : forall t cc mn lower b ty wi ot, tk_raw t = no_matching -> tk_normalizer t = Some (bert_normalize cc mn lower b) ->
  bn_clean b = true -> cc 1%N = true -> cc 97%N = false ->
  encode_text (isort start_key) (isort id_key) t ty wi ot control_text = Panic.
Proof.
  intros t cc mn lower b ty wi ot R En B H1 H2. eapply normalizer_stops; [exact En|rewrite R; vm_compute; reflexivity|]. cbn [pt_splits sp_toks sp_ns]. split; [reflexivity|].
  unfold bert_normalize. rewrite B. assert (E : forall x, x = Panic -> (do n1 <- x; do n2 <- (if bn_chinese b then handle_chinese n1 else Ok n1);
    let n3 := if bn_lower b then case_map lower n2 else n2 in if bn_accents b then remove_accents mn n3 else Ok n3) = Panic) by (intros x ->; reflexivity).
  apply E. clear E. unfold clean_text. cbn [ns_norm]. match goal with |- context [runes ?x] => change (runes x) with ([65533; 65533; 97; 1; 1]%N) end.
  unfold clean_items. cbn [fold_right]. unfold clean_step, is_control. cbn. rewrite ?H1, ?H2. vm_compute. reflexivity.
Qed.
Print Assumptions C71_bert_refuted.
(** Truncating only the second sequence ends the program when there is none and the first
    reaches the limit. *)
Theorem C71_only_second_refuted : forall sort_start sort_id t tr ot a add e,
  tk_trunc t = Some tr -> tr_strategy tr = OnlySecond ->
  encode_sequence sort_start sort_id t 0 ot a = Ok e ->
  0 < tr_max tr - count_of (tk_processor t) false add <= enc_len e ->
  tk_encode sort_start sort_id t ot (ISingle a) add = Fatal.
Proof.
  intros ss si t tr ot a add e Et Es E L. cbn [tk_encode]. rewrite E. cbn [bind]. unfold post_process. rewrite Et, ProcessorProofs.post_truncate_limit, Es. cbn [is_pair].
  unfold truncate_encodings. replace (_ =? 0) with false by (symmetry; apply Z.eqb_neq; lia). rewrite Z.add_0_r. replace (_ <? _) with false by (symmetry; apply Z.ltb_ge; lia). reflexivity.
Qed.
Print Assumptions C71_only_second_refuted.
(** Padding in front panics for every text with tokens that is shorter than asked for. *)
Theorem C71_left_padding_refuted : forall sort_start sort_id t d n ot a add e,
  tk_trunc t = None -> tk_processor t = None -> tk_padding t = Some d -> pd_dir d = PLeft -> pd_strategy d = Fixed n ->
  encode_sequence sort_start sort_id t 0 ot a = Ok e -> 0 < enc_len e < n ->
  tk_encode sort_start sort_id t ot (ISingle a) add = Panic.
Proof.
  intros ss si t d n ot a add e Et Ep Ed Hd Hs E L. cbn [tk_encode]. rewrite E. cbn [bind]. destruct (sequence_plain ss si t 0 ot a e E) as [O _].
  unfold post_process, post_truncate. rewrite Et, Ep, Ed. cbn [bind fst snd default_process]. unfold pad_encodings. rewrite Hd, Hs. cbn [mapR]. unfold pad. rewrite O. cbn [mapR bind].
  unfold enc_len in L. replace (n <=? zlen (ids e)) with false by (symmetry; apply Z.leb_gt; lia). unfold pad1. cbn [ids set_overflowing].
  replace (n - zlen (ids e) <? 0) with false by (symmetry; apply Z.ltb_ge; lia).
  replace (_ <? zlen (_ ++ _)) with true; [reflexivity|]. symmetry. apply Z.ltb_lt. unfold zlen in *. rewrite app_length, repeat_length. lia.
Qed.
Print Assumptions C71_left_padding_refuted.

(** * Complete pipelines *)

(** As for Llama: a mark in front, spaces become marks; then the unknown token or the
    characters of a BPE vocabulary, and special tokens from a template. *)
Definition mark : str := encode [9601]%N.
Definition ex_bpe_unk : bpe := Bpe [(mark, 0); ([97]%N, 1); ([63]%N, 2)] (build_vocab_r [(mark, 0); ([97]%N, 1); ([63]%N, 2)]) [] (Some [63]%N) None None.
Definition ex_llama : tokenizer :=
  Tkz no_matching no_matching (Some (run_ops [OPrepend mark; OReplace (PRune 32) mark])) None (Some (always (bpe_tokenize ex_bpe_unk)))
    (Some (PTemplate [PSpecial [83]%N 0; PSeq false 0] [PSpecial [83]%N 0; PSeq false 0; PSeq true 1] [([83]%N, ([9], [[83]%N]))]))
    (Some (Trunc 8 LongestFirst 1)) (Some (Padding (Fixed 8) PRight 3 0 [112]%N)).
Lemma mark_clean : clean mark.
Proof. exists [9601]%N. repeat split; repeat constructor; unfold scalar; lia. Qed.
Lemma space_local : local_change (OReplace (PRune 32) mark).
Proof. split; [repeat split; cbn; auto|]. split; [reflexivity|]. exact mark_clean. Qed.
Example C71_llama_example : components_ok ex_llama /\ components_return ex_llama /\ (forall add, ending_returns ex_llama true add) /\
  exists e, tk_encode (isort start_key) (isort id_key) ex_llama OByte (IDual (Raw [97; 32; 97; 98]%N) (Words [[97]; [98; 97]]%N)) true = Ok (Some e) /\
    ids e = [9; 0; 1; 0; 0; 1; 3; 3].
Proof.
  assert (R : returning [OPrepend mark; OReplace (PRune 32) mark]).
  { constructor; [exact mark_clean|discriminate|exact space_local| |constructor]. apply spares_rune; [exact mark_clean|discriminate|]. cbn. intros [H|[]]. discriminate. }
  destruct (C71_normalizers_partial _ R) as [R1 R2]. split; [|split; [|split; [|eexists; split; [vm_compute; reflexivity|]]]].
  - split; [apply none_matching|]. split; [apply none_matching|]. split; [exact R1|]. split; [left; exact I|apply C54_bpe].
  - split; [exact R2|]. split; [left; exact I|]. eexists. split; [reflexivity|]. apply C71_bpe. discriminate.
  - intros add. split; [|split; [split; [cbn; lia|exact I]|reflexivity]].
    apply returning_template with (ty := 0); [cbn; auto|]. repeat constructor; discriminate.
  - reflexivity.
Qed.

(** As for BERT: decomposition and lower case, words and punctuation, WordPiece, the special
    tokens; the text is cut to four tokens. *)
Definition ex_wp : wordpiece := WP [([91; 85; 93]%N, 0); ([97]%N, 1); ([35; 35; 98]%N, 2)] [] [91; 85; 93]%N [35; 35]%N 100.
Definition ex_bert : tokenizer :=
  Tkz no_matching no_matching (Some (run_ops [ONfd ex_segs; OCase (fun s => s)])) (Some (pre_tokenize ex_uni PTBert)) (Some (always (wp_tokenize ex_wp)))
    (Some (PBert (PTok [91; 83; 93]%N 9) (PTok [91; 67; 93]%N 8))) (Some (Trunc 4 OnlyFirst 0)) None.
Example C71_bert_example : components_ok ex_bert /\ components_return ex_bert /\ (forall add, ending_returns ex_bert false add) /\
  exists e, tk_encode (isort start_key) (isort id_key) ex_bert OByte (ISingle (Raw [97; 98; 33; 97]%N)) true = Ok (Some e) /\ ids e = [9; 1; 2; 8].
Proof.
  assert (R : returning [ONfd ex_segs; OCase (fun s => s)]).
  { constructor.
    - intros s (rs & Sc & NZ & ->). unfold ex_segs. rewrite runes_encode by assumption. split; [unfold zlen; rewrite map_length; lia|]. apply Forall_map.
      rewrite Forall_forall in *. intros c Hc. destruct (c =? 233)%N.
      + exists [101; 769]%N. repeat split; repeat constructor; unfold scalar; lia.
      + exists [c]. split; [constructor; [now apply Sc|constructor]|]. split; [constructor; [now apply NZ|constructor]|reflexivity].
    - constructor; [|constructor]. intros s C. auto. }
  destruct (C71_normalizers_partial _ R) as [R1 R2]. split; [|split; [|split; [|eexists; split; [vm_compute; reflexivity|reflexivity]]]].
  - split; [apply none_matching|]. split; [apply none_matching|]. split; [exact R1|]. split; [left; apply C54_pre_tokenizers; exact I|apply C54_wordpiece].
  - split; [exact R2|]. split; [left; apply C71_pre_tokenizers; exact I|]. eexists. split; [reflexivity|]. apply C71_wordpiece. discriminate.
  - intros [|]; (split; [constructor|split; [split; [cbn; lia|split; [reflexivity|cbn; lia]]|exact I]]).
Qed.
(** Cutting at punctuation, then byte-level, as for GPT-2 with an unknown token. *)
Definition ex_gpt : tokenizer :=
  Tkz no_matching no_matching None (Some (pre_tokenize ex_uni (PTSequence ([PTBert] ++ [PTByteLevel true])))) (Some (always (bpe_tokenize ex_bpe_unk)))
    (Some (PSequence ([PByteLevel true true] ++ [PRoberta (PTok [60]%N 9) (PTok [62]%N 8) true true]))) None None.
Example C71_gpt_example : components_ok ex_gpt /\ components_return ex_gpt /\ (forall pair add, ending_returns ex_gpt pair add) /\
  exists e, tk_encode (isort start_key) (isort id_key) ex_gpt OByte (ISingle (Raw [97; 44; 97]%N)) true = Ok (Some e) /\ ids e = [9; 2; 1; 2; 2; 2; 1; 8].
Proof.
  split; [|split; [|split; [|eexists; split; [vm_compute; reflexivity|reflexivity]]]].
  - split; [apply none_matching|]. split; [apply none_matching|]. split; [exact I|]. split; [|apply C54_bpe].
    right. split; [reflexivity|]. apply C54_byte_level; [intros _; split; reflexivity|]. cbn. auto.
  - split; [exact I|]. split; [|eexists; split; [reflexivity|apply C71_bpe; discriminate]].
    right. split; [reflexivity|]. refine (proj2 (C71_rewriting_partial ex_uni (PTByteLevel true) _) [PTBert] _); [intros _; split; reflexivity|cbn; auto].
  - intros pair add. split; [|split; exact I]. apply returning_sequence; [constructor; [eauto|constructor]|constructor].
Qed.
(** Metaspace and Unigram, as for T5. *)
Definition ex_meta : tokenizer :=
  Tkz no_matching no_matching None (Some (pre_tokenize ex_uni (PTMetaspace mark (find_chars (N.eqb 9601)) Always)))
    (Some (always (ug_tokenize zlt None (Some 0) zplus zbonus zpenal (UG [(default_unk, Some (-200)); (mark, Some (-100)); ([97]%N, Some (-100))] (Some 0) false true)))) None None None.
Example C71_meta_example : components_ok ex_meta /\ components_return ex_meta /\ (forall pair add, ending_returns ex_meta pair add) /\
  exists e, tk_encode (isort start_key) (isort id_key) ex_meta OByte (ISingle (Raw [97; 32; 98]%N)) true = Ok (Some e) /\ ids e = [1; 2; 1; 0].
Proof.
  assert (P : placed (PTMetaspace mark (find_chars (N.eqb 9601)) Always)) by (split; [exact mark_clean|split; [discriminate|apply chars_find_well]]).
  split; [|split; [|split; [|eexists; split; [vm_compute; reflexivity|reflexivity]]]].
  - split; [apply none_matching|]. split; [apply none_matching|]. split; [exact I|]. split; [left; apply C54_pre_tokenizers; exact P|apply C54_unigram; [exact zlaws|reflexivity]].
  - split; [exact I|]. split; [|eexists; split; [reflexivity|apply C71_unigram_partial; [exact zlaws|reflexivity|discriminate]]].
    right. split; [reflexivity|]. exact (proj1 (C71_rewriting_partial ex_uni (PTMetaspace mark (find_chars (N.eqb 9601)) Always) P)).
  - intros pair add. split; [exact I|split; exact I].
Qed.
