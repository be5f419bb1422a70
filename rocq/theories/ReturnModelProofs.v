(** Models and normalizers for the statement that Encode returns. *)
From Verif Require Import Base BaseProofs Utf8Model Utf8Proofs PatternModel PatternSpec NormalizedModel NormalizedSpec NormalizedProofs EncodingModel EncodingSpec EncodingProofs
  BpeModel BpeSpec BpeTokProofs AddedVocabModel AddedVocabSpec AddedFindProofs WordPieceModel WordPieceProofs UnigramModel UnigramSpec UnigramProofs PreTokenizedModel PreTokenizedSpec
  PreTokenizerModel ExpandedProofs ProcessorModel ProcessorSpec BertNormModel PipelineModel PipelineSpec PipelineProofs PlacedProofs PlacedNormProofs
  ReturnSpec ReturnEndProofs ReturnProofs ReturnNormProofs.
Open Scope Z_scope.

Lemma tiles_there L toks : 0 < L -> tiles 0 L (map BpeModel.t_off toks) -> toks <> [].
Proof. intros HL T ->. cbn in T. lia. Qed.
Lemma always_returns f : (forall s, clean s -> s <> [] -> exists toks, f s = Ok toks /\ toks <> []) -> model_returns (always f).
Proof. intros H s C N. destruct (H s C N) as (toks & E & Ne). exists toks. unfold always. rewrite E. auto. Qed.
Lemma text_there (s : str) : s <> [] -> 0 < zlen s.
Proof. destruct s; [congruence|]. intros _. unfold zlen. cbn [length]. lia. Qed.

(** No text is encoded by a tokenizer whose normalizer fails on it. *)
Lemma normalizer_stops t f ty wi ot s p : tk_normalizer t = Some f ->
  pt_split (fun _ n => split_with_indices (isort start_key) (isort id_key) (tk_raw t) n) (pt_new s) = Ok p ->
  match pt_splits p with sp :: _ => sp_toks sp = None /\ f (sp_ns sp) = Panic | [] => False end ->
  encode_text (isort start_key) (isort id_key) t ty wi ot s = Panic.
Proof.
  intros En E H. unfold encode_text, extract_and_normalize. rewrite E. cbn [bind]. rewrite En. cbn [apply_normalizer]. unfold pt_split.
  destruct (pt_splits p) as [|sp l]; [contradiction|]. destruct H as [Hn H]. cbn [split_pieces]. rewrite Hn, H. reflexivity.
Qed.


(** * Patterns of single characters *)

Lemma char_finds_ordered f : forall l pos, ordered_matches pos (pos + PatternProofs.width l) (char_finds f l pos).
Proof.
  induction l as [|[r w] l IH]; intros pos; cbn [char_finds]; [cbn; unfold PatternProofs.width; cbn; lia|].
  assert (W : PatternProofs.width ((r, w) :: l) = Z.of_nat w + PatternProofs.width l) by (unfold PatternProofs.width; cbn [fold_right snd]; lia). rewrite W, Z.add_assoc.
  specialize (IH (pos + Z.of_nat w)). destruct (f r); cbn [app ordered_matches]; [split; [lia|exact IH]|].
  destruct (char_finds f l _) as [|[x y] m]; cbn [ordered_matches] in *; [lia|]. destruct IH as [I1 I2]. split; [lia|exact I2].
Qed.
Lemma chars_find_well f : finds_well (PRegexp (find_chars f)).
Proof.
  split; [|split; [exact I|]].
  - intros s. pose proof (char_finds_ordered f (runes_w s) 0) as O. rewrite PatternProofs.width_runes in O. exact O.
  - intros s (rs & Sc & ->). cbn [between_chars]. unfold find_chars. rewrite runes_w_encode by assumption. destruct (char_finds_spec f rs []) as [_ I2].
    change (NormalizedInvProofs.bytes []) with 0 in I2. cbn [app] in I2. eapply Forall_impl; [|exact I2]. intros m (H1 & H2 & H3). unfold cut. cbn [fst snd]. auto using NormalizedOpProofs.char_pos_boundary.
Qed.
