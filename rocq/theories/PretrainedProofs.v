(** GPT-2 and RoBERTa decode with the BPE decoder (C73). *)
From Verif Require Import Base BaseProofs Utf8Model Utf8Proofs NormalizedModel NormalizedSpec EncodingModel EncodingProofs BpeModel BpeSpec BpeTokSpec BpeTokProofs BpeSaveModel
  AddedVocabModel AddedVocabSpec DecoderModel DecoderSpec DecoderProofs PreTokenizedModel PreTokenizerModel PreTokenizerSpec ProcessorModel ExpandedProofs PipelineModel PipelineSpec PipelineProofs TokensSpec ReturnSpec
  RoundTripSpec RoundTripBpeProofs RoundTripEndProofs RoundTripProofs AddedPatternModel AddedPatternSpec AddedPatternProofs PretrainedModel PretrainedSpec.
Open Scope Z_scope.

(** ** Tokens are whole characters *)
Section Bpe.
  Variable b : bpe.
  Hypothesis L : literal b.
  Local Notation whole := (fun sg : BpeSpec.seg => valid_utf8 (text_of b (fst sg))).

  Lemma symbols_whole : forall rs l, Forall2 (char_symbol b) rs l -> Forall scalar rs -> Forall (fun c => vget (encode_rune c) (b_vocab b) <> None) rs -> Forall whole l.
  Proof.
    induction 1 as [|r sg rs l S F IH]; intros Sc V; [constructor|]. apply Forall_cons_iff in V as [V1 V2]. apply Forall_cons_iff in Sc as [Sc1 Sc2]. constructor; [|now apply IH].
    assert (Nm : names b (fst sg) (encode_rune r)).
    { destruct S as [_ [H|[H _]]]; [|congruence]. split; [exact H|]. left. eauto. }
    rewrite (names_text b L _ _ Nm). exists [r]. split; [now constructor|]. unfold encode. cbn [map concat]. now rewrite app_nil_r.
  Qed.
  Lemma steps_whole l l' : merge_steps (lookup_merge (b_merges b)) l l' -> Forall whole l -> Forall whole l'.
  Proof.
    induction 1 as [l|r l1 l2 l3 S M IH]; intros F; [exact F|]. apply IH. destruct S as [A B c1 n1 c2 n2 r new H]. destruct L as (_ & I & G).
    destruct (G _ _ _ _ H) as (x & y & X & Y & V). apply Forall_app in F as [FA F]. apply Forall_cons_iff in F as [F1 F]. apply Forall_cons_iff in F as [F2 FB].
    apply Forall_app. split; [exact FA|]. constructor; [|exact FB]. cbn [fst] in *. unfold text_of in *. rewrite X in F1. rewrite Y in F2. rewrite (I _ _ V). now apply valid_utf8_app.
  Qed.
  Lemma bpe_whole w toks : valid_utf8 w -> Forall (fun c => vget (encode_rune c) (b_vocab b) <> None) (runes w) -> bpe_tokenize b w = Ok toks ->
    Forall (fun t => valid_utf8 (t_value t)) toks.
  Proof.
    intros (rs & Sc & ->) V E. rewrite runes_encode in V by assumption. pose proof L as (Pn & _).
    destruct (tokenize_exhaustive b _ toks Pn E) as (l & F & M & _). rewrite runes_encode in F by assumption.
    pose proof (steps_whole _ _ M (symbols_whole rs l F Sc V)) as T. pose proof (tokens_values b _ _ E) as Tv. rewrite Forall_forall in *.
    intros t Ht. rewrite (Tv t Ht). assert (Hs : In (t_id t, snd (t_off t) - fst (t_off t)) (tok_segs toks)) by (unfold tok_segs; apply in_map_iff; exists t; auto). exact (T _ Hs).
  Qed.
  Lemma rendered_whole bs toks : (forall k, (k < 256)%N -> vget (byte_char k) (b_vocab b) <> None) -> Forall (fun k => (k < 256)%N) bs ->
    bpe_tokenize b (bl_render bs) = Ok toks -> Forall (fun t => valid_utf8 (t_value t)) toks.
  Proof.
    intros V B E. destruct (render_chars bs B) as (rs & Sc & Er & C). rewrite Er in E. apply (bpe_whole _ _ (ex_intro _ rs (conj Sc eq_refl))) in E; [exact E|].
    rewrite runes_encode by assumption. eapply Forall_impl; [|exact C]. intros c (k & Hk & ->). now apply V.
  Qed.
End Bpe.

(** ** Rendered text cut at characters *)
Lemma render_cons b s : bl_render (b :: s) = byte_char b ++ bl_render s.
Proof. reflexivity. Qed.
Lemma render_prefix : forall rs k x, Forall scalar rs -> Forall (fun b => (b < 256)%N) k -> encode rs ++ x = bl_render k -> valid_utf8 x ->
  exists a c, k = a ++ c /\ encode rs = bl_render a /\ x = bl_render c.
Proof.
  intros rs k x Sc B E (xs & Sx & ->). destruct (render_chars k B) as (cs & Sc' & Er & _). rewrite Er, <- encode_app in E. apply encode_inj in E; [|now apply Forall_app|assumption]. subst cs.
  clear Sc'. revert k B Er. induction rs as [|r rs IH]; intros k B Er.
  - exists [], k. split; [reflexivity|]. split; [reflexivity|]. now rewrite Er.
  - apply Forall_cons_iff in Sc as [S1 S2]. destruct k as [|b k].
    + exfalso. cbn [app] in Er. rewrite encode_cons in Er. symmetry in Er. apply app_eq_nil in Er as [Er _]. now apply (encode_rune_nonempty r).
    + apply Forall_cons_iff in B as [B1 B2]. destruct (byte_char_spec b B1) as (c & C1 & C2 & _). destruct (render_chars k B2) as (ks & Sk & Ek & _).
      assert (X : encode (c :: ks) = encode ((r :: rs) ++ xs)) by (rewrite encode_cons, <- Ek, <- C2, <- Er; reflexivity).
      apply encode_inj in X; [|now constructor|cbn [app]; constructor; [assumption|now apply Forall_app]]. cbn [app] in X. injection X as X1 X2. subst c ks.
      destruct (IH S2 k B2) as (a & d & -> & Y1 & Y2); [now rewrite Ek|]. exists (b :: a), d. split; [reflexivity|]. split; [|exact Y2]. rewrite encode_cons, render_cons, C2, Y1. reflexivity.
Qed.
Lemma cut_render : forall toks k, Forall valid_utf8 toks -> Forall (fun b => (b < 256)%N) k -> concat toks = bl_render k -> exists ks, toks = map bl_render ks /\ concat ks = k.
Proof.
  induction toks as [|t toks IH]; intros k V B E.
  - exists []. split; [reflexivity|]. destruct k as [|b k]; [reflexivity|]. exfalso. inversion B; subst. destruct (byte_char_spec b) as (c & _ & C2 & _); [assumption|]. cbn [concat] in E. rewrite render_cons, C2 in E.
    symmetry in E. apply app_eq_nil in E as [E _]. now apply (encode_rune_nonempty c).
  - apply Forall_cons_iff in V as [(rs & Sc & ->) V]. cbn [concat] in E. destruct (render_prefix rs k (concat toks) Sc B E (valid_concat _ V)) as (a & c & -> & E1 & E2).
    apply Forall_app in B as [_ B]. destruct (IH c V B E2) as (ks & -> & K). exists (a :: ks). cbn [map concat]. now rewrite <- E1, K.
Qed.

(** ** The BPE decoder *)

(** The shape of the 256 characters: visible ASCII characters stand for themselves, the rest have
    two bytes, and only the space has the two of "Ġ". *)
Definition shape (b : N) : bool :=
  match byte_char b with
  | [x] => (x =? b)%N && ((33 <=? b) && (b <=? 126))%N
  | [x; y] => ((192 <=? x) && (128 <=? y) && (y <? 192))%N && negb ((33 <=? b) && (b <=? 126))%N && Bool.eqb ((x =? 196)%N && (y =? 160)%N) (b =? 32)%N
  | _ => false
  end.
Lemma shapes b : (b < 256)%N -> shape b = true.
Proof.
  intros H. assert (A : forallb (fun k => shape (N.of_nat k)) (seq 0 256) = true) by (vm_compute; reflexivity). rewrite forallb_forall in A.
  specialize (A (N.to_nat b)). rewrite N2Nat.id in A. apply A, in_seq. lia.
Qed.
Lemma byte_cases b : (b < 256)%N ->
  (33 <= b <= 126)%N /\ byte_char b = [b] \/ b = 32%N /\ byte_char b = G_DOT \/
  ~ printable b /\ exists x y, byte_char b = [x; y] /\ (192 <= x)%N /\ (128 <= y < 192)%N /\ (x = 196%N -> y <> 160%N).
Proof.
  intros H. pose proof (shapes b H) as S. unfold shape in S. destruct (byte_char b) as [|x [|y [|z l]]]; try discriminate.
  - left. apply andb_true_iff in S as [S1 S2]. apply N.eqb_eq in S1. subst x. apply andb_true_iff in S2 as [S2 S3]. apply N.leb_le in S2. apply N.leb_le in S3. auto.
  - right. rewrite !andb_true_iff, negb_true_iff, andb_false_iff, N.ltb_lt, !N.leb_le, !N.leb_gt in S. destruct S as (((S1 & S2) & S3) & S4).
    apply Bool.eqb_prop in S4. destruct (N.eqb_spec b 32) as [->|Nb].
    + left. apply andb_true_iff in S4 as [A B]. apply N.eqb_eq in A. apply N.eqb_eq in B. now subst.
    + right. split; [unfold printable; lia|]. exists x, y. split; [reflexivity|]. split; [lia|]. split; [lia|]. intros -> ->. discriminate.
Qed.
Lemma replace_glyphs new : forall s, Forall (fun b => (b < 256)%N) s -> forall fuel, (length (bl_render s) <= fuel)%nat -> replace_f fuel G_DOT new (bl_render s) = glyphs new s.
Proof.
  unfold glyphs. induction 1 as [|b s Hb F IH]; intros fuel Hf; [destruct fuel; reflexivity|]. rewrite render_cons in *. rewrite app_length in Hf. cbn [map concat]. unfold glyph at 1.
  destruct (byte_cases b Hb) as [[P E]|[[-> E]|(P & x & y & E & X & Y & D)]]; rewrite E in *.
  - cbn [length] in Hf. destruct fuel as [|fuel]; [lia|]. cbn [app replace_f]. unfold G_DOT at 1. cbn [starts_with]. replace (b =? 196)%N with false by (symmetry; apply N.eqb_neq; lia).
    replace (196 =? b)%N with false by (symmetry; apply N.eqb_neq; lia). cbn [andb]. replace (b =? 32)%N with false by (symmetry; apply N.eqb_neq; lia). cbn [app]. f_equal. apply IH. lia.
  - cbn [length G_DOT] in Hf. destruct fuel as [|fuel]; [lia|]. change (G_DOT ++ bl_render s) with (196%N :: 160%N :: bl_render s). cbn [replace_f].
    change (starts_with G_DOT (196%N :: 160%N :: bl_render s)) with true. change (skipn (length G_DOT) (196%N :: 160%N :: bl_render s)) with (bl_render s). cbn [N.eqb Pos.eqb]. f_equal. apply IH. lia.
  - cbn [length] in Hf. destruct fuel as [|[|fuel]]; [lia|lia|]. replace (b =? 32)%N with false by (symmetry; apply N.eqb_neq; unfold printable in P; lia).
    change ([x; y] ++ bl_render s) with (x :: y :: bl_render s). change ([x; y] ++ concat (map (glyph new) s)) with (x :: y :: concat (map (glyph new) s)).
    cbn [replace_f]. assert (S1 : starts_with G_DOT (x :: y :: bl_render s) = false).
    { unfold G_DOT. cbn [starts_with]. destruct (N.eqb_spec 196 x) as [<-|]; [|reflexivity]. destruct (N.eqb_spec 160 y) as [<-|]; [exfalso; now apply D|reflexivity]. }
    rewrite S1. f_equal. assert (S2 : starts_with G_DOT (y :: bl_render s) = false).
    { unfold G_DOT. cbn [starts_with]. destruct (N.eqb_spec 196 y) as [<-|]; [lia|reflexivity]. }
    rewrite S2. f_equal. apply IH. lia.
Qed.
Lemma bpe_glyphs : forall ks, Forall (Forall (fun b => (b < 256)%N)) ks -> concat (bpe_chain G_DOT (map bl_render ks)) = gpt_text ks.
Proof.
  induction 1 as [|s ks H F IH]; [reflexivity|]. cbn [map bpe_chain]. destruct ks as [|s' ks].
  - cbn [map bpe_chain concat gpt_text]. rewrite app_nil_r. now apply replace_glyphs.
  - change (gpt_text (s :: s' :: ks)) with (glyphs [32%N] s ++ gpt_text (s' :: ks)). rewrite <- IH. cbn [concat]. f_equal. now apply replace_glyphs.
Qed.

(** ** When the text comes back *)
Definition leads (s : str) : nat := length (filter (fun b => 192 <=? b)%N s).
Definition odds (s : str) : nat := length (filter (fun b => negb ((32 <=? b) && (b <=? 126)))%N s).
Lemma leads_app a b : leads (a ++ b) = (leads a + leads b)%nat.
Proof. unfold leads. now rewrite filter_app, app_length. Qed.
Lemma odds_app a b : odds (a ++ b) = (odds a + odds b)%nat.
Proof. unfold odds. now rewrite filter_app, app_length. Qed.
Lemma leads_glyphs sp s : leads sp = 0%nat -> Forall (fun b => (b < 256)%N) s -> leads (glyphs sp s) = odds s.
Proof.
  intros Hs. unfold glyphs. induction 1 as [|b s Hb F IH]; [reflexivity|]. cbn [map concat]. change (b :: s) with ([b] ++ s). rewrite leads_app, odds_app, IH. f_equal. unfold glyph, odds, leads.
  destruct (byte_cases b Hb) as [[P E]|[[-> E]|(P & x & y & E & X & Y & D)]].
  - replace (b =? 32)%N with false by (symmetry; apply N.eqb_neq; lia). rewrite E. cbn [filter]. replace (192 <=? b)%N with false by (symmetry; apply N.leb_gt; lia).
    replace (32 <=? b)%N with true by (symmetry; apply N.leb_le; lia). replace (b <=? 126)%N with true by (symmetry; apply N.leb_le; lia). reflexivity.
  - exact Hs.
  - unfold printable in P. replace (b =? 32)%N with false by (symmetry; apply N.eqb_neq; lia). rewrite E. cbn [filter]. replace (192 <=? x)%N with true by (symmetry; apply N.leb_le; lia).
    replace (192 <=? y)%N with false by (symmetry; apply N.leb_gt; lia). destruct (N.leb_spec 32 b), (N.leb_spec b 126); try reflexivity. lia.
Qed.
Lemma leads_text : forall ks, Forall (fun b => (b < 256)%N) (concat ks) -> leads (gpt_text ks) = odds (concat ks).
Proof.
  induction ks as [|s ks IH]; intros B; [reflexivity|]. cbn [concat] in *. apply Forall_app in B as [B1 B2]. rewrite odds_app. destruct ks as [|s' ks].
  - cbn [gpt_text concat]. rewrite leads_glyphs by (assumption || reflexivity). change (odds []) with 0%nat. lia.
  - change (gpt_text (s :: s' :: ks)) with (glyphs [32%N] s ++ gpt_text (s' :: ks)). rewrite leads_app, leads_glyphs, IH by (assumption || reflexivity). reflexivity.
Qed.
Lemma odds_printable s : odds s = 0%nat -> Forall printable s.
Proof.
  unfold odds. induction s as [|b s IH]; intros H; [constructor|]. cbn [filter] in H. destruct (N.leb_spec 32 b), (N.leb_spec b 126); cbn [andb negb length] in H; try discriminate.
  constructor; [unfold printable; lia|auto].
Qed.
Lemma rune_leads r : leads (encode_rune r) = odds (encode_rune r) /\ Forall printable (encode_rune r) \/ (leads (encode_rune r) < odds (encode_rune r))%nat.
Proof.
  assert (H2 : forall k m, (192 <= k)%N -> (128 <= m)%N -> (m < 192)%N -> (leads [k; m] < odds [k; m])%nat).
  { intros k m H1 H2 H3. unfold leads, odds. cbn [filter]. replace (192 <=? k)%N with true by (symmetry; apply N.leb_le; lia). replace (192 <=? m)%N with false by (symmetry; apply N.leb_gt; lia).
    replace (k <=? 126)%N with false by (symmetry; apply N.leb_gt; lia). replace (m <=? 126)%N with false by (symmetry; apply N.leb_gt; lia). rewrite !andb_false_r. cbn [negb length]. lia. }
  assert (H1 : forall m l, (128 <= m)%N -> (m < 192)%N -> leads (l ++ [m]) = leads l /\ odds (l ++ [m]) = S (odds l)).
  { intros m l A B. rewrite leads_app, odds_app. unfold leads at 2, odds at 2. cbn [filter]. replace (192 <=? m)%N with false by (symmetry; apply N.leb_gt; lia).
    replace (m <=? 126)%N with false by (symmetry; apply N.leb_gt; lia). rewrite andb_false_r. cbn [negb length]. lia. }
  assert (M : forall k, (128 <= 128 + k mod 64)%N /\ (128 + k mod 64 < 192)%N) by (intros k; pose proof (N.mod_upper_bound k 64 ltac:(discriminate)); lia).
  unfold encode_rune. destruct (N.ltb_spec r 128) as [A|A].
  - unfold leads, odds. cbn [filter]. replace (192 <=? r)%N with false by (symmetry; apply N.leb_gt; lia). destruct (N.leb_spec 32 r), (N.leb_spec r 126); cbn [andb negb length]; try (right; lia).
    left. split; [reflexivity|]. constructor; [unfold printable; lia|constructor].
  - right. destruct (r <? 2048)%N; [apply H2; try apply M; lia|]. destruct (negb (scalarb r)); [vm_compute; lia|]. destruct (r <? 65536)%N.
    + destruct (H1 (128 + r mod 64)%N [(224 + r / 4096)%N; (128 + (r / 64) mod 64)%N] (proj1 (M r)) (proj2 (M r))) as [E1 E2].
      cbn [app] in E1, E2. rewrite E1, E2. pose proof (H2 (224 + r / 4096)%N (128 + (r / 64) mod 64)%N ltac:(lia) (proj1 (M _)) (proj2 (M _))). lia.
    + destruct (H1 (128 + r mod 64)%N [(240 + r / 262144)%N; (128 + (r / 4096) mod 64)%N; (128 + (r / 64) mod 64)%N] (proj1 (M r)) (proj2 (M r))) as [E1 E2].
      destruct (H1 (128 + (r / 64) mod 64)%N [(240 + r / 262144)%N; (128 + (r / 4096) mod 64)%N] (proj1 (M _)) (proj2 (M _))) as [E3 E4].
      cbn [app] in E1, E2, E3, E4. rewrite E1, E2, E3, E4. pose proof (H2 (240 + r / 262144)%N (128 + (r / 4096) mod 64)%N ltac:(lia) (proj1 (M _)) (proj2 (M _))). lia.
Qed.
Lemma leads_le rs : (leads (encode rs) <= odds (encode rs))%nat /\ (leads (encode rs) = odds (encode rs) -> Forall printable (encode rs)).
Proof.
  induction rs as [|r rs [I1 I2]]; [split; [apply Nat.le_refl|constructor]|]. rewrite encode_cons, leads_app, odds_app. destruct (rune_leads r) as [[E P]|H].
  - split; [lia|]. intros H. apply Forall_app. split; [exact P|]. apply I2. lia.
  - split; lia.
Qed.
Lemma glyphs_printable s : Forall printable s -> glyphs [32%N] s = s /\ (length (glyphs [] s) + length (filter (N.eqb 32) s))%nat = length s.
Proof.
  unfold glyphs. induction 1 as [|b s P F [I1 I2]]; [split; reflexivity|]. cbn [map concat filter]. unfold printable in P. unfold glyph at 1 3. rewrite (N.eqb_sym 32 b). destruct (N.eqb_spec b 32) as [->|Nb].
  - cbn [app length]. rewrite I1. split; [reflexivity|]. lia.
  - destruct (byte_cases b) as [[_ E]|[[X _]|(X & _)]]; [lia| |congruence|unfold printable in X; lia]. rewrite E. cbn [app length]. rewrite I1. split; [reflexivity|]. lia.
Qed.
Lemma gpt_text_printable : forall ks, Forall printable (concat ks) ->
  (length (gpt_text ks) + length (filter (N.eqb 32) (last ks [])))%nat = length (concat ks) /\ (~ In 32%N (last ks []) -> gpt_text ks = concat ks).
Proof.
  induction ks as [|s ks IH]; intros P; [split; reflexivity|]. cbn [concat] in P. apply Forall_app in P as [P1 P2]. destruct ks as [|s' ks].
  - cbn [gpt_text last concat]. rewrite app_nil_r. destruct (glyphs_printable s P1) as [_ G]. split; [exact G|]. intros N. clear -N P1. unfold glyphs. induction P1 as [|b s P F IH]; [reflexivity|].
    cbn [map concat]. rewrite IH by (intros H; apply N; now right). unfold glyph. unfold printable in P. destruct (N.eqb_spec b 32) as [->|Nb]; [exfalso; apply N; now left|].
    destruct (byte_cases b) as [[_ E]|[[X _]|(X & _)]]; [lia| |congruence|unfold printable in X; lia]. now rewrite E.
  - change (gpt_text (s :: s' :: ks)) with (glyphs [32%N] s ++ gpt_text (s' :: ks)). change (last (s :: s' :: ks) []) with (last (s' :: ks) []). change (concat (s :: s' :: ks)) with (s ++ concat (s' :: ks)).
    destruct (IH P2) as [I1 I2]. rewrite (proj1 (glyphs_printable s P1)). rewrite !app_length. split; [lia|]. intros N. now rewrite I2.
Qed.
Lemma restored_iff ks : valid_utf8 (concat ks) -> gpt_text ks = concat ks <-> Forall printable (concat ks) /\ ~ In 32%N (last ks []).
Proof.
  intros V. pose proof (valid_bytes _ V) as B. split.
  - intros E. assert (P : Forall printable (concat ks)).
    { pose proof (leads_text ks B) as H. rewrite E in H. destruct V as (rs & _ & Er). rewrite Er in *. now apply leads_le. }
    split; [exact P|]. destruct (gpt_text_printable ks P) as [G _]. rewrite E in G. intros I. assert (X : In 32%N (filter (N.eqb 32) (last ks []))) by (apply filter_In; split; [exact I|reflexivity]).
    destruct (filter (N.eqb 32) (last ks [])); [destruct X|cbn [length] in G; lia].
  - intros [P N]. now apply gpt_text_printable.
Qed.

(** ** Tokenizers with a BPE model and the BPE decoder *)
Lemma files_literal v order file b : byte_vocab v -> Permutation order v -> bpe_from_files v order file = Ok b ->
  literal b /\ b_vocab b = v /\ b_vocab_r b = build_vocab_r order.
Proof.
  intros (N & D & _) P E. unfold bpe_from_files in E. apply bind_Ok_inv in E as (t & E & Eb). injection Eb as <-. unfold read_merges in E. apply bind_Ok_inv in E as (lines & _ & E).
  split; [exact (loaded_literal v order _ t None None N D P E)|split; reflexivity].
Qed.
Section Gpt.
  Variable ss si : list io_pair -> list io_pair.
  Hypothesis HS : sorts start_key ss.
  Hypothesis HI : sorts id_key si.
  Variables (t : tokenizer) (b : bpe) (u : unicode) (prefix : bool) (m : base_model) (av : added_vocab) (skip : bool).
  Hypothesis M1 : matching_ok (tk_raw t).
  Hypothesis M2 : matching_ok (tk_normalized t).
  Hypothesis No : tk_normalizer t = None.
  Hypothesis Pre : tk_pre t = Some (pre_tokenize u (PTByteLevel prefix)).
  Hypothesis U : prefix = true -> un_letter u 32 = false /\ un_number u 32 = false.
  Hypothesis Fm : tk_model t = Some (bpe_model b).
  Hypothesis Mo : model_ok (bpe_model b).
  Hypothesis L : literal b.
  Hypothesis V : forall k, (k < 256)%N -> vget (byte_char k) (b_vocab b) <> None.
  Hypothesis Nm : forall s id, vget s (b_vocab b) = Some id -> makes b s -> shown m av skip id = Some s.

  Lemma gpt_decodes ot x add : ending_returns t (dual x) add -> ending_hides (shown m av skip) t (dual x) add -> clean_inputs x -> ot <> OInvalid ->
    exists e ks, tk_encode ss si t ot x add = Ok (Some e) /\ shown_all m av skip (ids e) = map bl_render ks /\
      concat ks = concat (map (kept ss si t prefix) (encode_texts x)) /\ valid_utf8 (concat ks) /\
      decode_ids m av (Some (decode ByNew (DBpe G_DOT))) (ids e) skip = Ok (gpt_text ks).
  Proof.
    intros R H C Hot.
    assert (Qt : forall bs toks, bs <> [] -> Forall (fun k => (k < 256)%N) bs -> bpe_model b (bl_render bs) = Ok (Some toks) -> Forall (fun t => valid_utf8 (t_value t)) toks).
    { intros bs toks _ B E. unfold bpe_model in E. apply bind_Ok_inv in E as (ts & E & Et). injection Et as <-. exact (rendered_whole b L bs ts V B E). }
    destruct (encode_decodes ss si HS HI t (bpe_model b) u prefix m av skip M1 M2 No Pre U Fm Mo (fun bs N B => bytes_spelled b _ bs L V Nm N B) valid_utf8 Qt ot x add R H C Hot) as (e & E & D & Va & Q).
    pose proof (valid_bytes _ Va) as B. destruct (cut_render _ _ Q B D) as (ks & K1 & K2). exists e, ks. split; [exact E|]. split; [exact K1|]. split; [exact K2|]. split; [now rewrite K2|].
    unfold decode_ids. rewrite tokens_of_shown, K1. cbn [decode decode_chain bind]. rewrite bpe_glyphs; [reflexivity|]. rewrite <- K2 in B. clear -B.
    induction ks as [|k ks IH]; [constructor|]. cbn [concat] in B. apply Forall_app in B as [B1 B2]. constructor; [exact B1|auto].
  Qed.
End Gpt.

Lemma none_ok : matching_ok no_matching.
Proof. intros s _. split; [constructor|constructor]. Qed.

(** ** RoBERTa *)
Definition plain_re (s : str) : token_re := TRe false false s false false.
Lemma roberta_made u is_word b prefix : vget BOS (b_vocab b) = Some 0 -> vget EOS (b_vocab b) = Some 2 ->
  exists av, roberta u is_word b prefix = Ok (Ready (Tkz (re_matching [(plain_re BOS, 0); (plain_re EOS, 2)]) (re_matching []) None (Some (pre_tokenize u (PTByteLevel prefix)))
        (Some (bpe_model b)) (Some roberta_default) None None) (bpe_base b) av ByNew (DBpe G_DOT)) /\ av_map_r av = [(0, BOS); (2, EOS)] /\ av_set av = [EOS; BOS].
Proof.
  intros E0 E2. unfold roberta, added_by, add_history, add_step, add_special_tokens, add_tokens, refresh, looked_for.
  cbn. do 6 (rewrite ?E0, ?E2; cbn). eexists. split; [reflexivity|]. split; reflexivity.
Qed.
Lemma pattern_text s : s <> [] -> valid_utf8 s -> re_ok (plain_re s).
Proof. intros N V. split; assumption. Qed.
Lemma bos_valid : valid_utf8 BOS /\ valid_utf8 EOS.
Proof. split; [exists BOS|exists EOS]; (split; [repeat constructor; unfold scalar; lia|reflexivity]). Qed.
Lemma absent w s : w <> [] -> (forall a z, s <> a ++ w ++ z) -> find_re (plain_re w) None s 0 0 = [].
Proof.
  intros Ne H. destruct (plain_found w s Ne) as (_ & F & _). unfold plain_re. destruct (find_re _ None s 0 0) as [|mt l]; [reflexivity|]. exfalso. apply Forall_cons_iff in F as [(A & B & C & D) _].
  unfold part in D. apply (H (firstn (Z.to_nat (fst mt)) s) (skipn (Z.to_nat (snd mt - fst mt)) (skipn (Z.to_nat (fst mt)) s))).
  rewrite <- D at 1. rewrite firstn_skipn. now rewrite firstn_skipn.
Qed.

Section Ready.
  Variable ss si : list io_pair -> list io_pair.
  Hypothesis HS : sorts start_key ss.
  Hypothesis HI : sorts id_key si.
  Variables (v order : vocab) (file : str) (b : bpe).
  Hypothesis BV : byte_vocab v.
  Hypothesis P : Permutation order v.
  Hypothesis Fb : bpe_from_files v order file = Ok b.
  Hypothesis Mo : model_ok (bpe_model b).
  Variables (u : unicode) (prefix : bool).
  Hypothesis U : prefix = true -> un_letter u 32 = false /\ un_number u 32 = false.

  Lemma gpt2_decodes trim ot x add skip : clean_inputs x -> ot <> OInvalid ->
    let r := gpt2 u b prefix trim in
    exists e ks, tk_encode ss si (rd_tok r) ot x add = Ok (Some e) /\ shown_all (rd_model r) (rd_added r) skip (ids e) = map bl_render ks /\
      concat ks = concat (map (spaced prefix) (encode_texts x)) /\ valid_utf8 (concat ks) /\ rd_decode r (ids e) skip = Ok (gpt_text ks).
  Proof.
    intros C Hot r. destruct (files_literal v order file b BV P Fb) as (L & Ev & _).
    destruct (gpt_decodes ss si HS HI (rd_tok r) b u prefix (rd_model r) (rd_added r) skip none_ok none_ok eq_refl eq_refl U eq_refl Mo L) with (ot := ot) (x := x) (add := add)
      as (e & ks & E & K & T & Vd & D).
    - intros k Hk. rewrite Ev. now apply BV.
    - intros s id Hs _. destruct L as (_ & L & _). cbn. unfold shown, av_id_to_token. cbn [aget av_map_r new_added_vocab bm_i2t vocab_model bpe_base]. rewrite (L s id Hs).
      cbn. now rewrite andb_false_r.
    - split; [constructor|split; exact I].
    - split; [exact I|split; [reflexivity|exact I]].
    - exact C.
    - exact Hot.
    - exists e, ks. split; [exact E|]. split; [exact K|]. split; [|split; [exact Vd|exact D]]. rewrite T. f_equal. apply map_ext. intros s. unfold kept.
      apply (unfound_parts ss si (rd_tok r) s HS HI); constructor.
  Qed.

  Hypothesis B0 : vget BOS v = Some 0.
  Hypothesis B2 : vget EOS v = Some 2.
  Hypothesis M0 : ~ makes b BOS.
  Hypothesis M2 : ~ makes b EOS.

  Lemma roberta_parts is_word : exists r, roberta u is_word b prefix = Ok r /\ tk_raw (rd_tok r) = re_matching [(plain_re BOS, 0); (plain_re EOS, 2)] /\ tk_normalized (rd_tok r) = re_matching [] /\
    forall ot x add, clean_inputs x -> ot <> OInvalid ->
    exists e ks, tk_encode ss si (rd_tok r) ot x add = Ok (Some e) /\ shown_all (rd_model r) (rd_added r) true (ids e) = map bl_render ks /\
      concat ks = concat (map (kept ss si (rd_tok r) prefix) (encode_texts x)) /\ valid_utf8 (concat ks) /\ rd_decode r (ids e) true = Ok (gpt_text ks).
  Proof.
    destruct (files_literal v order file b BV P Fb) as (L & Ev & _).
    destruct (roberta_made u is_word b prefix) as (av & Er & A1 & A2); [now rewrite Ev|now rewrite Ev|].
    set (r := Ready _ _ _ _ _) in Er. exists r. split; [exact Er|]. split; [reflexivity|]. split; [reflexivity|]. intros ot x add C Hot.
    assert (K1 : matching_ok (tk_raw (rd_tok r))).
    { apply re_matching_ok. repeat constructor; cbn [fst]; try discriminate; apply bos_valid. }
    assert (K2 : matching_ok (tk_normalized (rd_tok r))) by (apply re_matching_ok; constructor).
    assert (Sp : forall s, is_special av s = true -> s = BOS \/ s = EOS).
    { intros s H. unfold is_special in H. rewrite A2 in H. cbn [existsb] in H. apply orb_true_iff in H as [H|H]; [apply str_eqb_eq in H; now right|]. rewrite orb_false_r in H.
      apply str_eqb_eq in H. now left. }
    destruct (gpt_decodes ss si HS HI (rd_tok r) b u prefix (bpe_base b) av true K1 K2 eq_refl eq_refl U eq_refl Mo L) with (ot := ot) (x := x) (add := add)
      as (e & ks & E & K & T & Vd & D).
    - intros k Hk. rewrite Ev. now apply BV.
    - intros s id Hs Hm. destruct BV as (_ & Inj & _). rewrite Ev in Hs. unfold shown, av_id_to_token. rewrite A1. cbn [aget].
      destruct (id =? 0) eqn:Ez; [apply Z.eqb_eq in Ez; subst id; exfalso; apply M0; now rewrite <- (Inj BOS s 0 B0 Hs)|].
      destruct (id =? 2) eqn:Ez2; [apply Z.eqb_eq in Ez2; subst id; exfalso; apply M2; now rewrite <- (Inj EOS s 2 B2 Hs)|].
      destruct L as (_ & L & _). rewrite Ev in L. cbn [bm_i2t vocab_model bpe_base]. rewrite (L s id Hs). destruct (is_special av s) eqn:Es; [|reflexivity].
      apply Sp in Es as [->| ->]; contradiction.
    - split; [constructor|split; exact I].
    - assert (H0 : shown (bpe_base b) av true 0 = None) by (unfold shown, av_id_to_token, is_special; rewrite A1, A2; reflexivity).
      assert (H2 : shown (bpe_base b) av true 2 = None) by (unfold shown, av_id_to_token, is_special; rewrite A1, A2; reflexivity).
      split; [intros _; split; [exact H0|exact H2]|split; [reflexivity|exact I]].
    - exact C.
    - exact Hot.
    - exists e, ks. split; [exact E|]. split; [exact K|]. split; [exact T|]. split; [exact Vd|exact D].
  Qed.
  Lemma roberta_decodes is_word ot x add : clean_inputs x -> ot <> OInvalid ->
    Forall (fun s => forall a z, s <> a ++ BOS ++ z /\ s <> a ++ EOS ++ z) (encode_texts x) ->
    exists r e ks, roberta u is_word b prefix = Ok r /\ tk_encode ss si (rd_tok r) ot x add = Ok (Some e) /\ shown_all (rd_model r) (rd_added r) true (ids e) = map bl_render ks /\
      concat ks = concat (map (spaced prefix) (encode_texts x)) /\ valid_utf8 (concat ks) /\ rd_decode r (ids e) true = Ok (gpt_text ks).
  Proof.
    intros C Hot F. destruct (roberta_parts is_word) as (r & Er & R1 & R2 & K). destruct (K ot x add C Hot) as (e & ks & E & Ks & T & Vd & D).
    exists r, e, ks. split; [exact Er|]. split; [exact E|]. split; [exact Ks|]. split; [|split; [exact Vd|exact D]]. rewrite T. f_equal. apply map_ext_in. intros s Hs. unfold kept.
    rewrite Forall_forall in F. specialize (F s Hs).
    apply (unfound_parts ss si (rd_tok r) s HS HI); [rewrite R1|rewrite R2; constructor]. cbn [re_matching mt_find map fst].
    constructor; [apply absent; [discriminate|intros a z; apply F]|]. constructor; [apply absent; [discriminate|intros a z; apply F]|constructor].
  Qed.
End Ready.
