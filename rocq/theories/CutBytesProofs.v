(** Byte-level tokenizers that cut the text first (C72). *)
From Verif Require Import Base BaseProofs Utf8Model Utf8Proofs NormalizedModel NormalizedSpec NormalizedExactProofs NormalizedOpProofs PatternModel EncodingModel EncodingSpec EncodingProofs
  BpeModel BpeSaveModel AddedVocabModel AddedVocabSpec DecoderModel DecoderProofs PreTokenizedModel PreTokenizedSpec PreTokenizedProofs PreTokenizerModel PreTokenizerSpec PreTokenizerProofs
  ProcessorModel PipelineModel PipelineSpec PipelineProofs PlacedProofs TokensSpec ExpandedProofs ReturnSpec ReturnEndProofs ReturnProofs RoundTripSpec RoundTripEndProofs RoundTripProofs ChunkProofs WordsProofs.
Open Scope Z_scope.

Lemma removes_nothing_cutting t : removes_nothing t -> cutting t.
Proof.
  induction t as [t N|ts IH] using pre_tokenizer_ind'; intros H.
  - destruct t; cbn in *; auto; [tauto|now destruct (N ts)].
  - induction IH as [|t ts Ht IH IHts]; [exact I|]. destruct H as [H1 H2]. split; [now apply Ht|now apply IHts].
Qed.

(** ** Nothing is lost *)
Definition holds_text (f : nat -> ns -> res (list split)) : Prop :=
  forall orig i n new, in_place orig n -> ns_norm n <> [] -> f i n = Ok new -> Forall (fun sp => sp_toks sp = None) new /\ concat (map sp_text new) = ns_norm n.
Lemma split_by_holds p b : b <> Removed -> cuts_well p -> holds_text (split_by p b).
Proof.
  intros Hb Cw orig i n new P Ne E. unfold split_by in E. apply bind_Ok_inv in E as (ps & Es & E). injection E as <-. split; [unfold untokenized; now apply Forall_map, Forall_forall|].
  pose proof P as (W & O & C & _). destruct (Cw (ns_norm n) (clean_valid _ C) Ne) as (ms & Em & Pm & Cm).
  rewrite <- (split_concat n p b ms ps W O Hb Em Pm Cm Es). unfold untokenized. rewrite map_map. reflexivity.
Qed.
Lemma filter_text l : concat (map sp_text (filter nonempty l)) = concat (map sp_text l).
Proof.
  induction l as [|sp l IH]; [reflexivity|]. cbn [filter map concat]. unfold nonempty at 1. destruct (ns_norm (sp_ns sp)) as [|b w] eqn:E; cbn [map concat]; rewrite IH; [|reflexivity].
  unfold sp_text at 2. now rewrite E.
Qed.
Lemma split_holds f p p' : holds_text f -> laid p -> pt_split f p = Ok p' -> concat (open_texts (pt_splits p')) = concat (open_texts (pt_splits p)).
Proof.
  intros K [G _]. unfold pt_split. destruct (split_pieces _ 0 (pt_splits p)) as [l'| | | |] eqn:E; cbn [bind]; try discriminate.
  intros [= <-]. cbn [pt_splits]. destruct (split_pieces_news _ _ _ _ E) as (news & -> & F). clear E.
  induction F as [|sp new l news H F IH]; [reflexivity|]. apply Forall_cons_iff in G as [(P & T & N) G]. cbn [concat]. rewrite open_app, concat_app, (IH G).
  change (sp :: l) with ([sp] ++ l). rewrite open_app, concat_app. f_equal. destruct (sp_toks sp) as [t|] eqn:Et; [now subst new|].
  destruct H as (i & new0 & H & ->). destruct (K (pt_orig p) i (sp_ns sp) new0 P N H) as (X1 & X2). fold nonempty. rewrite open_all by (now apply forall_filter). rewrite filter_text, X2.
  unfold open_texts. cbn [filter]. unfold open, has_toks. rewrite Et. cbn [negb map concat]. now rewrite app_nil_r.
Qed.
Lemma removes_nothing_holds u t p p' : removes_nothing t -> laid p -> pre_tokenize u t p = Ok p' -> concat (open_texts (pt_splits p')) = concat (open_texts (pt_splits p)).
Proof.
  revert p p'. induction t as [t N|ts IH] using pre_tokenizer_ind'; intros p p' H L E.
  - destruct t as [| | |b|i|d|q b i| |r g s|x|ts]; cbn [pre_tokenize removes_nothing] in *; try contradiction; [..|now destruct (N ts)].
    + exact (split_holds _ p p' (split_by_holds _ _ H (fn_cuts _)) L E).
    + refine (split_holds _ p p' (split_by_holds _ _ _ (fn_cuts _)) L E). destruct i; discriminate.
    + destruct H as [H1 H2]. exact (split_holds _ p p' (split_by_holds _ _ H1 (finds_cuts _ H2)) L E).
  - revert p p' L E. induction ts as [|t ts IHts]; intros p p' L E.
    + injection E as <-. reflexivity.
    + apply Forall_cons_iff in IH as [Ht Hts]. destruct H as [H1 H2]. cbn [pre_tokenize] in E. apply bind_Ok_inv in E as (p1 & E1 & E).
      destruct (placed_ok u t (cutting_placed t (removes_nothing_cutting t H1)) p p1 L E1) as [L1 _].
      rewrite (IHts Hts H2 p1 p' L1 E). exact (Ht p p1 H1 L E1).
Qed.

(** ** The words given to the model *)
Lemma cut_words u front prefix seen p p' : (prefix = true -> blank_ok u) -> cutting (PTSequence front) ->
  (forall p p1, laid p -> fresh p -> pre_tokenize u (PTSequence front) p = Ok p1 ->
     concat (map (spaced prefix) (open_texts (pt_splits p1))) = concat (map seen (open_texts (pt_splits p)))) ->
  laid p -> fresh p -> pre_tokenize u (PTSequence (front ++ [PTByteLevel prefix])) p = Ok p' ->
  exists gs, Forall (fun g => g <> [] /\ valid_utf8 g) gs /\ concat gs = concat (map seen (open_texts (pt_splits p))) /\
    map sp_text (pt_splits p') = map bl_render gs /\ Forall (fun sp => sp_toks sp = None) (pt_splits p').
Proof.
  intros U C K L F E. rewrite sequence_snoc in E. apply bind_Ok_inv in E as (p1 & E1 & E). destruct (placed_ok u _ (cutting_placed _ C) p p1 L E1) as [L1 _].
  pose proof (cutting_fresh u _ p p1 C L F E1) as F1. destruct (byte_words u prefix p1 p' U L1 F1 E) as (gs & G1 & G2 & G3 & G4). exists gs. rewrite <- (K p p1 L F E1). auto.
Qed.
Lemma map_concat_flat {A} (g : A -> list str) (h : str -> str) l : concat (map h (flat_map g l)) = concat (map (fun x => concat (map h (g x))) l).
Proof. induction l as [|x l IH]; [reflexivity|]. cbn [flat_map map concat]. now rewrite map_app, concat_app, IH. Qed.
Lemma spaced_false l : map (spaced false) l = l.
Proof. induction l as [|s l IH]; [reflexivity|]. cbn [map]. rewrite IH. f_equal. destruct s; reflexivity. Qed.

Lemma whole_words u front p p' : removes_nothing (PTSequence front) -> laid p -> fresh p -> pre_tokenize u (PTSequence (front ++ [PTByteLevel false])) p = Ok p' ->
  exists gs, Forall (fun g => g <> [] /\ valid_utf8 g) gs /\ concat gs = concat (map (fun w => w) (open_texts (pt_splits p))) /\
    map sp_text (pt_splits p') = map bl_render gs /\ Forall (fun sp => sp_toks sp = None) (pt_splits p').
Proof.
  intros K. apply cut_words; [discriminate|exact (removes_nothing_cutting _ K)|]. clear p p'. intros p p1 L F E. rewrite spaced_false, map_id. exact (removes_nothing_holds u _ p p1 K L E).
Qed.
Lemma unfound_whole ss si t s : sorts start_key ss -> sorts id_key si -> s <> [] ->
  Forall (fun l => l = []) (mt_find (tk_raw t) s) -> Forall (fun l => l = []) (mt_find (tk_normalized t) s) -> plain_parts ss si t s = [s].
Proof.
  intros HS HI Ne F1 F2. destruct s as [|b w]; [congruence|]. set (x := b :: w) in *.
  change (plain_parts ss si t x) with (flat_map (fun w => not_added (cut_added ss si (tk_normalized t) w)) (not_added (cut_added ss si (tk_raw t) x))).
  rewrite (unfound ss si _ x HS HI Ne F1). cbn [not_added flat_map fst snd app]. rewrite (unfound ss si _ x HS HI Ne F2). reflexivity.
Qed.

Section Sorted.
  Variable ss si : list io_pair -> list io_pair.
  Hypothesis HS : sorts start_key ss.
  Hypothesis HI : sorts id_key si.

  Lemma cut_round_trip u front prefix cut t m av skip mk ot x add : cut_byte_level (shown m av skip) u front prefix t ->
    cutting (PTSequence front) -> documented u (PTSequence front) = Some cut ->
    ending_returns t (dual x) add -> ending_hides (shown m av skip) t (dual x) add -> clean_inputs x -> ot <> OInvalid ->
    exists e, tk_encode ss si t ot x add = Ok (Some e) /\ decode_ids m av (Some (decode mk DByteLevel)) (ids e) skip =
      Ok (concat (map (fun s => concat (map (fun w => concat (map (spaced prefix) (map encode (cut (runes w))))) (plain_parts ss si t s))) (encode_texts x))).
  Proof.
    intros (M1 & M2 & No & Pre & U & f & Fm & Mo & Sp) C D.
    refine (any_round_trip ss si HS HI t f _ (fun w => concat (map (spaced prefix) (map encode (cut (runes w))))) m av skip M1 M2 No Pre (cut_then_bytes_ok u prefix front U C) (cut_then_returns u front _ C (byte_level_returns u prefix U)) _ Fm Mo Sp mk ot x add).
    intros p p'. apply cut_words; [exact U|exact C|]. clear p p'. intros p p1 L F E. destruct (documented_some u _ cut p D (laid_some p L)) as (p2 & E2 & _ & R). assert (p2 = p1) by congruence. subst p2.
    rewrite (proj1 (recut_open cut p p1 R)). apply map_concat_flat.
  Qed.
  Lemma whole_round_trip u front t m av skip mk ot x add : cut_byte_level (shown m av skip) u front false t ->
    removes_nothing (PTSequence front) ->
    ending_returns t (dual x) add -> ending_hides (shown m av skip) t (dual x) add -> clean_inputs x -> ot <> OInvalid ->
    exists e, tk_encode ss si t ot x add = Ok (Some e) /\ decode_ids m av (Some (decode mk DByteLevel)) (ids e) skip =
      Ok (concat (map (fun s => concat (plain_parts ss si t s)) (encode_texts x))).
  Proof.
    intros (M1 & M2 & No & Pre & U & f & Fm & Mo & Sp) K R H Cx Hot. pose proof (removes_nothing_cutting _ K) as C.
    destruct (any_round_trip ss si HS HI t f _ (fun w => w) m av skip M1 M2 No Pre (cut_then_bytes_ok u false front U C) (cut_then_returns u front _ C (byte_level_returns u false U))) with (mk := mk) (ot := ot) (x := x) (add := add) as (e & E & Dd); try assumption.
    - exact (fun p p' => whole_words u front p p' K).
    - exists e. split; [exact E|]. rewrite Dd. f_equal. unfold seen_text. f_equal. apply map_ext. intros s. now rewrite map_id.
  Qed.
End Sorted.

(** ** Pieces with a space in front *)
Definition bare (g : list N) : Prop := match g with c :: _ => c <> 32%N | [] => False end.
Lemma spaced_len s : (length s <= length (spaced true s))%nat.
Proof. destruct s as [|b s]; [reflexivity|]. cbn [spaced]. destruct (true && negb (b =? 32)%N); cbn [length]; lia. Qed.
Lemma encode_cons_nonempty c g : encode (c :: g) <> [].
Proof. change (encode (c :: g)) with (encode_rune c ++ encode g). intros E. apply app_eq_nil in E as [E _]. now apply encode_rune_nonempty in E. Qed.
Lemma bare_len g : Forall scalar g -> bare g -> (length (encode g) < length (spaced true (encode g)))%nat.
Proof.
  destruct g as [|c g]; [intros _ []|]. intros Sc H. cbn [bare] in H. apply Forall_cons_iff in Sc as [Hc _]. pose proof (starts_space c g Hc) as S. apply N.eqb_neq in H. rewrite H in S.
  destruct (encode (c :: g)) as [|b l] eqn:E; [now apply encode_cons_nonempty in E|]. cbn [starts_with] in S. cbn [spaced]. unfold SP in S. rewrite N.eqb_sym in S. destruct (b =? 32)%N; [discriminate S|]. cbn. lia.
Qed.
Lemma spaced_app a b : a <> [] -> spaced true (a ++ b) = spaced true a ++ b.
Proof. destruct a as [|x a]; [congruence|]. intros _. cbn [app spaced]. now destruct (true && negb (x =? 32)%N). Qed.
Lemma pieces_longer g gs : g <> [] -> Forall (Forall scalar) gs -> Exists bare gs ->
  (length (spaced true (encode (concat (g :: gs)))) < length (concat (map (spaced true) (map encode (g :: gs)))))%nat.
Proof.
  intros Ng Sc Ex. cbn [concat map]. rewrite encode_app, spaced_app by (destruct g as [|c g]; [congruence|apply encode_cons_nonempty]). rewrite !app_length. apply Nat.add_lt_mono_l. clear Ng g.
  assert (Le : forall gs, (length (encode (concat gs)) <= length (concat (map (spaced true) (map encode gs))))%nat).
  { clear. induction gs as [|g gs IH]; [reflexivity|]. cbn [concat map]. rewrite encode_app, !app_length. pose proof (spaced_len (encode g)). lia. }
  induction Ex as [g gs B|g gs Ex IH]; apply Forall_cons_iff in Sc as [Sg Sc]; cbn [concat map]; rewrite encode_app, !app_length.
  - pose proof (bare_len g Sg B). specialize (Le gs). lia.
  - specialize (IH Sc). pose proof (spaced_len (encode g)). lia.
Qed.
(** A character that joins no other starts a piece. *)
Lemma segments_start {A} (join : A -> A -> bool) d : (forall x, join x d = false) -> forall c l, exists g gs, segments join (c :: l) = (c :: g) :: gs /\
  (In d l -> Exists (fun h => match h with x :: _ => x = d | [] => False end) gs).
Proof.
  intros J c l. revert c. induction l as [|x l IH]; intros c; [exists [], []; split; [reflexivity|intros []]|]. destruct (IH x) as (g & gs & E & H).
  change (segments join (c :: x :: l)) with (match segments join (x :: l) with (y :: g) :: gs => if join c y then (c :: y :: g) :: gs else [c] :: (y :: g) :: gs | gs => [c] :: gs end). rewrite E.
  destruct (join c x) eqn:Ej.
  - exists (x :: g), gs. split; [reflexivity|]. intros [->|Hd]; [now rewrite J in Ej|auto].
  - exists [], ((x :: g) :: gs). split; [reflexivity|]. intros [->|Hd]; [now left|right; auto].
Qed.

Section Digits.
  Variable ss si : list io_pair -> list io_pair.
  Hypothesis HS : sorts start_key ss.
  Hypothesis HI : sorts id_key si.
  Lemma digits_spaced u t m av skip mk ot c rs add : cut_byte_level (shown m av skip) u [PTDigits true] true t ->
    ending_returns t false add -> ending_hides (shown m av skip) t false add -> clean (encode (c :: rs)) -> Forall scalar (c :: rs) -> ot <> OInvalid ->
    Forall (fun l => l = []) (mt_find (tk_raw t) (encode (c :: rs))) -> Forall (fun l => l = []) (mt_find (tk_normalized t) (encode (c :: rs))) ->
    Exists (fun d => un_number u d = true) rs ->
    exists e r, tk_encode ss si t ot (ISingle (Raw (encode (c :: rs)))) add = Ok (Some e) /\
      decode_ids m av (Some (decode mk DByteLevel)) (ids e) skip = Ok r /\ r <> encode (c :: rs) /\ r <> spaced true (encode (c :: rs)).
  Proof.
    intros B R H C Sc Hot F1 F2 Ex. pose proof B as (_ & _ & _ & _ & U & _). destruct (U eq_refl) as [_ U2].
    destruct (cut_round_trip ss si HS HI u [PTDigits true] true _ t m av skip mk ot (ISingle (Raw (encode (c :: rs)))) add B (conj I I) eq_refl R H C Hot) as (e & E & D).
    eexists e, _. split; [exact E|]. split; [exact D|]. clear E D e. cbn [encode_texts input_texts map concat]. rewrite app_nil_r.
    rewrite (unfound_whole ss si t _ HS HI (encode_cons_nonempty c rs) F1 F2).
    cbn [map concat]. rewrite app_nil_r, runes_encode by assumption.
    assert (Fm : forall l : list (list N), flat_map (fun r : list N => [r]) l = l) by (intros l; induction l as [|g l IH]; [reflexivity|]; cbn [flat_map app]; now rewrite IH). rewrite Fm. cbn [cut_up].
    apply Exists_exists in Ex as (d & Hd & Nd).
    assert (J : forall x, stay Isolated (un_number u) x d = false) by (intros x; unfold stay; rewrite Nd; cbn; now rewrite andb_false_r).
    destruct (segments_start (stay Isolated (un_number u)) d J c rs) as (g & gs & Es & Hs). rewrite Es.
    pose proof (segments_concat (stay Isolated (un_number u)) (c :: rs)) as Cc. rewrite Es in Cc.
    assert (L : (length (spaced true (encode (c :: rs))) < length (concat (map (spaced true) (map encode ((c :: g) :: gs)))))%nat).
    { rewrite <- Cc. apply pieces_longer; [discriminate| |].
      - rewrite <- Cc in Sc. cbn [concat] in Sc. apply Forall_app in Sc as [_ Sc]. clear -Sc. induction gs as [|h gs IH]; [constructor|]. cbn [concat] in Sc. apply Forall_app in Sc as [S1 S2]. constructor; auto.
      - eapply Exists_impl; [|exact (Hs Hd)]. intros h Hh. destruct h as [|x h]; [destruct Hh|]. subst x. intros ->. congruence. }
    pose proof (spaced_len (encode (c :: rs))) as L2. split; intros Eq; rewrite Eq in L; lia.
  Qed.
End Digits.
