(** Round trips through the metaspace pre-tokenizer and decoder (C75). *)
From Verif Require Import Base BaseProofs Utf8Model Utf8Proofs PatternModel NormalizedModel NormalizedSpec NormalizedProofs NormalizedInvProofs NormalizedExactProofs NormalizedOpProofs ChunkProofs EncodingModel EncodingSpec EncodingProofs
  BpeModel BpeSaveModel AddedVocabModel AddedVocabSpec DecoderModel DecoderProofs PreTokenizedModel PreTokenizedSpec PreTokenizedProofs PreTokenizerModel PreTokenizerSpec PreTokenizerProofs
  ProcessorModel ExpandedProofs MetaspaceSpec MetaspaceProofs PipelineModel PipelineSpec PipelineProofs PlacedProofs TokensSpec TokensProofs ReturnSpec ReturnEndProofs ReturnModelProofs ReturnProofs RoundTripSpec RoundTripEndProofs RoundTripProofs
  WordsSpec WordsProofs MetaTripSpec.
Open Scope Z_scope.

(** ** Marks and spaces *)
Definition unmark (r c : N) : N := if (c =? r)%N then 32%N else c.
Definition to_mark (r c : N) : N := if (c =? 32)%N then r else c.
Lemma blank_mark r c : to_mark r (blank r c) = (if re_space c then r else c).
Proof.
  unfold to_mark, blank. change (white c) with (re_space c). destruct (re_space c) eqn:E; [reflexivity|]. cbn [orb]. destruct (N.eqb_spec c r) as [->|H]; [reflexivity|].
  destruct (N.eqb_spec c 32) as [->|_]; [discriminate E|reflexivity].
Qed.
Lemma blank_space r c : (blank r c =? 32)%N = ((if re_space c then r else c) =? r)%N.
Proof.
  unfold blank. change (white c) with (re_space c). destruct (re_space c) eqn:E; cbn [orb]; [now rewrite !N.eqb_refl|]. destruct (N.eqb_spec c r) as [->|H]; [now rewrite ?N.eqb_refl|].
  destruct (N.eqb_spec c 32) as [->|_]; [discriminate E|reflexivity].
Qed.
Lemma led_mark scheme r first rs : map (to_mark r) (led scheme r first rs) = with_mark (leads scheme first) r rs.
Proof.
  unfold led, with_mark, marked. destruct rs as [|c rs]; [reflexivity|]. cbn [map]. rewrite blank_space. rewrite <- (map_ext _ _ (blank_mark r) rs), <- (map_map (blank r) (to_mark r)), <- (blank_mark r c).
  destruct (_ && _); reflexivity.
Qed.
Lemma led_unmark scheme r first rs : map (unmark r) (with_mark (leads scheme first) r rs) = led scheme r first rs.
Proof.
  assert (B : forall c, unmark r (if re_space c then r else c) = blank r c).
  { intros c. unfold unmark, blank. change (white c) with (re_space c). destruct (re_space c); cbn [orb]; [now rewrite N.eqb_refl|reflexivity]. }
  unfold led, with_mark, marked. destruct rs as [|c rs]; [reflexivity|]. cbn [map]. rewrite blank_space, <- (map_ext _ _ B rs), <- (map_map (fun c => if re_space c then r else c) (unmark r)), <- (B c).
  destruct (_ && _); cbn [map]; [|reflexivity]. unfold unmark at 1. now rewrite N.eqb_refl.
Qed.
Lemma shown_unmark r l : flat_map (MetaspaceProofs.shown r false) l = map (unmark r) l.
Proof. induction l as [|c l IH]; [reflexivity|]. cbn [flat_map map]. rewrite IH. unfold MetaspaceProofs.shown, unmark. now destruct (c =? r)%N. Qed.

(** ** Decoding tokens that spell the words *)
Lemma decode_words r prepend ws vss : scalar r -> Forall (fun w => Forall (fun c => (r =? c)%N = false) (tl w)) ws ->
  Forall2 (fun w vs => concat vs = w /\ vs <> [] /\ Forall (fun v => v <> [] /\ Forall scalar v) vs) ws vss ->
  concat (ms_chain (encode_rune r) prepend (map encode (concat vss))) =
  encode (match concat ws with c :: l => map (unmark r) (if prepend && (c =? r)%N then l else c :: l) | [] => [] end).
Proof.
  intros Sr Ft F. assert (Sv : Forall (Forall scalar) (concat vss) /\ concat (concat vss) = concat ws).
  { clear Ft. induction F as [|w vs ws vss (H1 & H2 & H3) F [I1 I2]]; [split; [constructor|reflexivity]|]. cbn [concat]. rewrite concat_app, H1, I2. split; [|reflexivity]. apply Forall_app. split; [|exact I1].
    eapply Forall_impl; [|exact H3]. now intros v []. }
  destruct Sv as [Sv Cv]. destruct F as [|w vs ws vss (H1 & H2 & H3) F]; [reflexivity|]. destruct vs as [|v vs]; [congruence|]. apply Forall_cons_iff in H3 as [[Nv Vv] H3]. destruct v as [|c v]; [congruence|].
  apply Forall_cons_iff in Ft as [Tw _]. cbn [concat app map ms_chain] in *. apply Forall_cons_iff in Sv as [_ Sv]. rewrite ms_token_runes by assumption. rewrite ms_tokens_runes by assumption. rewrite <- encode_app. f_equal.
  cbn [flat_map]. assert (Tv : Forall (fun c => (r =? c)%N = false) v) by (subst w; cbn [tl app] in Tw; now apply Forall_app in Tw as [Tv _]).
  rewrite (shown_none r prepend v Tv), shown_unmark. rewrite <- Cv. cbn [map hd]. unfold MetaspaceProofs.shown.
  assert (Uv : map (unmark r) v = v) by (rewrite <- (map_id v) at 2; apply map_ext_in; intros d Hd; rewrite Forall_forall in Tv; specialize (Tv d Hd); unfold unmark; now rewrite N.eqb_sym, Tv).
  destruct (c =? r)%N eqn:Hc; [destruct prepend|rewrite andb_false_r]; cbn [andb app map]; rewrite map_app, Uv; try reflexivity; unfold unmark at 2; rewrite Hc; reflexivity.
Qed.

(** ** The pre-tokenizer *)
Lemma meta_at r scheme rs n i : scalar r -> r <> 0%N -> Forall scalar rs -> Forall (fun c => c <> 0%N) rs -> rs <> [] -> wf n -> expanded (same rs) n ->
  exists ps, meta_split (encode_rune r) (find_chars (N.eqb r)) scheme i n = Ok (untokenized ps) /\
    map ns_norm ps = map encode (cut_up MergedWithNext (N.eqb r) (with_mark (leads scheme (i =? 0)%nat) r rs)).
Proof.
  intros Sr R0 Sc NZ Ne W X. unfold meta_split.
  assert (Er : encode [r] = encode_rune r) by (rewrite encode_cons; apply app_nil_r).
  destruct (replace_class re_space [r] rs n space_ascii) as (n1 & E1 & X1 & W1); [constructor; [exact Sr|constructor]|assumption..|].
  rewrite Er in E1. rewrite E1. cbn [bind]. assert (En1 : ns_norm n1 = encode (marked r rs)) by (destruct X1 as (_ & X1 & _); now rewrite X1, marked_text).
  assert (Sm : Forall scalar (marked r rs)) by (now apply marked_scalar).
  assert (O1 : ordered (ns_al n1)) by (eapply expanded_ordered, X1).
  assert (N2 : exists n2, (if match scheme with Always => negb (starts_with (encode_rune r) (ns_norm n1)) | First => (i =? 0)%nat && negb (starts_with (encode_rune r) (ns_norm n1)) | Never => false end
                           then ns_prepend (encode_rune r) n1 else Ok n1) = Ok n2 /\
    ns_norm n2 = encode (with_mark (leads scheme (i =? 0)%nat) r rs) /\ wf n2 /\ ordered (ns_al n2)).
  { unfold with_mark. destruct rs as [|c rest]; [congruence|]. cbn [marked map] in *. set (c' := if re_space c then r else c) in *. fold (marked r rest) in *.
    apply Forall_cons_iff in Sm as [Sc' Sm']. rewrite En1, starts_rune by assumption.
    replace (match scheme with Always => negb (c' =? r)%N | First => (i =? 0)%nat && negb (c' =? r)%N | Never => false end) with (leads scheme (i =? 0)%nat && negb (c' =? r)%N) by (now destruct scheme).
    destruct (leads scheme (i =? 0)%nat && negb (c' =? r)%N) eqn:Ep.
    - destruct (prepend_ok (encode_rune r) (c' :: marked r rest) n1 W1 O1 En1) as (n2 & E2 & T2 & W2 & O2).
      { constructor; assumption. }
      { cbn [hd]. unfold c'. destruct (re_space c); [exact R0|]. now apply Forall_cons_iff in NZ as [NZ _]. }
      exists n2. split; [exact E2|]. split; [|auto]. rewrite T2. cbn [length Nat.eqb]. rewrite En1, (encode_cons r). f_equal.
      apply runes_valid_id, valid_encode_rune.
    - exists n1. auto. }
  destruct N2 as (n2 & E2 & En2 & W2 & O2). rewrite E2. cbn [bind]. unfold split_by.
  set (T := with_mark (leads scheme (i =? 0)%nat) r rs) in *.
  assert (NT : T <> []).
  { unfold T, with_mark. destruct rs as [|c rest]; [congruence|]. unfold marked. cbn [map]. destruct (leads scheme _ && _); intros Y; discriminate Y. }
  assert (ST : Forall scalar T).
  { unfold T, with_mark. destruct (marked r rs) eqn:Em; [constructor|]. destruct (leads scheme _ && _); [constructor; [exact Sr|]|]; exact Sm. }
  destruct (split_chunks n2 (PRegexp (find_chars (N.eqb r))) MergedWithNext (chunks (N.eqb r) T) W2 O2) as (ps & Es & Tp & _).
  { rewrite chunks_chars. exact En2. }
  { apply chunks_nonempty. }
  { rewrite En2. now apply find_chars_chunks. }
  rewrite Es. cbn [bind]. exists ps. split; [reflexivity|]. rewrite Tp, chunk_cut_up. reflexivity.
Qed.

(** The pieces of all parts. *)
Definition meta_part (r : N) (scheme : prepend_scheme) (first : bool) (x : option Z * str) : list (list N) :=
  match fst x with Some _ => [] | None => cut_up MergedWithNext (N.eqb r) (with_mark (leads scheme first) r (runes (snd x))) end.
Fixpoint meta_parts (r : N) (scheme : prepend_scheme) (i : nat) (l : list (option Z * str)) : list (list N) :=
  match l with
  | [] => []
  | x :: l' => meta_part r scheme (i =? 0)%nat x ++ meta_parts r scheme (S i) l'
  end.
Lemma meta_parts_later r scheme l : forall i, (0 < i)%nat -> meta_parts r scheme i l = flat_map (meta_part r scheme false) l.
Proof. induction l as [|x l IH]; intros i Hi; [reflexivity|]. cbn [meta_parts flat_map]. rewrite IH by lia. now destruct i; [lia|]. Qed.
Lemma meta_open r scheme orig l sps : scalar r -> r <> 0%N -> Forall2 labelled l sps ->
  Forall (fun sp => in_place orig (sp_ns sp) /\ sp_text sp <> [] /\ untouched (sp_ns sp)) sps -> forall i out,
  split_pieces (meta_split (encode_rune r) (find_chars (N.eqb r)) scheme) i sps = Ok out ->
  open_texts out = map encode (meta_parts r scheme i l) /\ incl (filter has_toks out) (filter has_toks sps).
Proof.
  intros Sr R0 F. induction F as [|x sp l sps [Tx Kx] F IH]; intros G i out E; cbn [split_pieces] in E; [injection E as <-; split; [reflexivity|easy]|].
  apply Forall_cons_iff in G as [(P & Ne & U) G]. cbn [meta_parts]. unfold meta_part at 1. rewrite Kx in E. destruct x as [[id|] w]; cbn [fst snd] in *.
  - apply bind_Ok_inv in E as (rest & E & E'). injection E' as <-. destruct (IH G _ _ E) as [I1 I2]. change (sp :: rest) with ([sp] ++ rest). rewrite open_app, I1.
    assert (H : has_toks sp = true) by (unfold has_toks; now rewrite Kx). split; [unfold open_texts; cbn [filter]; unfold open; now rewrite H|].
    cbn [app filter]. rewrite H. intros y [<-|Hy]; [now left|right; now apply I2].
  - apply bind_Ok_inv in E as (new & E1 & E). apply bind_Ok_inv in E as (rest & E & E'). injection E' as <-. destruct (IH G _ _ E) as [I1 I2]. pose proof P as (W & O & (cs & Sc & NZ & En) & _).
    destruct (untouched_expanded _ U) as (rs & Sr' & X). assert (En' : ns_norm (sp_ns sp) = encode rs) by (destruct X as (_ & X & _); now rewrite exp_text_same in X).
    assert (cs = rs) by (apply encode_inj; congruence). subst cs. assert (Nr : rs <> []) by (intros ->; apply Ne; unfold sp_text; rewrite En; reflexivity).
    destruct (meta_at r scheme rs (sp_ns sp) i Sr R0 Sc NZ Nr W X) as (ps & Em & Tp). rewrite Em in E1. injection E1 as <-. fold nonempty. rewrite open_app, filter_app, I1, map_app.
    assert (Rw : runes w = rs) by (unfold sp_text in Tx; rewrite <- Tx, En; now apply runes_encode). rewrite Rw.
    assert (A : filter nonempty (untokenized ps) = untokenized ps).
    { apply filter_true. apply Forall_map. apply Forall_forall. intros q Hq. unfold nonempty. cbn [sp_ns]. apply (in_map ns_norm) in Hq. rewrite Tp in Hq. apply in_map_iff in Hq as (g & Eg & Hg).
      pose proof (segments_nonempty (stay MergedWithNext (N.eqb r)) (with_mark (leads scheme (i =? 0)%nat) r rs)) as Ng. cbn [cut_up] in Hg. rewrite Forall_forall in Ng. specialize (Ng g Hg). rewrite <- Eg.
      destruct g as [|c g]; [congruence|]. rewrite encode_cons. destruct (encode_rune c) eqn:Ec; [now apply encode_rune_nonempty in Ec|reflexivity]. }
    rewrite A. assert (B : Forall (fun sp => sp_toks sp = None) (untokenized ps)) by (apply Forall_map; now apply Forall_forall). rewrite (open_all _ B). split.
    + f_equal. rewrite <- Tp. unfold untokenized. rewrite map_map. reflexivity.
    + cbn [filter]. unfold has_toks at 3. rewrite Kx. intros y Hy. apply in_app_iff in Hy as [Hy|Hy]; [|now apply I2]. apply filter_In in Hy as [Hy Hh]. rewrite Forall_forall in B. unfold has_toks in Hh. now rewrite (B y Hy) in Hh.
Qed.

Section Sorted.
  Variable ss si : list io_pair -> list io_pair.
  Hypothesis HS : sorts start_key ss.
  Hypothesis HI : sorts id_key si.

  Lemma extract_labelled t s p : matching_ok (tk_raw t) -> matching_ok (tk_normalized t) -> tk_normalizer t = None -> clean s ->
    extract_and_normalize ss si t s = Ok p -> Forall2 labelled (all_parts ss si t s) (pt_splits p).
  Proof.
    intros M1 M2 N C E. pose proof (new_in_place s C) as P. unfold extract_and_normalize in E. destruct (raw_apart ss si HS HI (tk_raw t) s M1 C) as (p1 & E1 & O1 & [G _] & U1). rewrite E1 in E. cbn [bind] in E.
    destruct s as [|c s'].
    - unfold pt_split, pt_new, pt_from_ns in E1. cbn [pt_splits pt_orig split_pieces sp_toks sp_ns] in E1. destruct (indices_empty ss si _ (tk_raw t) (new_ns []) P eq_refl) as (sps & Ei & F).
      rewrite Ei in E1. cbn [bind] in E1. fold nonempty in E1. fold nonempty in F. rewrite F in E1. injection E1 as <-. cbn in E. injection E as <-. constructor.
    - set (s := c :: s') in *. assert (Ne : s <> []) by discriminate. destruct (indices_labels ss si HS HI s (tk_raw t) (new_ns s) M1 P Ne) as (sps & Ei & N1 & F1).
      unfold pt_split, pt_new, pt_from_ns in E1. cbn [pt_splits pt_orig split_pieces sp_toks sp_ns] in E1. rewrite Ei in E1. cbn [bind] in E1. fold nonempty in E1.
      rewrite (PipelineProofs.filter_true _ _ N1), app_nil_r in E1. injection E1 as <-. cbn [pt_splits pt_orig] in *. change (ns_norm (new_ns s)) with s in F1.
      unfold pt_split in E. cbn [pt_splits pt_orig] in E. destruct (split_pieces _ 0 sps) as [l'| | | |] eqn:El; cbn [bind] in E; try discriminate. injection E as <-. cbn [pt_splits].
      destruct (split_pieces_news _ _ _ _ El) as (news & -> & F2). clear El Ei.
      change (all_parts ss si t s) with (flat_map (fun x => match fst x with Some _ => [x] | None => cut_added ss si (tk_normalized t) (snd x) end) (cut_added ss si (tk_raw t) s)).
      revert G N1 F1. generalize (cut_added ss si (tk_raw t) s) as L. clear -F2 M2 N HS HI.
      induction F2 as [|sp new sps news H F2 IH]; intros L G N1 F1; inversion F1 as [|x ? L' ? [Tx Kx] F1']; subst; [constructor|].
      apply Forall_cons_iff in G as [[P T] G']. apply Forall_cons_iff in N1 as [Ns N1']. cbn [flat_map concat]. apply Forall2_app; [|exact (IH L' G' N1' F1')]. clear IH F1 F1' F2 G' N1'.
      rewrite Kx in H. destruct x as [[id|] w]; cbn [fst snd] in *.
      + subst new. constructor; [split; assumption|constructor].
      + destruct H as (i & new0 & H & ->). unfold apply_normalizer in H. rewrite N in H. cbn [bind] in H.
        assert (Nx : ns_norm (sp_ns sp) <> []) by (unfold nonempty in Ns; destruct (ns_norm (sp_ns sp)); [discriminate|congruence]).
        destruct (indices_labels ss si HS HI _ (tk_normalized t) (sp_ns sp) M2 P Nx) as (sps' & E' & N' & F'). assert (sps' = new0) by congruence. subst. fold nonempty.
        rewrite (PipelineProofs.filter_true _ _ N'). exact F'.
  Qed.

  Lemma Forall2_in {A B} (R : A -> B -> Prop) l l' y : Forall2 R l l' -> In y l' -> exists x, In x l /\ R x y.
  Proof. induction 1 as [|a b l l' H F IH]; intros Hy; [destruct Hy|]. destruct Hy as [<-|Hy]; [exists a; split; [now left|exact H]|]. destruct (IH Hy) as (x & Hx & HR). exists x. split; [now right|exact HR]. Qed.
  Lemma part_hidden t s x : In x (all_parts ss si t s) -> fst x <> None -> exists m y, (m = tk_raw t \/ m = tk_normalized t) /\ In x (cut_added ss si m y).
  Proof.
    intros Hx Nx. unfold all_parts in Hx. destruct s as [|c s]; [destruct Hx|]. apply in_flat_map in Hx as (y & Hy & Hx). destruct (fst y) as [id|] eqn:Ey.
    - destruct Hx as [<-|[]]. exists (tk_raw t). eauto.
    - exists (tk_normalized t). eauto.
  Qed.

  Section Tok.
    Variables (t : tokenizer) (f : str -> res (option (list token))) (u : unicode) (r : N) (scheme : prepend_scheme) (m : base_model) (av : added_vocab) (skip : bool).
    Hypothesis Sr : scalar r.
    Hypothesis R0 : r <> 0%N.
    Hypothesis M1 : matching_ok (tk_raw t).
    Hypothesis M2 : matching_ok (tk_normalized t).
    Hypothesis No : tk_normalizer t = None.
    Hypothesis Pre : tk_pre t = Some (pre_tokenize u (PTMetaspace (encode_rune r) (find_chars (N.eqb r)) scheme)).
    Hypothesis Fm : tk_model t = Some f.
    Hypothesis Mo : model_ok f.
    Hypothesis Ah : added_hidden ss si t (RoundTripSpec.shown m av skip).

    Local Notation name := (RoundTripSpec.shown m av skip).
    Local Notation shows := (shown_all m av skip).
    Definition of_word (w : list N) (ts : list token) : Prop :=
      ts <> [] /\ concat (map t_value ts) = encode w /\ Forall (fun t => t_value t <> [] /\ valid_utf8 (t_value t)) ts.

    Lemma meta_placed : placed (PTMetaspace (encode_rune r) (find_chars (N.eqb r)) scheme).
    Proof.
      split; [|split; [apply encode_rune_nonempty|apply chars_find_well]]. exists [r]. split; [constructor; [exact Sr|constructor]|]. split; [constructor; [exact R0|constructor]|].
      rewrite encode_cons. symmetry. apply app_nil_r.
    Qed.
    Lemma meta_components : components_ok t.
    Proof.
      split; [exact M1|]. split; [exact M2|]. rewrite No, Pre, Fm. split; [exact I|]. split; [|exact Mo]. left. exact (placed_ok u _ meta_placed).
    Qed.

    Lemma raw_meta ty ot s : clean s -> ot <> OInvalid -> Forall (spells_whole f name) (map encode (meta_parts r scheme 0 (all_parts ss si t s))) ->
      exists e tss, encode_sequence ss si t ty ot (Raw s) = Ok e /\ Forall2 of_word (meta_parts r scheme 0 (all_parts ss si t s)) tss /\ shows (ids e) = map t_value (concat tss).
    Proof.
      intros C Hot Wh. assert (N : with_default normalizer_ok (tk_normalizer t)) by (now rewrite No).
      assert (R : with_default normalizer_returns (tk_normalizer t)) by (now rewrite No).
      destruct (extract_returns ss si HS HI t s M1 M2 N R C) as (p & E1 & T1). destruct (extract_laid ss si HS HI t s p M1 M2 N C E1) as (L1 & O1 & U1). specialize (U1 No).
      destruct (metaspace_returns u _ _ scheme meta_placed p L1 U1 T1) as (p' & E2 & T2). pose proof (extract_labelled t s p M1 M2 No C E1) as Lb.
      assert (X : open_texts (pt_splits p') = map encode (meta_parts r scheme 0 (all_parts ss si t s)) /\ incl (filter has_toks (pt_splits p')) (filter has_toks (pt_splits p))).
      { pose proof E2 as E2'. cbn [pre_tokenize] in E2'. unfold pt_split in E2'. apply bind_Ok_inv in E2' as (out & E2' & E'). injection E' as <-. cbn [pt_splits].
        apply (meta_open r scheme (pt_orig p) (all_parts ss si t s) (pt_splits p) Sr R0 Lb); [|exact E2']. destruct L1 as [G _]. clear -G U1. rewrite Forall_forall in *. intros sp Hsp. destruct (G sp Hsp) as (P & _ & Ne).
        split; [exact P|]. split; [exact Ne|]. exact (U1 sp Hsp). }
      destruct X as [X1 X2]. rewrite <- X1 in Wh.
      assert (E : exists e0, encode_text ss si t ty (-1) ot s = Ok e0).
      { apply (text_returns_on ss si HS HI (spells_whole f name) t ty (-1) ot s p p' f meta_components C Hot E1); [now rewrite Pre|exact T2| |exact Fm|].
        - apply Forall_forall. intros sp Hsp Hn. rewrite Forall_forall in Wh. apply Wh. unfold open_texts. apply in_map, filter_In. split; [exact Hsp|]. unfold open, has_toks. now rewrite Hn.
        - intros w (toks & Y1 & Y2 & _). eauto. }
      destruct E as (e0 & E0). destruct (raw_ok ss si t ty ot s e0 E0) as (e & E). exists e.
      destruct (raw_tokens ss si _ _ _ _ _ E) as (q & q' & toks & Q1 & Q2 & F & (S1 & _) & _). assert (q = p) by congruence. subst q. rewrite Pre in Q2. assert (q' = p') by congruence. subst q'.
      assert (A' : Forall (fun sp => forall ts, sp_toks sp = Some ts -> exists id, map t_id ts = [id] /\ name id = None) (pt_splits p')).
      { apply Forall_forall. intros sp Hsp ts Ets. assert (Hp : In sp (filter has_toks (pt_splits p))) by (apply X2, filter_In; split; [exact Hsp|unfold has_toks; now rewrite Ets]).
        apply filter_In in Hp as [Hp _]. destruct (Forall2_in _ _ _ _ Lb Hp) as (x & Hx & _ & Kx). rewrite Ets in Kx. destruct x as [[id|] w]; cbn [fst snd] in Kx; [|discriminate Kx]. injection Kx as ->.
        exists id. split; [reflexivity|]. destruct (part_hidden t s _ Hx ltac:(discriminate)) as (set & y & Hs & Hw). exact (Ah set y id w Hs Hw). }
      rewrite S1. clear -Wh A' F X1 Fm E. revert X1. generalize (meta_parts r scheme 0 (all_parts ss si t s)) as ws.
      intros ws X1. assert (K : exists tss, Forall2 of_word ws tss /\ shows (map t_id (concat toks)) = map t_value (concat tss)).
      { clear E. revert ws X1. induction F as [|sp ts sps toks [Nt X] F IH]; intros ws X1.
        - destruct ws; [|discriminate]. exists []. split; [constructor|reflexivity].
        - apply Forall_cons_iff in A' as [A1 A2]. change (sp :: sps) with ([sp] ++ sps) in X1, Wh. rewrite open_app in X1, Wh. apply Forall_app in Wh as [Wh1 Wh2]. cbn [concat]. rewrite map_app, shown_app. destruct (sp_toks sp) as [tk|] eqn:Et.
          + subst tk. destruct (A1 ts eq_refl) as (id & Hi & Hh). rewrite Hi. assert (Y : open_texts [sp] = []) by (unfold open_texts; cbn [filter]; unfold open, has_toks; now rewrite Et).
            rewrite Y in X1. cbn [app] in X1. destruct (IH Wh2 A2 ws X1) as (tss & K1 & K2). exists tss. split; [exact K1|]. rewrite (shown_hidden m av skip [id]); [exact K2|]. constructor; [exact Hh|constructor].
          + destruct X as (f' & Ef & X). assert (f' = f) by congruence. subst f'. assert (Y : open_texts [sp] = [sp_text sp]) by (unfold open_texts; cbn [filter]; unfold open, has_toks; now rewrite Et).
            rewrite Y in X1, Wh1. destruct ws as [|w ws]; [discriminate|]. cbn [app map] in X1. injection X1 as X1 X1'. destruct (IH Wh2 A2 ws X1') as (tss & K1 & K2). apply Forall_cons_iff in Wh1 as [(ts' & Z1 & Z2 & Z3 & Z4) _].
            assert (ts' = ts) by congruence. subst ts'. exists (ts :: tss). split.
            * constructor; [|exact K1]. split; [exact Z2|]. split; [congruence|]. eapply Forall_impl; [|exact Z4]. now intros y (_ & H).
            * cbn [concat]. rewrite map_app, K2. f_equal. apply shown_named. eapply Forall_impl; [|exact Z4]. now intros y (H & _). }
      destruct K as (tss & K1 & K2). exists tss. split; [exact E|]. split; [exact K1|exact K2].
    Qed.

    Definition text_pieces (s : str) : list (list N) := meta_parts r scheme 0 (all_parts ss si t s).
    Definition all_pieces (l : list str) : list (list N) := flat_map text_pieces l.

    Lemma input_meta ty ot x : clean_input x -> ot <> OInvalid -> Forall (spells_whole f name) (map encode (all_pieces (input_texts x))) ->
      exists e tss, encode_sequence ss si t ty ot x = Ok e /\ Forall2 of_word (all_pieces (input_texts x)) tss /\ shows (ids e) = map t_value (concat tss).
    Proof.
      intros C Hot Wh. destruct x as [s|l].
      - unfold all_pieces in *. cbn [input_texts flat_map] in *. rewrite app_nil_r in *. exact (raw_meta ty ot s C Hot Wh).
      - cbn [clean_input] in C. cbn [input_texts] in *. assert (W : Forall (fun s => Forall (spells_whole f name) (map encode (text_pieces s))) l).
        { clear -Wh. induction l as [|s l IH]; [constructor|]. unfold all_pieces in Wh. cbn [flat_map] in Wh. rewrite map_app in Wh. apply Forall_app in Wh as [W1 W2]. constructor; [exact W1|now apply IH]. }
        destruct (words_ok ss si t ty ot l) as (e & E).
        { rewrite Forall_forall in *. intros s Hs. destruct (raw_meta ty ot s (C s Hs) Hot (W s Hs)) as (e & tss & E & _). eauto. }
        destruct (words_tokens ss si _ _ _ _ _ E) as (es & F & Ei & _). exists e. rewrite Ei.
        assert (K : exists tss, Forall2 of_word (all_pieces l) tss /\ shows (concat (map ids es)) = map t_value (concat tss)).
        { clear -F C W Hot Sr R0 M1 M2 No Pre Fm Mo Ah HS HI. induction F as [|w e l es Hw F IH]; [exists []; split; [constructor|reflexivity]|]. apply Forall_cons_iff in C as [C1 C2]. apply Forall_cons_iff in W as [W1 W2].
          destruct (IH C2 W2) as (tss & K1 & K2). destruct (raw_meta ty ot w C1 Hot W1) as (e' & ts & E' & F' & S'). assert (e' = e) by congruence. subst e'. exists (ts ++ tss). split.
          - unfold all_pieces. cbn [flat_map]. now apply Forall2_app.
          - cbn [map concat]. now rewrite shown_app, concat_app, map_app, S', K2. }
        destruct K as (tss & K1 & K2). exists tss. auto.
    Qed.

    Lemma encode_meta ot x add : ending_returns t (dual x) add -> ending_hides name t (dual x) add -> clean_inputs x -> ot <> OInvalid ->
      Forall (spells_whole f name) (map encode (all_pieces (encode_texts x))) ->
      exists e tss, tk_encode ss si t ot x add = Ok (Some e) /\ Forall2 of_word (all_pieces (encode_texts x)) tss /\ shows (ids e) = map t_value (concat tss).
    Proof.
      intros (R1 & R2 & R3) Hh C Hot Wh.
      assert (Pl : forall ty a e, encode_sequence ss si t ty ot a = Ok e -> plain e).
      { intros ty a e E. destruct (sequence_plain ss si _ _ _ _ _ E). split; [exact (sequence_parallel ss si _ _ _ _ _ E)|auto]. }
      destruct x as [a|a b]; cbn [tk_encode clean_inputs dual encode_texts] in *.
      - destruct (input_meta 0 ot a C Hot Wh) as (e & tss & E & D & A). rewrite E. cbn [bind].
        destruct (post_returns (tk_processor t) (tk_trunc t) (tk_padding t) e None add) as (q & Er); auto; [exact (Pl _ _ _ E)|discriminate|]. exists q, tss. split; [exact Er|]. split; [exact D|].
        rewrite (post_seen m av skip t e None add q Hh Er). cbn [pair_ids]. change (shows []) with (@nil str). now rewrite app_nil_r.
      - destruct C as [Ca Cb]. unfold all_pieces in Wh. rewrite flat_map_app, map_app in Wh. apply Forall_app in Wh as [Wa Wb].
        destruct (input_meta 0 ot a Ca Hot Wa) as (e & tss & E & D & A). destruct (input_meta 1 ot b Cb Hot Wb) as (e' & tss' & E' & D' & A'). rewrite E. cbn [bind]. rewrite E'. cbn [bind].
        destruct (post_returns (tk_processor t) (tk_trunc t) (tk_padding t) e (Some e') add) as (q & Er); auto; [exact (Pl _ _ _ E)|intros p [= <-]; exact (Pl _ _ _ E')|]. exists q, (tss ++ tss'). split; [exact Er|].
        unfold all_pieces. rewrite flat_map_app. split; [now apply Forall2_app|].
        rewrite (post_seen m av skip t e (Some e') add q Hh Er). cbn [pair_ids]. now rewrite A, A', concat_app, map_app.
    Qed.

    (** The pieces by the specification. *)
    Lemma pieces_led l : forall i first, first = (i =? 0)%nat ->
      meta_parts r scheme i l = flat_map (fun p => cut_up MergedWithNext (N.eqb r) (map (to_mark r) p)) (match l with [] => [] | x :: l' => led_part scheme r first x ++ flat_map (led_part scheme r false) l' end).
    Proof.
      assert (O : forall first x, meta_part r scheme first x = flat_map (fun p => cut_up MergedWithNext (N.eqb r) (map (to_mark r) p)) (led_part scheme r first x)).
      { intros first [[id|] w]; unfold meta_part, led_part; cbn [fst snd]; [reflexivity|]. cbn [flat_map]. now rewrite app_nil_r, led_mark. }
      intros i first ->. destruct l as [|x l]; [reflexivity|]. cbn [meta_parts]. rewrite meta_parts_later by lia. rewrite flat_map_app, <- O. f_equal. induction l as [|y l IH]; [reflexivity|].
      cbn [flat_map]. now rewrite flat_map_app, <- O, IH.
    Qed.
    Lemma text_pieces_led s : text_pieces s = flat_map (fun p => cut_up MergedWithNext (N.eqb r) (map (to_mark r) p)) (led_parts ss si t scheme r s).
    Proof. unfold text_pieces, led_parts. now apply pieces_led. Qed.
    Lemma all_pieces_led l : all_pieces l = flat_map (fun p => cut_up MergedWithNext (N.eqb r) (map (to_mark r) p)) (flat_map (led_parts ss si t scheme r) l).
    Proof. unfold all_pieces. induction l as [|s l IH]; [reflexivity|]. cbn [flat_map]. now rewrite flat_map_app, IH, text_pieces_led. Qed.
    Lemma words_pieces x : meta_words ss si t scheme r x = map encode (all_pieces (encode_texts x)).
    Proof.
      unfold meta_words, input_parts. rewrite all_pieces_led. generalize (flat_map (led_parts ss si t scheme r) (encode_texts x)) as ps. induction ps as [|p ps IH]; [reflexivity|].
      cbn [flat_map]. rewrite map_app, IH. reflexivity.
    Qed.
    Lemma part_unmarked first x : Forall (fun p => map (unmark r) (map (to_mark r) p) = p) (led_part scheme r first x).
    Proof. destruct x as [[id|] w]; unfold led_part; cbn [fst snd]; constructor; [|constructor]. now rewrite led_mark, led_unmark. Qed.
    Lemma parts_unmarked s : Forall (fun p => map (unmark r) (map (to_mark r) p) = p) (led_parts ss si t scheme r s).
    Proof.
      unfold led_parts. destruct (all_parts ss si t s) as [|x l]; [constructor|]. apply Forall_app. split; [apply part_unmarked|]. induction l as [|y l IH]; [constructor|]. cbn [flat_map]. apply Forall_app. split; [apply part_unmarked|exact IH].
    Qed.
    Lemma pieces_concat l : map (unmark r) (concat (all_pieces l)) = concat (flat_map (led_parts ss si t scheme r) l).
    Proof.
      rewrite all_pieces_led. assert (F : Forall (fun p => map (unmark r) (map (to_mark r) p) = p) (flat_map (led_parts ss si t scheme r) l)).
      { induction l as [|s l IH]; [constructor|]. cbn [flat_map]. apply Forall_app. split; [apply parts_unmarked|exact IH]. }
      induction F as [|p ps H F IH]; [reflexivity|]. cbn [flat_map concat]. rewrite concat_app, map_app, IH. f_equal. cbn [cut_up]. rewrite segments_concat. exact H.
    Qed.
    Lemma pieces_tails l : Forall (fun w => Forall (fun c => (r =? c)%N = false) (tl w)) (all_pieces l).
    Proof. rewrite all_pieces_led. induction (flat_map (led_parts ss si t scheme r) l) as [|p ps IH]; [constructor|]. cbn [flat_map]. apply Forall_app. split; [apply merged_tails|exact IH]. Qed.

    Lemma pieces_chars (Q : N -> Prop) l : (forall c, Q (to_mark r c) \/ ~ scalar c) -> Forall Q (concat (all_pieces l)).
    Proof.
      intros H. rewrite all_pieces_led. assert (L : forall first s, Forall scalar (led scheme r first (runes s))).
      { intros first s. assert (B : Forall scalar (map (blank r) (runes s))).
        { apply Forall_map. eapply Forall_impl; [|apply runes_scalar]. intros c Hc. unfold blank. destruct (_ || _); [unfold scalar; lia|exact Hc]. }
        unfold led. destruct (map (blank r) (runes s)) as [|c q]; [constructor|]. destruct (_ && _); [|exact B]. constructor; [unfold scalar; lia|exact B]. }
      assert (P : forall first x, Forall (Forall scalar) (led_part scheme r first x)).
      { intros first [[id|] w]; unfold led_part; cbn [fst snd]; constructor; [apply L|constructor]. }
      assert (F : Forall (Forall scalar) (flat_map (led_parts ss si t scheme r) l)).
      { induction l as [|s l IH]; [constructor|]. cbn [flat_map]. apply Forall_app. split; [|exact IH]. unfold led_parts. destruct (all_parts ss si t s) as [|x k]; [constructor|]. apply Forall_app. split; [apply P|].
        induction k as [|y k IHk]; [constructor|]. cbn [flat_map]. apply Forall_app. split; [apply P|exact IHk]. }
      induction F as [|p ps Hp F IH]; [constructor|]. cbn [flat_map]. rewrite concat_app. apply Forall_app. split; [|exact IH]. cbn [cut_up]. rewrite segments_concat. apply Forall_map.
      eapply Forall_impl; [|exact Hp]. intros c Hc. destruct (H c); [assumption|contradiction].
    Qed.
    Lemma pieces_scalar l : Forall (Forall scalar) (all_pieces l).
    Proof.
      assert (F : Forall scalar (concat (all_pieces l))) by (apply pieces_chars; intros c; unfold to_mark; destruct (c =? 32)%N; [now left|]; unfold scalar; lia).
      induction (all_pieces l) as [|w ws IH]; [constructor|]. cbn [concat] in F. apply Forall_app in F as [F1 F2]. constructor; [exact F1|now apply IH].
    Qed.
    Lemma pieces_marked l : Forall (fun c => c = 32%N -> c = r) (concat (all_pieces l)).
    Proof. apply pieces_chars. intros c. left. unfold to_mark. destruct (N.eqb_spec c 32) as [_|H]; [reflexivity|congruence]. Qed.

    (** The decoder may drop the first mark or not. *)
    Lemma meta_decodes drop mk ot x add : ending_returns t (dual x) add -> ending_hides name t (dual x) add -> clean_inputs x -> ot <> OInvalid ->
      Forall (spells_whole f name) (meta_words ss si t scheme r x) ->
      exists e, tk_encode ss si t ot x add = Ok (Some e) /\
        decode_ids m av (Some (decode mk (DMetaspace (encode_rune r) drop))) (ids e) skip =
        Ok (encode (match concat (input_parts ss si t scheme r x) with c :: l => if drop && (c =? 32)%N then l else c :: l | [] => [] end)).
    Proof.
      intros R H C Hot Wh. rewrite words_pieces in Wh. destruct (encode_meta ot x add R H C Hot Wh) as (e & tss & E & D & A). exists e. split; [exact E|]. unfold decode_ids. rewrite tokens_of_shown, A. cbn [decode decode_chain bind].
      f_equal. unfold input_parts. rewrite <- pieces_concat. set (ws := all_pieces (encode_texts x)) in *.
      assert (V : exists vss, map t_value (concat tss) = map encode (concat vss) /\ Forall2 (fun w vs => concat vs = w /\ vs <> [] /\ Forall (fun v => v <> [] /\ Forall scalar v) vs) ws vss).
      { assert (Sc : Forall (Forall scalar) ws) by (apply pieces_scalar).
        clear -D Sc. induction D as [|w ts ws tss (D1 & D2 & D3) D IH]; [exists []; split; [reflexivity|constructor]|]. apply Forall_cons_iff in Sc as [S1 S2]. destruct (IH S2) as (vss & V1 & V2).
        assert (U : exists vs, map t_value ts = map encode vs /\ Forall (fun v => v <> [] /\ Forall scalar v) vs).
        { clear -D3. induction D3 as [|y ts [H1 (q & Sq & Eq)] F (vs & I1 & I2)]; [exists []; split; [reflexivity|constructor]|]. exists (q :: vs). cbn [map]. rewrite I1, Eq. split; [reflexivity|].
          constructor; [|exact I2]. split; [|exact Sq]. intros ->. apply H1. exact Eq. }
        destruct U as (vs & U1 & U2). exists (vs :: vss). cbn [concat]. rewrite !map_app, U1, V1. split; [reflexivity|]. constructor; [|exact V2]. split; [|split; [|exact U2]].
        - apply encode_inj; [|exact S1|].
          + clear -U2. induction U2 as [|v vs [_ H] F IH]; [constructor|]. cbn [concat]. apply Forall_app. split; assumption.
          + rewrite <- D2, U1. clear. induction vs as [|v vs IH]; [reflexivity|]. cbn [concat map]. now rewrite encode_app, IH.
        - intros ->. destruct ts; [congruence|discriminate U1]. }
      destruct V as (vss & V1 & V2). rewrite V1, (decode_words r drop ws vss Sr (pieces_tails _) V2). f_equal. destruct (concat ws) as [|c l] eqn:Ew; [reflexivity|]. cbn [map]. assert (Uc : (unmark r c =? 32)%N = (c =? r)%N).
      { unfold unmark. destruct (c =? r)%N eqn:Ec; [reflexivity|]. destruct (N.eqb_spec c 32) as [->|_]; [|reflexivity]. exfalso.
        assert (G : Forall (fun c => c = 32%N -> c = r) (32%N :: l)) by (rewrite <- Ew; apply pieces_marked). apply Forall_cons_iff in G as [G _]. rewrite <- G in Ec by reflexivity. discriminate Ec. }
      rewrite Uc. destruct (_ && _); reflexivity.
    Qed.
    Lemma meta_round_trip mk ot x add : ending_returns t (dual x) add -> ending_hides name t (dual x) add -> clean_inputs x -> ot <> OInvalid ->
      Forall (spells_whole f name) (meta_words ss si t scheme r x) ->
      exists e, tk_encode ss si t ot x add = Ok (Some e) /\
        decode_ids m av (Some (decode mk (DMetaspace (encode_rune r) (prepends scheme)))) (ids e) skip = Ok (meta_text ss si t scheme r x).
    Proof. exact (meta_decodes (prepends scheme) mk ot x add). Qed.
  End Tok.
End Sorted.
