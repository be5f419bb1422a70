(** Proofs that the pre-tokenizers keep pieces in place. *)
From Verif Require Import Base BaseProofs Utf8Model Utf8Proofs PatternModel PatternSpec PatternProofs NormalizedModel NormalizedSpec NormalizedProofs NormalizedInvProofs
  NormalizedExactProofs NormalizedOpProofs EncodingModel BpeModel BpeSaveModel PreTokenizedModel PreTokenizedSpec PreTokenizedProofs DecoderModel DecoderProofs
  PreTokenizerModel PreTokenizerSpec ChunkProofs PreTokenizerProofs ExpandedProofs PipelineModel PipelineSpec PipelineProofs.
Open Scope Z_scope.

(** Ranges one after the other. *)
Fixpoint rising (lo : Z) (rs : list (Z * Z)) : Prop :=
  match rs with
  | [] => True
  | (a, b) :: rs' => lo <= a /\ a <= b /\ rising b rs'
  end.
Lemma rising_le rs : forall lo lo', lo' <= lo -> rising lo rs -> rising lo' rs.
Proof. destruct rs as [|[a b] rs]; cbn; [auto|]. intros lo lo' H (A & B & C). split; [lia|auto]. Qed.
Lemma partition_rising ms : forall a c, partition a c ms -> rising a (map fst ms).
Proof.
  induction ms as [|[[s e] k] ms IH]; intros a c P; [constructor|]. cbn [partition] in P. destruct P as (-> & H & P). cbn [map fst rising]. split; [lia|]. split; [exact H|]. exact (IH _ _ P).
Qed.
Lemma partition_kept f ms : forall a c, partition a c ms -> rising a (map fst (filter f ms)).
Proof.
  induction ms as [|[[s e] k] ms IH]; intros a c P; [constructor|]. cbn [partition] in P. destruct P as (-> & H & P). cbn [filter]. destruct (f _).
  - cbn [map fst rising]. split; [lia|]. split; [exact H|]. exact (IH _ _ P).
  - eapply rising_le; [exact H|]. exact (IH _ _ P).
Qed.
Lemma piece_rising b ms a c : partition a c ms -> rising a (piece_ranges b ms).
Proof.
  intros P. destruct (match b with Removed => true | _ => false end) eqn:Eb.
  - destruct b; try discriminate. cbn [piece_ranges]. now apply partition_kept with (c := c).
  - assert (Hb : b <> Removed) by (intros ->; discriminate). pose proof (piece_partition b a c ms Hb P) as Q. apply partition_rising in Q.
    rewrite map_map in Q. cbn [keep fst] in Q. now rewrite map_id in Q.
Qed.

Lemma part_app_mid {A} (l : list A) a b : 0 <= a -> a <= b -> b <= zlen l -> l = firstn (Z.to_nat a) l ++ part a b l ++ skipn (Z.to_nat b) l.
Proof.
  intros H1 H2 H3. unfold part. rewrite <- (firstn_skipn (Z.to_nat a) l) at 1. f_equal.
  rewrite <- (firstn_skipn (Z.to_nat (b - a)) (skipn (Z.to_nat a) l)) at 1. f_equal. rewrite skipn_skipn'. f_equal. lia.
Qed.
Lemma parts_ordered (l : list (Z * Z)) : ordered l -> forall rs lo, 0 <= lo -> rising lo rs -> Forall (fun r => snd r <= zlen l) rs ->
  ordered (concat (map (fun r => part (fst r) (snd r) l) rs)) /\ incl (concat (map (fun r => part (fst r) (snd r) l) rs)) (skipn (Z.to_nat lo) l).
Proof.
  intros O. induction rs as [|[a b] rs IH]; intros lo H0 R F; cbn [map concat fst snd]; [split; [apply ordered_nil|intros x []]|].
  cbn [rising] in R. destruct R as (R1 & R2 & R3). inversion F as [|? ? F1 F2]; subst. cbn [snd] in F1. destruct (IH b ltac:(lia) R3 F2) as [I1 I2].
  pose proof (part_app_mid l a b ltac:(lia) R2 F1) as El.
  assert (O2 : ordered (part a b l ++ skipn (Z.to_nat b) l)) by (rewrite El in O; exact (ordered_app_r _ _ O)).
  split.
  - apply ordered_app; [exact (ordered_app_l _ _ O2)|exact I1|]. intros x y Hx Hy. apply (ordered_in_app _ _ _ _ O2 Hx). now apply I2.
  - replace (skipn (Z.to_nat lo) l) with (firstn (Z.to_nat (a - lo)) (skipn (Z.to_nat lo) l) ++ part a b l ++ skipn (Z.to_nat b) l).
    + apply incl_appr. apply incl_app; [apply incl_appl, incl_refl|]. intros x Hx. apply in_or_app. right. now apply I2.
    + rewrite <- (firstn_skipn (Z.to_nat (a - lo)) (skipn (Z.to_nat lo) l)) at 2. f_equal. rewrite skipn_skipn'. replace (Z.to_nat (a - lo) + Z.to_nat lo)%nat with (Z.to_nat a) by lia.
      unfold part. rewrite <- (firstn_skipn (Z.to_nat (b - a)) (skipn (Z.to_nat a) l)) at 2. f_equal. rewrite skipn_skipn'. f_equal. lia.
Qed.

(** Non-empty pieces in place, in order, drawn from [n]. *)
Definition parts_of (orig : str) (n : ns) (ps : list ns) : Prop :=
  Forall (fun m => in_place orig m /\ ns_norm m <> []) ps /\ ordered (concat (map sources ps)) /\ incl (concat (map sources ps)) (sources n).
Lemma sources_untokenized ps : all_sources (untokenized ps) = concat (map sources ps).
Proof. unfold all_sources, untokenized. induction ps as [|m ps IH]; [reflexivity|]. cbn. now rewrite IH. Qed.
Lemma parts_refine orig n ps : parts_of orig n ps -> refines orig n (filter nonempty (untokenized ps)).
Proof.
  intros (F & O & I). rewrite filter_true.
  - split; [|rewrite sources_untokenized; auto]. unfold untokenized. apply Forall_map. eapply Forall_impl; [|exact F]. cbn. intros m [P N].
    unfold sp_text, toks_in. cbn. split; [exact P|]. split; [apply tokens_none|exact N].
  - unfold untokenized. apply Forall_map. eapply Forall_impl; [|exact F]. intros m [_ N]. unfold nonempty. cbn. destruct (ns_norm m); [congruence|reflexivity].
Qed.
Lemma slices_parts orig n rs : in_place orig n -> rising 0 rs ->
  Forall (fun r => cut (ns_norm n) (r, false) /\ 0 <= fst r /\ snd r <= zlen (ns_norm n)) rs ->
  exists ps, slices n (map keep rs) = Ok ps /\ parts_of orig n ps.
Proof.
  intros P R F.
  assert (G : exists ps, slices n (map keep rs) = Ok ps /\ Forall (fun m => in_place orig m /\ ns_norm m <> []) ps /\
    concat (map sources ps) = concat (map (fun r => part (fst r) (snd r) (sources n)) rs)).
  { clear R. induction F as [|[a b] rs (C & H1 & H2) F IH]; [exists []; repeat split; constructor|]. destruct C as (C1 & C2 & C3). cbn [fst snd] in *.
    destruct (slice_in_place orig n a b P H1 C1 H2 C2 C3) as (m & Em & Pm & Nm & Sm). destruct IH as (ps & E & Fp & Sp).
    exists (m :: ps). cbn [map keep slices]. rewrite Em. cbn [bind]. rewrite E. cbn [bind]. split; [reflexivity|]. split.
    - constructor; [|exact Fp]. split; [exact Pm|]. rewrite Nm. intros X. apply (f_equal zlen) in X. rewrite part_length in X by lia. unfold zlen in X. cbn in X. lia.
    - cbn [concat map fst snd]. now rewrite Sm, Sp. }
  destruct G as (ps & E & Fp & Sp). exists ps. split; [exact E|]. split; [exact Fp|]. rewrite Sp.
  assert (L : zlen (sources n) = zlen (ns_norm n)) by (unfold sources, zlen; rewrite map_length; f_equal; apply P).
  destruct (parts_ordered (sources n) (sources_ordered _ _ P) rs 0 ltac:(lia) R) as [X1 X2]; [|auto].
  eapply Forall_impl; [|exact F]. intros r (_ & _ & H). lia.
Qed.

(** Patterns whose matches lie between characters. *)
Definition cuts_well (p : pattern) : Prop :=
  forall s, valid_utf8 s -> s <> [] -> exists ms, find_matches p s = Ok ms /\ partition 0 (zlen s) ms /\ Forall (cut s) ms.
Lemma partition_bounds ms : forall a c, partition a c ms -> a <= c /\ Forall (fun m => a <= fst (fst m) /\ snd (fst m) <= c) ms.
Proof.
  induction ms as [|[[s e] k] ms IH]; intros a c P; cbn [partition] in P; [subst; split; [lia|constructor]|]. destruct P as (-> & H & P). destruct (IH _ _ P) as [I1 I2].
  split; [lia|]. constructor; [cbn; lia|]. eapply Forall_impl; [|exact I2]. cbn. lia.
Qed.
Lemma rising_bounds rs : forall lo, rising lo rs -> Forall (fun r => lo <= fst r) rs.
Proof.
  induction rs as [|[a b] rs IH]; intros lo R; [constructor|]. cbn [rising] in R. destruct R as (A & B & C). constructor; [exact A|].
  eapply Forall_impl; [|exact (IH _ C)]. cbn. lia.
Qed.
Lemma boundary_le s i : 0 <= i -> boundary s i -> i <= zlen s.
Proof.
  intros H [->|[->|(b & _ & E & _)]]; [apply zlen_nonneg|lia|]. assert (X : nth_error s (Z.to_nat i) <> None) by congruence. apply nth_error_Some in X. unfold zlen. lia.
Qed.
Lemma split_parts p b orig n : cuts_well p -> in_place orig n -> ns_norm n <> [] -> exists ps, ns_split n p b = Ok ps /\ parts_of orig n ps.
Proof.
  intros Cw P Ne. destruct (Cw (ns_norm n) (clean_valid _ (proj1 (proj2 (proj2 P)))) Ne) as (ms & E & Pm & Cm).
  unfold ns_split. rewrite E. cbn [bind]. rewrite split_slices. apply slices_parts; [exact P|exact (piece_rising b _ _ _ Pm)|].
  pose proof (piece_cut b (ns_norm n) _ _ _ Pm Cm) as C. pose proof (rising_bounds _ _ (piece_rising b _ _ _ Pm)) as B. rewrite Forall_forall in *.
  intros r Hr. specialize (C r Hr). specialize (B r Hr). split; [exact C|]. split; [exact B|]. destruct C as (C1 & C2 & C3). cbn [fst snd] in *. apply boundary_le; [lia|exact C3].
Qed.
Lemma split_by_refiner p b : cuts_well p -> refiner (split_by p b).
Proof.
  intros Cw orig i n new P Ne E. destruct (split_parts p b orig n Cw P Ne) as (ps & Es & Q). unfold split_by in E. rewrite Es in E. injection E as <-. now apply parts_refine.
Qed.
Lemma good_cuts p : well_behaved p -> supported p -> (forall s, valid_utf8 s -> between_chars s p) -> cuts_well p.
Proof. intros W S B s V Ne. apply find_matches_cut; auto. Qed.
Lemma fn_cuts f : cuts_well (PFn f).
Proof. apply good_cuts; cbn; auto. Qed.
Lemma rune_cuts r : cuts_well (PRune r).
Proof. apply good_cuts; cbn; auto. Qed.
Lemma ranges_cuts L : Forall (fun x => fst x <> []) L -> partition 0 (zlen (encode (chars_of L))) (ranges_of 0 L) /\ Forall (cut (encode (chars_of L))) (ranges_of 0 L).
Proof.
  intros Ne. split; [pose proof (ranges_partition L 0) as H; exact H|]. exact (ranges_cut L [] Ne).
Qed.
Lemma class_cuts cls : cuts_well (PRegexp (find_runs cls)) /\ cuts_well (PInvert (PRegexp (find_runs cls))).
Proof.
  split; intros s (rs & Sc & ->) Ne.
  all: assert (Hr : rs <> []) by (intros ->; now apply Ne).
  - exists (ranges_of 0 (class_chunks cls rs)). split; [now apply regexp_class|]. rewrite <- (class_chunks_chars cls rs) at 1 3. apply ranges_cuts, class_chunks_nonempty.
  - exists (ranges_of 0 (flip (class_chunks cls rs))). split; [now apply regexp_class_inverted|]. rewrite <- (class_chunks_chars cls rs) at 1 3. rewrite <- (flip_chars (class_chunks cls rs)). apply ranges_cuts.
    unfold flip. apply Forall_map. apply class_chunks_nonempty.
Qed.
Lemma parts_trans orig n ps : parts_of orig n ps -> forall f pss, (forall m, in_place orig m -> ns_norm m <> [] -> forall ps, f m = Ok ps -> parts_of orig m ps) ->
  mapR f ps = Ok pss -> parts_of orig n (concat pss).
Proof.
  intros (F & O & I) f pss Hf E.
  assert (G : Forall2 (fun m ps => parts_of orig m ps) ps pss).
  { clear O I. revert pss E. induction F as [|m ps [Pm Nm] F IH]; intros pss E; [injection E as <-; constructor|]. rewrite mapR_cons in E.
    destruct (f m) as [l| | | |] eqn:Em; cbn [bind] in E; try discriminate E. destruct (mapR f ps) as [ls| | | |]; cbn [bind] in E; try discriminate E. injection E as <-.
    constructor; [exact (Hf m Pm Nm l Em)|now apply IH]. }
  clear E Hf F. split; [|split].
  - clear O I. induction G as [|m l ps pss (H & _) G IH]; [constructor|]. cbn. apply Forall_app. auto.
  - replace (concat (map sources (concat pss))) with (concat (map (fun l => concat (map sources l)) pss)).
    2:{ clear. induction pss as [|l pss IH]; [reflexivity|]. cbn. now rewrite map_app, concat_app, IH. }
    apply (ordered_drawn (map sources ps)); [|exact O]. clear -G. induction G as [|m l ps pss (_ & H1 & H2) G IH]; [constructor|]. cbn. constructor; auto.
  - eapply incl_tran; [|exact I]. clear -G. induction G as [|m l ps pss (_ & H1 & H2) G IH]; [intros x []|]. cbn. rewrite map_app, concat_app.
    apply incl_app; [now apply incl_appl|now apply incl_appr].
Qed.
Lemma bert_refiner u : refiner (bert_split u).
Proof.
  intros orig i n new P Ne E. unfold bert_split in E.
  destruct (split_parts (PRegexp find_spaces) Removed orig n (proj1 (class_cuts _)) P Ne) as (ps & Es & Q). rewrite Es in E. cbn [bind] in E.
  match type of E with (do pss <- ?x; _) = _ => destruct x as [pss| | | |] eqn:Em end; cbn [bind] in E; try discriminate E. injection E as <-.
  apply parts_refine. refine (parts_trans _ _ _ Q _ _ _ Em). cbn beta. intros m Pm Nm l El.
  destruct (split_parts (PFn (is_punct u)) Isolated orig m (fn_cuts _) Pm Nm) as (ps' & Es' & Q'). rewrite Es' in El. injection El as <-. exact Q'.
Qed.

(** ** Scripts *)
Fixpoint climbing (lo : Z) (l : list Z) : Prop :=
  match l with [] => True | a :: l' => lo <= a /\ climbing (a + 1) l' end.
Lemma climbing_le l : forall lo lo', lo' <= lo -> climbing lo l -> climbing lo' l.
Proof. destruct l as [|a l]; cbn; [auto|]. intros lo lo' H [A B]. split; [lia|exact B]. Qed.
Lemma climbing_app l : forall lo x, climbing lo l -> Forall (fun a => a < x) l -> lo <= x -> climbing lo (l ++ [x]).
Proof.
  induction l as [|a l IH]; intros lo x C F H; cbn; [auto|]. cbn in C. destruct C as [C1 C2]. inversion F; subst. split; [exact C1|]. apply IH; [exact C2|assumption|lia].
Qed.
Lemma script_starts_spec sc rs : forall last pre,
  Forall (fun x => char_pos (pre ++ rs) x /\ x < bytes (pre ++ rs)) (script_starts sc rs last (bytes pre)) /\ climbing (bytes pre) (script_starts sc rs last (bytes pre)).
Proof.
  induction rs as [|c rs IH]; intros last pre; cbn [script_starts]; [split; constructor|]. cbn zeta.
  set (last' := if str_eqb (sc c) ANY then last else sc c). destruct (IH last' (pre ++ [c])) as [I1 I2]. rewrite <- app_assoc in I1. cbn [app] in I1.
  rewrite bytes_snoc in I1, I2. pose proof (zlen_rune c). destruct (_ && _ && _).
  - cbn [app]. split; [|split; [lia|]].
    + constructor; [|exact I1]. split; [apply char_pos_app|]. rewrite bytes_app, bytes_cons. pose proof (bytes_nonneg rs). unfold zlen in *. lia.
    + eapply climbing_le; [|exact I2]. lia.
  - cbn [app]. split; [exact I1|]. eapply climbing_le; [|exact I2]. lia.
Qed.
Fixpoint pairs (l : list Z) : list (Z * Z) :=
  match l with a :: ((b :: _) as l') => (a, b) :: pairs l' | _ => [] end.
Lemma windows_slices n l : forall ps, windows n l = Ok ps -> slices n (map keep (pairs l)) = Ok ps.
Proof.
  induction l as [|a [|b l] IH]; intros ps E; [exact E|exact E|].
  change (windows n (a :: b :: l)) with (do m <- ns_slice n (Rng a b OnNormalized); match m with None => Panic | Some m => do rest <- windows n (b :: l); Ok (m :: rest) end) in E.
  change (pairs (a :: b :: l)) with ((a, b) :: pairs (b :: l)). cbn [map keep slices].
  destruct (ns_slice n (Rng a b OnNormalized)) as [[m|]| | | |]; cbn [bind] in *; try discriminate E.
  destruct (windows n (b :: l)) as [rest| | | |]; cbn [bind] in E; try discriminate E. injection E as <-. now rewrite (IH rest eq_refl).
Qed.
Lemma pairs_rising s l : forall lo, climbing lo l -> 0 <= lo -> Forall (fun x => boundary s x /\ x <= zlen s) l ->
  rising lo (pairs l) /\ Forall (fun r => cut s (r, false) /\ 0 <= fst r /\ snd r <= zlen s) (pairs l).
Proof.
  induction l as [|a [|b l] IH]; intros lo C H F; [split; constructor|split; constructor|]. cbn [climbing] in C. destruct C as (C1 & C2 & C3).
  inversion F as [|? ? [A1 A2] F']; subst. inversion F' as [|? ? [B1 B2] F'']; subst.
  destruct (IH b) as [I1 I2]; [cbn; split; [lia|exact C3]|lia|exact F'|]. change (pairs (a :: b :: l)) with ((a, b) :: pairs (b :: l)). split.
  - cbn [rising]. split; [lia|]. split; [lia|exact I1].
  - constructor; [|exact I2]. unfold cut. cbn [fst snd]. repeat split; try assumption; lia.
Qed.
Lemma script_refiner u : refiner (script_split u).
Proof.
  intros orig i n new P Ne E. unfold script_split in E. pose proof P as (W & O & (rs & Sc & NZ & En) & S0 & S1).
  rewrite En, runes_encode in E by assumption.
  match type of E with (do ps <- windows n ?l; _) = _ => destruct (windows n l) as [ps| | | |] eqn:Ew; set (ls := l) in * end; cbn [bind] in E; try discriminate E.
  injection E as <-. apply parts_refine. apply windows_slices in Ew.
  destruct (script_starts_spec (fixed_script u) rs [] []) as [I1 I2]. cbn [app] in I1. change (bytes []) with 0 in I1, I2.
  destruct (pairs_rising (encode rs) ls 0) as [Q1 Q2].
  - apply climbing_app; [exact I2| |apply zlen_nonneg]. eapply Forall_impl; [|exact I1]. intros x [_ H]. exact H.
  - lia.
  - apply Forall_app. split.
    + eapply Forall_impl; [|exact I1]. intros x [H1 H2]. split; [now apply char_pos_boundary|]. unfold bytes in H2. lia.
    + constructor; [|constructor]. split; [right; now left|lia].
  - rewrite <- En in Q2. destruct (slices_parts orig n (pairs ls) P Q1 Q2) as (ps' & E' & Q). rewrite Ew in E'. injection E' as <-. exact Q.
Qed.

(** ** Rewriting *)
Definition rewritten (orig : str) (n m : ns) : Prop :=
  in_place orig m /\ ns_orig m = ns_orig n /\ ns_shift m = ns_shift n /\ incl (sources m) (sources n).
Lemma rewritten_refl orig n : in_place orig n -> rewritten orig n n.
Proof. intros P. split; [exact P|]. split; [reflexivity|]. split; [reflexivity|apply incl_refl]. Qed.
Lemma rewritten_trans orig n m k : rewritten orig n m -> rewritten orig m k -> rewritten orig n k.
Proof. intros (_ & A2 & A3 & A4) (B1 & B2 & B3 & B4). split; [exact B1|]. split; [congruence|]. split; [congruence|]. eapply incl_tran; eassumption. Qed.
Lemma rewritten_by orig n m : in_place orig n -> wf m -> ordered (ns_al m) -> clean (ns_norm m) -> ns_orig m = ns_orig n -> ns_shift m = ns_shift n ->
  incl (ns_al m) (ns_al n) -> rewritten orig n m.
Proof.
  intros (_ & _ & _ & S0 & S1) W O C Eo Es I. split; [|split; [exact Eo|split; [exact Es|]]].
  - split; [exact W|]. split; [exact O|]. split; [exact C|]. rewrite Es, Eo. auto.
  - unfold sources. rewrite Es. now apply incl_map.
Qed.
Lemma parts_rewritten orig n m ps : rewritten orig n m -> parts_of orig m ps -> parts_of orig n ps.
Proof. intros (_ & _ & _ & I) (A & B & C). split; [exact A|]. split; [exact B|]. eapply incl_tran; eassumption. Qed.

Lemma clean_app a b : clean a -> clean b -> clean (a ++ b).
Proof. intros (ra & A1 & A2 & ->) (rb & B1 & B2 & ->). exists (ra ++ rb). rewrite encode_app, !Forall_app. auto. Qed.
Lemma clean_valid_runes s : clean s -> exists rs, Forall scalar rs /\ Forall (fun c => c <> 0%N) rs /\ s = encode rs /\ runes s = rs.
Proof. intros (rs & A & B & ->). exists rs. rewrite runes_encode by assumption. auto. Qed.

Lemma prepend_rewrites orig p n m : clean p -> p <> [] -> in_place orig n -> ns_prepend p n = Ok m -> rewritten orig n m.
Proof.
  intros Cp Np P E. pose proof P as (W & O & C & S0 & S1). destruct C as (rs & Sc & NZ & En).
  destruct rs as [|next rs].
  { unfold ns_prepend in E. rewrite En in E. cbn in E. injection E as <-. now apply rewritten_refl. }
  assert (H0 : hd 1%N (next :: rs) <> 0%N) by (inversion NZ; assumption).
  destruct (prepend_ok p (next :: rs) n W O En Sc H0) as (m' & E' & Nm & Wm & Om). rewrite E in E'. injection E' as <-. cbn [length Nat.eqb] in Nm.
  unfold ns_prepend in E. rewrite En, runes_encode in E by assumption.
  assert (T : target n (Rng 0 (zlen (encode_rune next)) OnNormalized) = Ok (Some (Rng 0 (zlen (encode_rune next)) OnNormalized))).
  { unfold target, into_full_range. cbn [r_on r_start r_end]. change (0 =? -1) with false. cbn iota. rewrite En, encode_cons, zlen_app. pose proof (zlen_nonneg (encode rs)).
    replace (zlen (encode_rune next) + zlen (encode rs) <? zlen (encode_rune next)) with false by lia. reflexivity. }
  destruct (clean_valid_runes p Cp) as (ps & Sp & Zp & Ep & Rp).
  apply rewritten_by; [exact P|exact Wm|exact Om| | | |].
  - rewrite Nm, Rp, <- Ep. apply clean_app; [exact Cp|]. exists (next :: rs). auto.
  - apply transform_range_spec in E. destruct E as (? & ? & ? & _ & _ & _ & _ & _ & _ & X & _). exact X.
  - apply transform_range_spec in E. destruct E as (? & ? & ? & _ & _ & _ & _ & _ & _ & _ & X & _). exact X.
  - apply (transform_range_drawn _ _ _ _ _ _ E T). right. right. cbn [r_start r_end].
    replace (zlen (ns_al n)) with (zlen (ns_norm n)) by (unfold zlen; f_equal; symmetry; apply W).
    rewrite En, encode_cons, zlen_app. pose proof (zlen_nonneg (encode rs)). rewrite Z.min_l by lia.
    rewrite (part_mid [] (encode_rune next) (encode rs)); [|reflexivity|unfold zlen; cbn; lia].
    pose proof (runes_encode [next] ltac:(inversion Sc; constructor; [assumption|constructor])) as R. rewrite encode_cons, app_nil_r in R. rewrite R.
    unfold prepend_items. rewrite Rp. destruct ps as [|q ps]; [subst p; cbn in Np; congruence|]. cbn. split; [lia|exact H0].
Qed.

Lemma replace_placed orig content s ms : clean content -> forall a out n off st',
  partition a (zlen s) ms -> 0 <= a -> Forall (cut s) ms -> clean s -> in_place orig n ->
  ns_norm n = out ++ skipn (Z.to_nat a) s -> clean out -> off = zlen out - a ->
  foldR (replace_step content) ms (n, off) = Ok st' -> rewritten orig n (fst st').
Proof.
  intros Cc.
  induction ms as [|[[x y] k] ms IH]; intros a out n off st' P Ha Ct Cs Pn En Co Eo E.
  - cbn in P, E. injection E as <-. now apply rewritten_refl.
  - cbn [partition] in P. destruct P as (-> & Hxy & P). pose proof (partition_le _ _ _ P) as Hy. inversion Ct as [|? ? C1 Ct']; subst.
    cbn [foldR replace_step snd fst] in E. pose proof (zlen_nonneg out) as Ho. destruct C1 as (C1 & B1 & B2). cbn [fst snd] in C1, B1, B2.
    rewrite (firstn_part_skipn s a y) in En by lia. pose proof (clean_part s a y Cs Ha Hxy B1 B2) as Cp.
    destruct k.
    + set (off := zlen out - a) in *.
      assert (E1 : apply_sign a off = zlen out) by (unfold apply_sign; replace (a + off <? 0) with false by lia; lia).
      assert (E2 : apply_sign y off = zlen out + (y - a)) by (unfold apply_sign; replace (y + off <? 0) with false by lia; lia).
      rewrite E1, E2 in E.
      destruct (zslice (ns_norm n) _ _) as [sub| | | |] eqn:Ez; cbn [bind] in E; try discriminate E.
      match type of E with (do s' <- (do n' <- ?x; _); _) = _ => destruct x as [n'| | | |] eqn:En' end; cbn [bind] in E; try discriminate E.
      apply zslice_ok in Ez. destruct Ez as (_ & _ & Hb & ->).
      assert (Sel : part (zlen out) (zlen out + (y - a)) (ns_norm n) = part a y s).
      { rewrite En. apply part_mid; [reflexivity|]. rewrite part_length by lia. lia. }
      rewrite Sel in En'.
      assert (Vi : valid_items (map (fun c => (encode_rune c, 1)) (runes content))) by apply valid_rune_items.
      pose proof Pn as (W & O & Cn & S0 & S1).
      assert (WL : zlen (ns_al n) = zlen (ns_norm n)) by (unfold zlen; f_equal; apply W).
      pose proof (transform_range_text n (zlen out) (zlen out + (y - a)) _ _ n' W Vi Ho Hb En') as (_ & Ht & _).
      assert (W' : wf n') by (eapply transform_range_wf; eassumption).
      rewrite items_text_runes, runes_valid_id in Ht by (apply clean_valid; exact Cc).
      assert (T : target n (Rng (zlen out) (zlen out + (y - a)) OnNormalized) = Ok (Some (Rng (zlen out) (zlen out + (y - a)) OnNormalized))).
      { unfold target, into_full_range. cbn [r_on r_start r_end]. replace (zlen out =? -1) with false by lia. replace (zlen out + (y - a) =? -1) with false by lia.
        cbn iota. replace (zlen (ns_norm n) <? zlen out + (y - a)) with false by lia. reflexivity. }
      assert (Ins : consumed (map (fun c => (encode_rune c, 1)) (runes content)) = 0).
      { clear. induction (runes content) as [|c l IHl]; [reflexivity|]. cbn [map]. rewrite consumed_cons, IHl. reflexivity. }
      assert (O' : ordered (ns_al n')).
      { apply (transform_range_ordered _ _ _ _ _ _ W O En' T); cbn [r_start r_end]; rewrite Z.min_l by lia; try rewrite Sel.
        - apply clean_valid, Cp.
        - apply clean_runes, Cp.
        - rewrite Ins. apply zlen_nonneg.
        - right. right. apply Forall_map. apply Forall_forall. intros c _. cbn. lia. }
      assert (En2 : ns_norm n' = (out ++ content) ++ skipn (Z.to_nat y) s).
      { rewrite Ht, En. rewrite firstn_app_z by reflexivity. rewrite <- app_assoc. do 2 f_equal. apply skipn_app_z. rewrite part_length by lia. lia. }
      assert (R1 : rewritten orig n n').
      { apply rewritten_by; [exact Pn|exact W'|exact O'| | | |].
        - rewrite En2. apply clean_app; [now apply clean_app|]. destruct Cs as (rs & A1 & A2 & A3).
          assert (B2' : boundary (encode rs) y) by (rewrite <- A3; exact B2). destruct (boundary_char_pos rs y B2' ltac:(lia)) as (j & Hj & Ej).
          exists (skipn j rs). split; [now apply Forall_skipn|]. split; [now apply Forall_skipn|]. rewrite A3.
          transitivity (skipn (Z.to_nat y) (encode (firstn j rs ++ skipn j rs))); [now rewrite firstn_skipn|]. rewrite encode_app. 
          rewrite Ej. unfold bytes, zlen. rewrite Nat2Z.id, skipn_app, skipn_all, Nat.sub_diag. reflexivity.
        - apply transform_range_spec in En'. destruct En' as (? & ? & ? & _ & _ & _ & _ & _ & _ & X & _). exact X.
        - apply transform_range_spec in En'. destruct En' as (? & ? & ? & _ & _ & _ & _ & _ & _ & _ & X & _). exact X.
        - apply (transform_range_drawn _ _ _ _ _ _ En' T). left. destruct (clean_valid_runes _ Cp) as (r & _ & _ & Er & Rr). rewrite Rr.
          destruct r as [|c r]; [exfalso; apply (f_equal zlen) in Er; rewrite part_length in Er by lia; unfold zlen in Er; cbn in Er; lia|]. unfold zlen. cbn [length]. lia. }
      eapply rewritten_trans; [exact R1|].
      eapply (IH y (out ++ content) n'); [exact P|lia|exact Ct'|exact Cs|apply R1|exact En2|now apply clean_app| |exact E].
      rewrite zlen_app, runes_valid_id by (apply clean_valid; exact Cc). subst off. lia.
    + eapply (IH y (out ++ part a y s) n); [exact P|lia|exact Ct'|exact Cs|exact Pn| |now apply clean_app| |exact E].
      * now rewrite <- app_assoc.
      * rewrite zlen_app, part_length by lia. lia.
Qed.

Lemma replace_rewrites orig p content n m : cuts_well p -> clean content -> ns_norm n <> [] -> in_place orig n -> ns_replace p content n = Ok m -> rewritten orig n m.
Proof.
  intros Cw Cc Ne P E. pose proof P as (W & O & C & _). destruct (Cw _ (clean_valid _ C) Ne) as (ms & Em & Pm & Cm). unfold ns_replace in E. rewrite Em in E. cbn [bind] in E.
  destruct (foldR (replace_step content) ms (n, 0)) as [st| | | |] eqn:Ef; cbn [bind] in E; try discriminate E. injection E as <-.
  exact (replace_placed orig content (ns_norm n) ms Cc 0 [] n 0 st Pm (Z.le_refl 0) Cm C P eq_refl clean_nil eq_refl Ef).
Qed.

(** The single characters a regexp class finds. *)
Lemma char_finds_spec f rs : forall pre,
  ordered_matches (bytes pre) (bytes pre + bytes rs) (char_finds f (map (fun r => (r, length (encode_rune r))) rs) (bytes pre)) /\
  Forall (fun m => fst m < snd m /\ char_pos (pre ++ rs) (fst m) /\ char_pos (pre ++ rs) (snd m)) (char_finds f (map (fun r => (r, length (encode_rune r))) rs) (bytes pre)).
Proof.
  induction rs as [|c rs IH]; intros pre; cbn [map char_finds].
  - split; [|constructor]. cbn. change (bytes []) with 0. lia.
  - destruct (IH (pre ++ [c])) as [I1 I2]. rewrite <- app_assoc in I2. cbn [app] in I2. rewrite bytes_app, bytes_cons in I1, I2.
    change (bytes []) with 0 in I1, I2. rewrite Z.add_0_r in I1, I2. rewrite bytes_cons. pose proof (zlen_rune c) as L. unfold zlen in L.
    rewrite Z.add_assoc. destruct (f c); cbn [app]; [|split; [|exact I2]].
    + split; [cbn [ordered_matches]; split; [unfold zlen in *; lia|exact I1]|]. constructor; [|exact I2]. cbn [fst snd]. split; [lia|]. split; [apply char_pos_app|].
      replace (bytes pre + Z.of_nat (length (encode_rune c))) with (bytes (pre ++ [c])) by (rewrite bytes_app, bytes_cons; change (bytes []) with 0; unfold zlen; lia).
      change (c :: rs) with ([c] ++ rs). rewrite app_assoc. apply char_pos_app.
    + destruct (char_finds f _ _) as [|[x y] l]; cbn [ordered_matches] in *; [unfold zlen in *; lia|]. destruct I1 as [J1 J2]. split; [unfold zlen in *; lia|exact J2].
Qed.
Lemma chars_cuts f : cuts_well (PRegexp (find_chars f)).
Proof.
  intros s (rs & Sc & ->) Ne. destruct (char_finds_spec f rs []) as [I1 I2]. change (bytes []) with 0 in I1, I2. cbn [app] in I2.
  assert (Ef : find_chars f (encode rs) = char_finds f (map (fun r => (r, length (encode_rune r))) rs) 0) by (unfold find_chars; now rewrite runes_w_encode).
  exists (re_matches (find_chars f (encode rs)) (encode rs)). split; [destruct (encode rs); [congruence|reflexivity]|]. rewrite <- Ef in I1, I2.
  split; [apply re_matches_ok; exact I1|]. apply re_matches_cut; [exact Ne|exact I1|]. eapply Forall_impl; [|exact I2]. intros m (H1 & H2 & H3).
  unfold cut. cbn [fst snd]. auto using char_pos_boundary.
Qed.

Lemma finds_cuts p : finds_well p -> cuts_well p.
Proof. intros (W & S & B). now apply good_cuts. Qed.
Lemma split_refines p b orig i n0 n new : cuts_well p -> rewritten orig n0 n -> split_by p b i n = Ok new ->
  (ns_norm n = [] -> exists k, find_matches p [] = Ok [((0, 0), k)]) -> refines orig n0 (filter nonempty new).
Proof.
  intros Cw R E H. destruct (ns_norm n) as [|c t] eqn:En.
  - destruct (H eq_refl) as (k & Hk). destruct (split_nothing n p b k En Hk) as (ps & Es & F). unfold split_by in E. rewrite Es in E. injection E as <-.
    replace (filter nonempty (untokenized ps)) with (@nil split); [split; [constructor|split; [apply ordered_nil|intros x []]]|].
    clear Es. unfold untokenized. induction F as [|m ps Hm F IH]; [reflexivity|]. cbn [map filter]. unfold nonempty at 1. cbn [sp_ns]. now rewrite Hm.
  - destruct (split_parts p b orig n Cw (proj1 R) ltac:(congruence)) as (ps & Es & Q). unfold split_by in E. rewrite Es in E. injection E as <-.
    apply parts_refine. now apply (parts_rewritten _ _ n).
Qed.
Lemma meta_refiner rep find scheme : clean rep -> rep <> [] -> cuts_well (PRegexp find) -> refiner (meta_split rep find scheme).
Proof.
  intros Cr Nr Cw orig i n new P Ne E. unfold meta_split in E.
  destruct (ns_replace (PRegexp (find_chars re_space)) rep n) as [n1| | | |] eqn:E1; cbn [bind] in E; try discriminate E.
  pose proof (replace_rewrites orig _ rep n n1 (chars_cuts re_space) Cr Ne P E1) as R1.
  match type of E with (do n2 <- ?x; _) = _ => destruct x as [n2| | | |] eqn:E2 end; cbn [bind] in E; try discriminate E.
  assert (R2 : rewritten orig n n2).
  { match type of E2 with (if ?b then _ else _) = _ => destruct b end; [|injection E2 as <-; exact R1].
    eapply rewritten_trans; [exact R1|]. exact (prepend_rewrites orig rep n1 n2 Cr Nr (proj1 R1) E2). }
  apply (split_refines (PRegexp find) MergedWithNext orig i n n2 new Cw R2 E). intros _. exists false. reflexivity.
Qed.
Lemma byte_refiner u prefix : refiner (byte_split u prefix).
Proof.
  intros orig i n new P Ne E. unfold byte_split in E.
  match type of E with (do n1 <- ?x; _) = _ => destruct x as [n1| | | |] eqn:E1 end; cbn [bind] in E; try discriminate E.
  assert (R1 : rewritten orig n n1).
  { destruct (prefix && _); [|injection E1 as <-; now apply rewritten_refl]. apply (prepend_rewrites orig [SP] n n1); [|discriminate|exact P|exact E1].
    exists [32%N]. split; [constructor; [unfold scalar; lia|constructor]|]. split; [constructor; [discriminate|constructor]|reflexivity]. }
  apply (split_refines (PRegexp (find_gpt2 u)) Isolated orig i n n1 new); [|exact R1|exact E|intros _; exists false; reflexivity].
  apply good_cuts; [apply gpt2_well_behaved|exact I|intros s V; now apply gpt2_between].
Qed.

(** ** The contract *)
Lemma placed_ok u t : placed t -> pre_ok (pre_tokenize u t).
Proof.
  induction t as [t N|ts IH] using pre_tokenizer_ind'; intros H p p' L E.
  - destruct t as [| | |b|i|d|q b i| |r g s|x|ts]; cbn [pre_tokenize placed] in *; [..|now destruct (N ts)].
    + exact (split_laid _ p p' (bert_refiner u) L E).
    + exact (split_laid _ p p' (split_by_refiner _ _ (proj2 (class_cuts _))) L E).
    + exact (split_laid _ p p' (split_by_refiner _ _ (fn_cuts _)) L E).
    + exact (split_laid _ p p' (split_by_refiner _ _ (fn_cuts _)) L E).
    + exact (split_laid _ p p' (split_by_refiner _ _ (fn_cuts _)) L E).
    + exact (split_laid _ p p' (split_by_refiner _ _ (rune_cuts _)) L E).
    + exact (split_laid _ p p' (split_by_refiner _ _ (finds_cuts _ H)) L E).
    + exact (split_laid _ p p' (script_refiner u) L E).
    + destruct H as (H1 & H2 & H3). exact (split_laid _ p p' (meta_refiner r g s H1 H2 (finds_cuts _ H3)) L E).
    + destruct H.
  - revert p p' L E. induction ts as [|t ts IHts]; intros p p' L E.
    + injection E as <-. auto.
    + inversion IH as [|? ? Ht Hts]; subst. destruct H as [H1 H2]. cbn [pre_tokenize] in E.
      destruct (pre_tokenize u t p) as [p1| | | |] eqn:E1; cbn [bind] in E; try discriminate E. destruct (Ht H1 p p1 L E1) as [L1 O1].
      destruct (IHts Hts H2 p1 p' L1 E) as [L2 O2]. split; [exact L2|congruence].
Qed.

(** ** Pre-tokenizers that only cut *)
Lemma slices_fresh orig n rs : in_place orig n -> untouched n ->
  Forall (fun r => cut (ns_norm n) (r, false) /\ 0 <= fst r /\ snd r <= zlen (ns_norm n)) rs ->
  forall ps, slices n (map keep rs) = Ok ps -> Forall untouched ps.
Proof.
  intros P U F. pose proof P as (W & O & _). induction F as [|[a b] rs (C & H1 & H2) F IH]; intros ps E; [injection E as <-; constructor|]. destruct C as (C1 & C2 & C3).
  cbn [fst snd map keep slices] in *. destruct (ns_slice n (Rng a b OnNormalized)) as [[m|]| | | |] eqn:Em; cbn [bind] in E; try discriminate E.
  - destruct (slices n (map keep rs)) as [l| | | |]; cbn [bind] in E; try discriminate E. injection E as <-. constructor; [|now apply IH].
    exact (proj1 (slice_untouched n a b m W O U H1 C1 H2 C2 C3 Em)).
  - destruct (slices n (map keep rs)) as [l| | | |]; cbn [bind] in E; try discriminate E. injection E as <-. now apply IH.
Qed.
Lemma split_fresh p b orig n ps : cuts_well p -> in_place orig n -> ns_norm n <> [] -> untouched n -> ns_split n p b = Ok ps -> Forall untouched ps.
Proof.
  intros Cw P Ne U Es. destruct (Cw (ns_norm n) (clean_valid _ (proj1 (proj2 (proj2 P)))) Ne) as (ms & E & Pm & Cm).
  unfold ns_split in Es. rewrite E in Es. cbn [bind] in Es. rewrite split_slices in Es. refine (slices_fresh orig n _ P U _ ps Es).
  pose proof (piece_cut b (ns_norm n) _ _ _ Pm Cm) as C. pose proof (rising_bounds _ _ (piece_rising b _ _ _ Pm)) as B. rewrite Forall_forall in *.
  intros r Hr. specialize (C r Hr). specialize (B r Hr). split; [exact C|]. split; [exact B|]. destruct C as (C1 & C2 & C3). cbn [fst snd] in *. apply boundary_le; [lia|exact C3].
Qed.
Definition keeper (f : nat -> ns -> res (list split)) : Prop :=
  forall orig i n new, in_place orig n -> ns_norm n <> [] -> untouched n -> f i n = Ok new -> Forall (fun sp => untouched (sp_ns sp)) new.
Lemma untokenized_fresh ps : Forall untouched ps -> Forall (fun sp => untouched (sp_ns sp)) (untokenized ps).
Proof. intros F. unfold untokenized. apply Forall_map. exact F. Qed.
Lemma split_by_keeper p b : cuts_well p -> keeper (split_by p b).
Proof.
  intros Cw orig i n new P Ne U E. unfold split_by in E. destruct (ns_split n p b) as [ps| | | |] eqn:Es; cbn [bind] in E; try discriminate E. injection E as <-.
  apply untokenized_fresh. exact (split_fresh p b orig n ps Cw P Ne U Es).
Qed.
Lemma bert_keeper u : keeper (bert_split u).
Proof.
  intros orig i n new P Ne U E. unfold bert_split in E.
  destruct (split_parts (PRegexp find_spaces) Removed orig n (proj1 (class_cuts _)) P Ne) as (ps & Es & (F & _)).
  pose proof (split_fresh _ _ orig n ps (proj1 (class_cuts _)) P Ne U Es) as Fu. rewrite Es in E. cbn [bind] in E.
  match type of E with (do pss <- ?x; _) = _ => destruct x as [pss| | | |] eqn:Em end; cbn [bind] in E; try discriminate E. injection E as <-.
  apply untokenized_fresh. clear Es U. revert pss Em. induction F as [|m ps [Pm Nm] F IH]; intros pss Em; [injection Em as <-; constructor|]. rewrite mapR_cons in Em.
  inversion Fu as [|? ? U1 U2]; subst. cbn beta in Em.
  destruct (ns_split m (PFn (is_punct u)) Isolated) as [l| | | |] eqn:E1; cbn [bind] in Em; try discriminate Em.
  match type of Em with (do _ <- ?x; _) = _ => destruct x as [ls| | | |] end; cbn [bind] in Em; try discriminate Em. injection Em as <-.
  cbn [concat]. apply Forall_app. split; [|now apply IH]. exact (split_fresh _ _ orig m l (fn_cuts _) Pm Nm U1 E1).
Qed.
Lemma script_keeper u : keeper (script_split u).
Proof.
  intros orig i n new P Ne U E. unfold script_split in E. pose proof P as (W & O & (rs & Sc & NZ & En) & S0 & S1).
  rewrite En, runes_encode in E by assumption.
  match type of E with (do ps <- windows n ?l; _) = _ => destruct (windows n l) as [ps| | | |] eqn:Ew; set (ls := l) in * end; cbn [bind] in E; try discriminate E.
  injection E as <-. apply untokenized_fresh. apply windows_slices in Ew. refine (slices_fresh orig n _ P U _ ps Ew).
  destruct (script_starts_spec (fixed_script u) rs [] []) as [I1 I2]. cbn [app] in I1. change (bytes []) with 0 in I1, I2. rewrite En.
  refine (proj2 (pairs_rising (encode rs) ls 0 _ _ _)).
  - apply climbing_app; [exact I2| |apply zlen_nonneg]. eapply Forall_impl; [|exact I1]. intros x [_ H]. exact H.
  - lia.
  - apply Forall_app. split.
    + eapply Forall_impl; [|exact I1]. intros x [H1 H2]. split; [now apply char_pos_boundary|]. unfold bytes in H2. lia.
    + constructor; [|constructor]. split; [right; now left|lia].
Qed.

(** ** Byte-level pieces *)
Lemma encode_bytes_small rs : Forall (fun b => (b < 256)%N) (encode rs).
Proof. apply encode_bytes. Qed.
Definition byte_ready (sp : split) : Prop :=
  match sp_toks sp with
  | Some _ => True
  | None => exists g, group_piece g sp /\ g <> [] /\ Forall written g /\ Forall no_nul g
  end.
Lemma group_nonempty gs l : Forall2 group_piece gs l -> Forall (fun g => g <> []) gs -> Forall written (concat gs) -> Forall no_nul (concat gs) -> Forall byte_ready l.
Proof.
  induction 1 as [|g sp gs l P F IH]; intros Ne W Z; [constructor|]. inversion Ne; subst. cbn [concat] in W, Z. apply Forall_app in W, Z.
  constructor; [|apply IH; tauto]. unfold byte_ready. destruct (sp_toks sp); [exact I|]. exists g. tauto.
Qed.
Lemma forall_filter {A} (P : A -> Prop) f l : Forall P l -> Forall P (filter f l).
Proof. rewrite !Forall_forall. intros H x Hx. apply filter_In in Hx. apply H, Hx. Qed.
Lemma forall_concat_l {A} (P : A -> Prop) ls : Forall (Forall P) ls -> Forall P (concat ls).
Proof. induction 1; [constructor|]. cbn. apply Forall_app. split; assumption. Qed.
Lemma untouched_fresh n : wf n -> untouched n -> exists rs, Forall scalar rs /\ fresh_as rs n.
Proof. intros (_ & _ & _ & W) (rs & Sc & H1 & H2 & H3 & H4). exists rs. split; [exact Sc|]. unfold fresh_as. auto. Qed.
Lemma byte_split_ready u prefix i n new orig : (prefix = true -> blank_ok u) -> in_place orig n -> ns_norm n <> [] -> untouched n ->
  byte_split u prefix i n = Ok new -> Forall byte_ready new.
Proof.
  intros U (W & O & (cs & Sc' & NZ & En) & _) Ne Un E. destruct (untouched_fresh n W Un) as (rs & Sc & Fr).
  assert (cs = rs). { apply encode_inj; [assumption|assumption|]. rewrite <- En. apply Fr. } subst cs.
  assert (Nr : rs <> []) by (intros ->; apply Ne; rewrite En; reflexivity).
  destruct (byte_split_fresh u prefix i rs n Sc NZ Nr (fun H _ => U H) Fr W O) as (gs & l & E' & Cg & Ng & Fg). rewrite E' in E. injection E as <-.
  apply (group_nonempty gs l Fg Ng); rewrite Cg; [apply lead_written|destruct prefix; now apply prefixed_no_nul].
Qed.
Lemma split_ready u prefix p p1 : (prefix = true -> blank_ok u) -> laid p -> Forall (fun sp => untouched (sp_ns sp)) (pt_splits p) ->
  pt_split (byte_split u prefix) p = Ok p1 -> Forall byte_ready (pt_splits p1).
Proof.
  intros U [G _] Un. unfold pt_split. destruct (split_pieces _ 0 (pt_splits p)) as [l'| | | |] eqn:E; cbn [bind]; try discriminate.
  intros [= <-]. cbn [pt_splits]. destruct (split_pieces_news _ _ _ _ E) as (news & -> & F). apply forall_concat_l. clear E.
  induction F as [|sp new l news H F IH]; [constructor|]. inversion G as [|? ? (P & T & N) G']; subst. inversion Un; subst. constructor; [|now apply IH].
  destruct (sp_toks sp) as [t|] eqn:Et; [subst new; constructor; [unfold byte_ready; now rewrite Et|constructor]|]. destruct H as (i & new0 & H & ->).
  apply forall_filter. now apply (byte_split_ready u prefix i (sp_ns sp) new0 (pt_orig p)).
Qed.
Lemma normalize_ready orig l : forall l', all_good orig l -> Forall byte_ready l -> normalize_pieces byte_normalize l = Ok l' ->
  exists news, l' = concat news /\ Forall2 (fun sp new => all_good orig new /\ ordered (all_sources new) /\ incl (all_sources new) (sources (sp_ns sp))) l news.
Proof.
  induction l as [|sp l IH]; intros l' G R E; cbn [normalize_pieces] in E; [injection E as <-; exists []; split; constructor|].
  inversion G as [|? ? (P & T & N) G']; subst. inversion R as [|? ? R1 R2]; subst. unfold byte_ready in R1. destruct (sp_toks sp) as [ts|] eqn:Et.
  - destruct (IH l' G' R2 E) as (news & -> & F). exists ([] :: news). split; [reflexivity|]. constructor; [|exact F].
    split; [constructor|]. split; [apply ordered_nil|intros x []].
  - destruct R1 as (g & (_ & X & W & O) & Ng & Wg & Zg). destruct (normalize_expanded g (sp_ns sp) W O X Ng Wg Zg) as (m & Em & M1 & M2 & M3 & M4 & M5 & M6).
    rewrite Em in E. cbn [bind] in E. destruct (normalize_pieces byte_normalize l) as [r| | | |]; cbn [bind] in E; try discriminate E. injection E as <-.
    destruct (IH r G' R2 eq_refl) as (news & -> & F). exists ([Spl m None] :: news). split; [reflexivity|]. constructor; [|exact F].
    destruct P as (P1 & P2 & P3 & P4 & P5). destruct P3 as (cs & Sc & NZ & Ec).
    assert (Q : in_place orig m).
    { split; [exact M2|]. split; [exact M3|]. split; [|rewrite M4, M5; auto]. rewrite M1.
      replace (exp_text g) with (ns_norm (sp_ns sp)) by apply X. rewrite Ec. destruct (bl_render_clean (encode cs) (encode_bytes_small cs)) as (rs & A & B & C). exists rs. auto. }
    assert (Nm : ns_norm m <> []).
    { rewrite M1. replace (exp_text g) with (ns_norm (sp_ns sp)) by apply X. intros H. apply N. unfold sp_text. destruct (ns_norm (sp_ns sp)) as [|b t] eqn:Eb; [reflexivity|].
      unfold bl_render in H. cbn [map concat] in H. apply app_eq_nil in H. destruct H as [H _]. exfalso. assert (Hb : (b < 256)%N).
      { assert (F256 := encode_bytes_small cs). rewrite <- Ec in F256. now inversion F256. }
      destruct (byte_char_spec b Hb) as (c & B1 & B2 & _). rewrite B2 in H. pose proof (zlen_rune c) as L. rewrite H in L. unfold zlen in L. cbn in L. lia. }
    destruct (own_piece orig (Spl m None) Q) as (A1 & A2 & A3).
    { split; [|exact Nm]. unfold toks_in. cbn [sp_toks]. split; [constructor|apply ordered_nil]. }
    split; [exact A1|]. split; [exact A2|]. intros x Hx. apply A3 in Hx. cbn [sp_ns] in Hx. unfold sources in *. rewrite M5 in Hx. apply in_map_iff in Hx.
    destruct Hx as (q & <- & Hq). apply in_map_iff. exists q. split; [reflexivity|now apply M6].
Qed.
Lemma byte_level_ok u prefix : (prefix = true -> blank_ok u) -> pre_fresh_ok (pre_tokenize u (PTByteLevel prefix)).
Proof.
  intros U p p' L Un E. cbn [pre_tokenize] in E. destruct (pt_split (byte_split u prefix) p) as [p1| | | |] eqn:E1; cbn [bind] in E; try discriminate E.
  destruct (split_laid _ p p1 (byte_refiner u prefix) L E1) as [[G1 O1] Eo]. pose proof (split_ready u prefix p p1 U L Un E1) as R. unfold pt_normalize in E.
  destruct (normalize_pieces byte_normalize (pt_splits p1)) as [l'| | | |] eqn:E2; cbn [bind] in E; try discriminate E. injection E as <-.
  destruct (normalize_ready (pt_orig p1) (pt_splits p1) l' G1 R E2) as (news & -> & F). split; [|exact Eo]. unfold laid. cbn [pt_orig pt_splits].
  now apply (laid_drawn _ (pt_splits p1)).
Qed.

(** ** Cutting, then byte-level *)
Definition all_fresh (p : pretok) : Prop := Forall (fun sp => untouched (sp_ns sp)) (pt_splits p).
Lemma split_all_fresh f p p' : keeper f -> laid p -> all_fresh p -> pt_split f p = Ok p' -> all_fresh p'.
Proof.
  intros K [G _] Un. unfold pt_split, all_fresh in *. destruct (split_pieces _ 0 (pt_splits p)) as [l'| | | |] eqn:E; cbn [bind]; try discriminate.
  intros [= <-]. cbn [pt_splits]. destruct (split_pieces_news _ _ _ _ E) as (news & -> & F). apply forall_concat_l. clear E.
  induction F as [|sp new l news H F IH]; [constructor|]. inversion G as [|? ? (P & T & N) G']; subst. inversion Un; subst. constructor; [|now apply IH].
  destruct (sp_toks sp) as [t|] eqn:Et; [subst new; constructor; [assumption|constructor]|]. destruct H as (i & new0 & H & ->).
  apply forall_filter. exact (K (pt_orig p) i (sp_ns sp) new0 P N ltac:(assumption) H).
Qed.
Lemma cutting_placed t : cutting t -> placed t.
Proof.
  induction t as [t N|ts IH] using pre_tokenizer_ind'; intros H.
  - destruct t; cbn in *; auto; [destruct H|now destruct (N ts)].
  - induction IH as [|t ts Ht IH IHts]; [exact I|]. destruct H as [H1 H2]. split; [now apply Ht|now apply IHts].
Qed.
Lemma cutting_fresh u t p p' : cutting t -> laid p -> all_fresh p -> pre_tokenize u t p = Ok p' -> all_fresh p'.
Proof.
  revert p p'. induction t as [t N|ts IH] using pre_tokenizer_ind'; intros p p' H L U E.
  - destruct t as [| | |b|i|d|q b i| |r g s|x|ts]; cbn [pre_tokenize cutting] in *; [..|now destruct (N ts)].
    + exact (split_all_fresh _ p p' (bert_keeper u) L U E).
    + exact (split_all_fresh _ p p' (split_by_keeper _ _ (proj2 (class_cuts _))) L U E).
    + exact (split_all_fresh _ p p' (split_by_keeper _ _ (fn_cuts _)) L U E).
    + exact (split_all_fresh _ p p' (split_by_keeper _ _ (fn_cuts _)) L U E).
    + exact (split_all_fresh _ p p' (split_by_keeper _ _ (fn_cuts _)) L U E).
    + exact (split_all_fresh _ p p' (split_by_keeper _ _ (rune_cuts _)) L U E).
    + exact (split_all_fresh _ p p' (split_by_keeper _ _ (finds_cuts _ H)) L U E).
    + exact (split_all_fresh _ p p' (script_keeper u) L U E).
    + destruct H.
    + destruct H.
  - revert p p' L U E. induction ts as [|t ts IHts]; intros p p' L U E.
    + injection E as <-. auto.
    + inversion IH as [|? ? Ht Hts]; subst. destruct H as [H1 H2]. cbn [pre_tokenize] in E.
      destruct (pre_tokenize u t p) as [p1| | | |] eqn:E1; cbn [bind] in E; try discriminate E.
      exact (IHts Hts H2 p1 p' (proj1 (placed_ok u t (cutting_placed t H1) p p1 L E1)) (Ht p p1 H1 L U E1) E).
Qed.
Lemma cut_then_bytes_ok u prefix ts : (prefix = true -> blank_ok u) -> cutting (PTSequence ts) ->
  pre_fresh_ok (pre_tokenize u (PTSequence (ts ++ [PTByteLevel prefix]))).
Proof.
  intros U C p p' L Un E. revert p L Un E C. induction ts as [|t ts IH]; intros p L Un E C.
  - cbn [app] in E. apply (byte_level_ok u prefix U p p' L Un).
    change (pre_tokenize u (PTSequence [PTByteLevel prefix]) p) with (do p1 <- pre_tokenize u (PTByteLevel prefix) p; Ok p1) in E.
    destruct (pre_tokenize u (PTByteLevel prefix) p); exact E.
  - change (pre_tokenize u (PTSequence ((t :: ts) ++ [PTByteLevel prefix])) p) with
      (do p1 <- pre_tokenize u t p; pre_tokenize u (PTSequence (ts ++ [PTByteLevel prefix])) p1) in E.
    destruct (pre_tokenize u t p) as [p1| | | |] eqn:E1; cbn [bind] in E; try discriminate E. destruct C as [C1 C2].
    destruct (placed_ok u t (cutting_placed t C1) p p1 L E1) as [L1 O1]. destruct (IH p1 L1 (cutting_fresh u t p p1 C1 L Un E1) E C2) as [L2 O2].
    split; [exact L2|congruence].
Qed.
