(** Texts cut into chunks of characters: the link between byte ranges and characters. *)
From Verif Require Import Base Utf8Model Utf8Proofs PatternModel PatternSpec PatternProofs NormalizedModel NormalizedSpec
  NormalizedProofs NormalizedInvProofs NormalizedExactProofs NormalizedOpProofs PreTokenizedModel PreTokenizedSpec
  PreTokenizerModel PreTokenizerSpec.
Open Scope Z_scope.

Notation chunk := (list N * bool)%type (only parsing).

Fixpoint ranges_of (p : Z) (L : list chunk) : list offsets_match :=
  match L with
  | [] => []
  | (c, k) :: L' => ((p, p + bytes c), k) :: ranges_of (p + bytes c) L'
  end.
Definition chars_of (L : list chunk) : list N := concat (map fst L).

Lemma ranges_app a b : forall p, ranges_of p (a ++ b) = ranges_of p a ++ ranges_of (p + bytes (chars_of a)) b.
Proof.
  induction a as [|[c k] a IH]; intros p; cbn [app ranges_of]; [unfold bytes; cbn; now rewrite Z.add_0_r|].
  rewrite IH. unfold chars_of. cbn [map concat fst]. rewrite bytes_app. do 3 f_equal. lia.
Qed.
Lemma ranges_partition L : forall p, partition p (p + bytes (chars_of L)) (ranges_of p L).
Proof.
  induction L as [|[c k] L IH]; intros p; cbn [ranges_of partition]; [unfold bytes; cbn; lia|].
  pose proof (bytes_nonneg c). split; [reflexivity|]. split; [lia|].
  unfold chars_of. cbn [map concat fst]. rewrite bytes_app, Z.add_assoc. apply IH.
Qed.
Lemma char_pos_app a b : char_pos (a ++ b) (bytes a).
Proof.
  exists (length a). split; [rewrite app_length; lia|]. rewrite firstn_app, Nat.sub_diag, firstn_all. cbn. now rewrite app_nil_r.
Qed.
Lemma bytes_pos c : c <> [] -> 0 < bytes c.
Proof. destruct c as [|r c]; [congruence|]. rewrite bytes_cons. pose proof (zlen_rune r). pose proof (bytes_nonneg c). lia. Qed.

Lemma ranges_cut L : forall pre, Forall (fun x => fst x <> []) L ->
  Forall (cut (encode (pre ++ chars_of L))) (ranges_of (bytes pre) L).
Proof.
  induction L as [|[c k] L IH]; intros pre F; [constructor|]. inversion F as [|? ? Hc F']; subst. cbn [fst] in Hc.
  unfold chars_of. cbn [ranges_of map concat fst]. fold (chars_of L). constructor.
  - unfold cut. cbn [fst snd]. pose proof (bytes_pos c Hc). split; [lia|]. split; apply char_pos_boundary.
    + apply char_pos_app.
    + rewrite <- bytes_app, app_assoc. apply char_pos_app.
  - rewrite <- bytes_app, app_assoc. apply IH, F'.
Qed.

(** ** Pieces *)
Definition chunk_pieces (b : behavior) (L : list chunk) : list (list N) :=
  match b with
  | Removed => map fst (filter (fun x => negb (snd x)) L)
  | _ => map chars_of (segments (fun x y => joins b (snd x) (snd y)) L)
  end.

Lemma segments_nonempty {A} (j : A -> A -> bool) l : Forall (fun g => g <> []) (segments j l).
Proof.
  induction l as [|x l IH]; [constructor|]. cbn [segments]. destruct (segments j l) as [|[|y g] gs].
  - repeat constructor. discriminate.
  - inversion IH as [|? ? H _]; congruence.
  - inversion IH as [|? ? H H']; subst. destruct (j x y); repeat constructor; auto; discriminate.
Qed.
Lemma segments_concat {A} (j : A -> A -> bool) l : concat (segments j l) = l.
Proof.
  induction l as [|x l IH]; [reflexivity|]. cbn [segments]. destruct (segments j l) as [|[|y g] gs].
  - cbn in IH. now subst.
  - cbn in *. now rewrite IH.
  - destruct (j x y); cbn in *; now rewrite IH.
Qed.

Fixpoint nest (p : Z) (gs : list (list chunk)) : list (list offsets_match) :=
  match gs with
  | [] => []
  | g :: gs' => ranges_of p g :: nest (p + bytes (chars_of g)) gs'
  end.
Lemma group_ranges j L : forall p, group j (ranges_of p L) = nest p (segments (fun x y => j (snd x) (snd y)) L).
Proof.
  induction L as [|[c k] L IH]; intros p; [reflexivity|]. cbn [ranges_of group segments]. rewrite IH.
  destruct (segments _ L) as [|[|[c2 k2] g] gs] eqn:E.
  - cbn. reflexivity.
  - pose proof (segments_nonempty (fun x y : chunk => j (snd x) (snd y)) L) as H. rewrite E in H. inversion H; congruence.
  - cbn [nest ranges_of snd]. destruct (j k k2).
    + cbn [nest ranges_of]. unfold chars_of. cbn [map concat fst]. rewrite (bytes_app c). do 2 f_equal. lia.
    + cbn [nest ranges_of]. assert (H : chars_of [(c, k)] = c) by (unfold chars_of; cbn; apply app_nil_r). rewrite H. reflexivity.
Qed.
Lemma spans gs : forall p, Forall (fun g => g <> []) gs -> map span (nest p gs) = map fst (ranges_of p (map (fun g => (chars_of g, false)) gs)).
Proof.
  induction gs as [|g gs IH]; intros p F; [reflexivity|]. inversion F as [|? ? Hg F']; subst.
  cbn [nest map ranges_of fst]. rewrite IH by assumption. f_equal.
  apply partition_span; [|apply ranges_partition]. destruct g as [|[c k] g]; [congruence|discriminate].
Qed.
Lemma part_prefix {A} (pre l : list A) a b : part (zlen pre + a) (zlen pre + b) (pre ++ l) = part a b l \/ a < 0.
Proof.
  destruct (Z.ltb_spec a 0); [now right|left]. unfold part. replace (zlen pre + b - (zlen pre + a)) with (b - a) by lia.
  f_equal. rewrite skipn_app. unfold zlen. rewrite skipn_all2 by lia. cbn. f_equal. lia.
Qed.
Lemma parts_ranges M : forall pre, map (fun r => part (fst r) (snd r) (encode (pre ++ chars_of M))) (map fst (ranges_of (bytes pre) M)) = map encode (map fst M).
Proof.
  induction M as [|[c k] M IH]; intros pre; [reflexivity|]. cbn [ranges_of map fst snd]. f_equal.
  - unfold chars_of. cbn [map concat fst]. rewrite !encode_app. apply part_mid; unfold bytes; lia.
  - unfold chars_of. cbn [map concat fst]. fold (chars_of M). rewrite app_assoc, <- bytes_app. apply IH.
Qed.
Lemma ranges_filter (P : bool -> bool) L : forall p, 
  Forall2 (fun m x => snd m = snd x /\ snd (fst m) - fst (fst m) = bytes (fst x)) (ranges_of p L) L.
Proof. induction L as [|[c k] L IH]; intros p; constructor; [cbn; split; [reflexivity|lia]|apply IH]. Qed.
Lemma removed_ranges L : forall pre, map (fun r => part (fst r) (snd r) (encode (pre ++ chars_of L)))
    (map fst (filter (fun m => negb (snd m)) (ranges_of (bytes pre) L))) = map encode (map fst (filter (fun x => negb (snd x)) L)).
Proof.
  induction L as [|[c k] L IH]; intros pre; [reflexivity|].
  assert (T : map (fun r => part (fst r) (snd r) (encode (pre ++ chars_of ((c, k) :: L))))
    (map fst (filter (fun m => negb (snd m)) (ranges_of (bytes pre + bytes c) L))) = map encode (map fst (filter (fun x => negb (snd x)) L))).
  { unfold chars_of. cbn [map concat fst]. fold (chars_of L). rewrite app_assoc, <- bytes_app. apply IH. }
  cbn [ranges_of filter snd]. destruct k; cbn [negb]; [exact T|]. cbn [map fst snd]. rewrite T. f_equal.
  unfold chars_of. cbn [map concat fst]. rewrite !encode_app. apply part_mid; unfold bytes; lia.
Qed.
Lemma chars_map_false gs : chars_of (map (fun g : list chunk => (chars_of g, false)) gs) = chars_of (concat gs).
Proof.
  unfold chars_of. rewrite map_map. cbn. induction gs as [|g gs IH]; [reflexivity|]. cbn. now rewrite IH, map_app, concat_app.
Qed.
Lemma pieces_ranges b L : map (fun r => part (fst r) (snd r) (encode (chars_of L))) (piece_ranges b (ranges_of 0 L)) = map encode (chunk_pieces b L).
Proof.
  assert (G : b <> Removed -> map (fun r => part (fst r) (snd r) (encode (chars_of L))) (map span (group (joins b) (ranges_of 0 L)))
    = map encode (map chars_of (segments (fun x y => joins b (snd x) (snd y)) L))).
  { intros _. rewrite group_ranges, spans by apply segments_nonempty.
    set (gs := segments _ L). assert (C : concat gs = L) by apply segments_concat.
    pose proof (parts_ranges (map (fun g => (chars_of g, false)) gs) []) as P. cbn [app] in P.
    rewrite chars_map_false, C in P. change (bytes []) with 0 in P. rewrite P, (map_map _ fst gs). reflexivity. }
  destruct b; try (apply G; discriminate). apply (removed_ranges L []).
Qed.

(** ** Splitting a normalized string along chunks *)
Definition within (n m : ns) : Prop :=
  ns_shift n <= ns_shift m /\ ns_shift m + zlen (ns_orig m) <= ns_shift n + zlen (ns_orig n) /\
  ns_orig m = part (ns_shift m - ns_shift n) (ns_shift m - ns_shift n + zlen (ns_orig m)) (ns_orig n).

Lemma slices_within n rs : wf n -> ordered (ns_al n) ->
  Forall (fun r => cut (ns_norm n) (r, false) /\ 0 <= fst r /\ snd r <= zlen (ns_norm n)) rs ->
  exists ps, slices n (map keep rs) = Ok ps /\
    map ns_norm ps = map (fun r => part (fst r) (snd r) (ns_norm n)) rs /\
    Forall (fun m => wf m /\ ordered (ns_al m) /\ within n m) ps.
Proof.
  intros W O. induction rs as [|[a b] rs IH]; intros F; [exists []; repeat split; constructor|].
  inversion F as [|x y ((Hab & Ba & Bb) & H0 & H1) F']; subst. cbn [fst snd] in *.
  destruct (slice_normalized n a b W O H0 Hab H1 Ba Bb) as (a' & b' & m & Ec & Es & Em & Eo & _ & Esh & Wm & Om).
  destruct (convert_normalized_inside n a b W O H0 Hab H1) as (a2 & b2 & Ec2 & A1 & A2 & A3 & _).
  rewrite Ec in Ec2. injection Ec2 as <- <-.
  destruct (IH F') as (ps & Eps & Ep & Fp). cbn [map keep slices]. rewrite Es. cbn [bind]. rewrite Eps. cbn [bind].
  exists (m :: ps). split; [reflexivity|]. cbn [map fst snd]. rewrite Em, Ep. split; [reflexivity|]. constructor; auto.
  split; [exact Wm|]. split; [exact Om|].
  assert (L : zlen (ns_orig m) = b' - a') by (rewrite Eo; now apply part_length).
  unfold within. rewrite L, Esh. split; [lia|]. split; [lia|]. rewrite Eo. f_equal; lia.
Qed.

Lemma split_chunks n p b L : wf n -> ordered (ns_al n) -> ns_norm n = encode (chars_of L) ->
  Forall (fun x => fst x <> []) L -> find_matches p (ns_norm n) = Ok (ranges_of 0 L) ->
  exists ps, ns_split n p b = Ok ps /\ map ns_norm ps = map encode (chunk_pieces b L) /\
    Forall (fun m => wf m /\ ordered (ns_al m) /\ within n m) ps.
Proof.
  intros W O En F E. unfold ns_split. rewrite E. cbn [bind]. rewrite split_slices.
  assert (P : partition 0 (zlen (ns_norm n)) (ranges_of 0 L)).
  { rewrite En. apply (ranges_partition L 0). }
  assert (Fc : Forall (cut (ns_norm n)) (ranges_of 0 L)) by (rewrite En; apply (ranges_cut L []), F).
  pose proof (piece_cut b _ _ _ _ P Fc) as C.
  assert (B : Forall (fun r => 0 <= fst r /\ snd r <= zlen (ns_norm n)) (piece_ranges b (ranges_of 0 L))).
  { assert (D : b = Removed \/ b <> Removed) by (destruct b; auto; right; discriminate).
    destruct D as [->|D].
    - cbn [piece_ranges]. apply partition_bounds in P. apply Forall_map, Forall_forall. intros m Hm.
      apply filter_In in Hm. rewrite Forall_forall in P. apply (P m), Hm.
    - pose proof (piece_partition b _ _ _ D P) as P'. apply partition_bounds in P'.
      apply Forall_map in P'. eapply Forall_impl; [|exact P']. intros [u v]. cbn. auto. }
  destruct (slices_within n (piece_ranges b (ranges_of 0 L)) W O) as (ps & Eps & Ep & Fp).
  { rewrite Forall_forall in *. intros r Hr. split; [now apply C|]. now apply B. }
  exists ps. split; [exact Eps|]. split; [|exact Fp]. rewrite Ep, En. apply pieces_ranges.
Qed.

(** ** Matches are determined by the matched ranges *)
Lemma matches_unique l1 : forall l2 a b, partition a b l1 -> partition a b l2 -> alternating l1 -> alternating l2 ->
  Forall (fun m => fst (fst m) < snd (fst m)) l1 -> Forall (fun m => fst (fst m) < snd (fst m)) l2 ->
  matched l1 = matched l2 -> l1 = l2.
Proof.
  induction l1 as [|[[s e] k] l1 IH]; intros l2 a b P1 P2 A1 A2 F1 F2 M.
  - destruct l2 as [|[[s2 e2] k2] l2]; [reflexivity|]. cbn in P1, P2. destruct P2 as (-> & H1 & H2).
    inversion F2 as [|? ? F F2']; subst. cbn in F. apply partition_le in H2. lia.
  - destruct l2 as [|[[s2 e2] k2] l2].
    { cbn in P1, P2. destruct P1 as (-> & H1 & H2). inversion F1 as [|? ? F F1']; subst. cbn in F. apply partition_le in H2. lia. }
    cbn [partition] in P1, P2. destruct P1 as (-> & H1 & P1), P2 as (-> & H2 & P2).
    inversion F1 as [|? ? L1 F1']; subst. inversion F2 as [|? ? L2 F2']; subst. cbn [fst snd] in L1, L2.
    assert (G : forall l, partition e b l \/ partition e2 b l -> Forall (fun m => fst (fst m) < snd (fst m)) l -> forall r, In r (matched l) -> Z.min e e2 <= fst r).
    { clear. intros l D F r Hr. unfold matched in Hr. apply in_map_iff in Hr. destruct Hr as (m & <- & Hm). apply filter_In in Hm.
      destruct D as [D|D]; apply partition_bounds in D; rewrite Forall_forall in D; specialize (D m (proj1 Hm)); lia. }
    assert (A1' : alternating l1) by (destruct l1; [exact I|apply A1]).
    assert (A2' : alternating l2) by (destruct l2; [exact I|apply A2]).
    destruct k, k2.
    + rewrite !matched_true in M. injection M as Me M. subst e2. f_equal. eapply IH; eassumption.
    + rewrite matched_true, matched_false in M.
      assert (X : In (a, e) (matched l2)) by (rewrite <- M; now left). pose proof (G l2 (or_intror P2) F2' _ X) as Y. cbn in Y. lia.
    + rewrite matched_true, matched_false in M.
      assert (X : In (a, e2) (matched l1)) by (rewrite M; now left). pose proof (G l1 (or_introl P1) F1' _ X) as Y. cbn in Y. lia.
    + rewrite !matched_false in M. assert (e = e2).
      { destruct l1 as [|[[s1 e1] k1] l1], l2 as [|[[s2 e2'] k2] l2]; cbn [partition] in P1, P2.
        - congruence.
        - subst e. destruct A2 as [A2 _]. cbn in A2. destruct A2 as [A2|A2]; [discriminate|subst]. discriminate M.
        - subst e2. destruct A1 as [A1 _]. cbn in A1. destruct A1 as [A1|A1]; [discriminate|subst]. discriminate M.
        - destruct A1 as [A1 _], A2 as [A2 _]. cbn in A1, A2. destruct A1 as [A1|A1]; [discriminate|]. destruct A2 as [A2|A2]; [discriminate|].
          subst. rewrite !matched_true in M. injection M as M1 M2 M3. lia. }
      subst e2. f_equal. eapply IH; eassumption.
Qed.

Lemma cut_positive s l : Forall (cut s) l -> Forall (fun m => fst (fst m) < snd (fst m)) l.
Proof. apply Forall_impl. intros m (H & _). exact H. Qed.

Lemma matched_ordered l : forall a b lo, partition a b l -> lo <= a -> ordered_matches lo b (matched l).
Proof.
  induction l as [|[[s e] k] l IH]; intros a b lo P H; cbn [partition] in P; [cbn; lia|].
  destruct P as (-> & H1 & P). destruct k.
  - rewrite matched_true. cbn [ordered_matches]. split; [lia|]. apply (IH e); [exact P|lia].
  - rewrite matched_false. apply (IH e); [exact P|lia].
Qed.

(** The flags of alternating chunks. *)
Fixpoint alternate (L : list chunk) : Prop :=
  match L with
  | x :: ((y :: _) as L') => (snd x = true \/ snd y = true) /\ alternate L'
  | _ => True
  end.
Lemma alternate_ranges L : forall p, alternate L -> alternating (ranges_of p L).
Proof.
  induction L as [|[c k] L IH]; intros p A; [exact I|]. destruct L as [|[c2 k2] L]; [exact I|].
  destruct A as [A1 A2]. cbn [ranges_of alternating]. split; [exact A1|]. apply (IH (p + bytes c)), A2.
Qed.

(** A regexp that finds the marked chunks. *)
Lemma regexp_chunks find L : Forall (fun x => fst x <> []) L -> alternate L -> L <> [] ->
  find (encode (chars_of L)) = matched (ranges_of 0 L) ->
  find_matches (PRegexp find) (encode (chars_of L)) = Ok (ranges_of 0 L).
Proof.
  intros F A N E. set (s := encode (chars_of L)) in *.
  assert (P : partition 0 (zlen s) (ranges_of 0 L)) by apply (ranges_partition L 0).
  assert (C : Forall (cut s) (ranges_of 0 L)) by apply (ranges_cut L []), F.
  assert (Hs : s <> []).
  { destruct L as [|[c k] L]; [congruence|]. inversion F as [|? ? Hc F']; subst. cbn in Hc. intros Es.
    pose proof (ranges_partition ((c, k) :: L) 0) as Q. fold s in Q.
    assert (bytes (chars_of ((c, k) :: L)) = 0) by (unfold bytes; fold s; rewrite Es; reflexivity).
    unfold chars_of in H. cbn [map concat fst] in H. rewrite bytes_app in H. pose proof (bytes_pos c Hc).
    pose proof (bytes_nonneg (concat (map fst L))). lia. }
  cbn [find_matches]. destruct (Nat.eqb_spec (length s) 0) as [E0|_]; [destruct s; [congruence|discriminate]|].
  assert (O : ordered_matches 0 (zlen s) (find s)) by (rewrite E; apply (matched_ordered _ 0); [exact P|lia]).
  destruct (re_matches_ok (find s) s O) as (P' & A' & M').
  f_equal. apply (matches_unique _ _ 0 (zlen s)); auto.
  - now apply alternate_ranges.
  - eapply cut_positive, re_matches_cut; [exact Hs|exact O|]. rewrite E. apply Forall_forall. intros r Hr.
    unfold matched in Hr. apply in_map_iff in Hr. destruct Hr as (m & <- & Hm). apply filter_In in Hm. destruct Hm as [Hm Hk].
    rewrite Forall_forall in C. specialize (C m Hm). destruct m as [r k]. exact C.
  - eapply cut_positive, C.
  - now rewrite M'.
Qed.

(** ** Chunks of a function *)
Fixpoint chunks (f : N -> bool) (rs : list N) : list chunk :=
  match rs with
  | [] => []
  | r :: rs' =>
      if f r then ([r], true) :: chunks f rs'
      else match chunks f rs' with
           | (c, false) :: L => (r :: c, false) :: L
           | L => ([r], false) :: L
           end
  end.
Lemma chunks_chars f rs : chars_of (chunks f rs) = rs.
Proof.
  induction rs as [|r rs IH]; [reflexivity|]. cbn [chunks]. destruct (f r).
  - unfold chars_of in *. cbn. now rewrite IH.
  - unfold chars_of in *. destruct (chunks f rs) as [|[c [|]] L]; cbn in *; now rewrite IH.
Qed.
Lemma chunks_nonempty f rs : Forall (fun x => fst x <> []) (chunks f rs).
Proof.
  induction rs as [|r rs IH]; [constructor|]. cbn [chunks]. destruct (f r); [constructor; [discriminate|exact IH]|].
  destruct (chunks f rs) as [|[c [|]] L]; inversion IH; subst; repeat constructor; auto; discriminate.
Qed.
Lemma chunks_alternate f rs : alternate (chunks f rs).
Proof.
  induction rs as [|r rs IH]; [exact I|]. cbn [chunks]. destruct (f r).
  - cbn. destruct (chunks f rs); auto.
  - destruct (chunks f rs) as [|[c [|]] L]; cbn in *; auto.
Qed.
Lemma chunks_matched f rs : forall p, matched (ranges_of p (chunks f rs)) = char_ranges f p rs.
Proof.
  induction rs as [|r rs IH]; intros p; [reflexivity|]. cbn [chunks char_ranges]. destruct (f r).
  - cbn [ranges_of]. rewrite matched_true, bytes_cons. unfold bytes at 1 2. cbn. rewrite !Z.add_0_r. now rewrite IH.
  - rewrite <- IH. destruct (chunks f rs) as [|[c [|]] L]; cbn [ranges_of]; rewrite !matched_false.
    + reflexivity.
    + rewrite !matched_true. rewrite bytes_cons. unfold bytes at 1 4. cbn. rewrite !Z.add_0_r. reflexivity.
    + rewrite bytes_cons. now rewrite Z.add_assoc.
Qed.
Lemma chunks_ne f rs : rs <> [] -> chunks f rs <> [].
Proof. intros H E. apply H. rewrite <- (chunks_chars f rs), E. reflexivity. Qed.

Lemma fn_chunks f rs : Forall scalar rs -> rs <> [] -> fn_matches f (encode rs) = ranges_of 0 (chunks f rs).
Proof.
  intros S Hne. assert (V : valid_utf8 (encode rs)) by (exists rs; auto).
  assert (Hs : encode rs <> []).
  { destruct rs as [|r rs]; [congruence|]. rewrite encode_cons. pose proof (encode_rune_nonempty r). destruct (encode_rune r); [congruence|discriminate]. }
  destruct (fn_matches_partition (encode rs) f (or_introl V)) as [P A].
  apply (matches_unique _ _ 0 (zlen (encode rs))); auto.
  - rewrite <- (chunks_chars f rs) at 1. apply (ranges_partition (chunks f rs) 0).
  - apply alternate_ranges, chunks_alternate.
  - eapply cut_positive, fn_matches_cut; assumption.
  - eapply cut_positive. apply (ranges_cut (chunks f rs) []), chunks_nonempty.
  - rewrite fn_matches_matched by assumption. symmetry. apply chunks_matched.
Qed.

(** ** The pieces in characters *)
Lemma chunks_head f r rs : exists c k L, chunks f (r :: rs) = (r :: c, k) :: L /\ k = f r.
Proof.
  cbn [chunks]. destruct (f r) eqn:E; [exists [], true, (chunks f rs); rewrite ?E; auto|].
  destruct (chunks f rs) as [|[c [|]] L]; eexists _, _, _; (split; [reflexivity|now rewrite ?E]).
Qed.
Lemma segments_head {A} (j : A -> A -> bool) r rs : exists g gs, segments j (r :: rs) = (r :: g) :: gs.
Proof.
  cbn [segments]. destruct (segments j rs) as [|[|y g] gs]; [eexists _, _; reflexivity|eexists _, _; reflexivity|].
  destruct (j r y); eexists _, _; reflexivity.
Qed.

Lemma chunk_words f rs :
  map fst (filter (fun x : chunk => negb (snd x)) (chunks f rs)) = words_of f rs /\
  forall r rs', rs = r :: rs' -> f r = false -> exists c L gs, chunks f rs = (c, false) :: L /\
    segments (fun c d => Bool.eqb (f c) (f d)) rs = c :: gs /\ Forall (fun x => f x = false) c.
Proof.
  unfold words_of. induction rs as [|r rs IH]; [split; [reflexivity|discriminate]|]. destruct IH as [IH1 IH2].
  destruct (f r) eqn:E.
  - split; [|intros ? ? [= <- <-]; congruence]. cbn [chunks]. rewrite E. cbn [filter negb snd]. rewrite IH1.
    clear IH1 IH2. cbn [segments]. destruct rs as [|d rs]; [cbn; rewrite E; reflexivity|].
    destruct (segments_head (fun c d => Bool.eqb (f c) (f d)) d rs) as (g & gs & Es). rewrite Es, E.
    destruct (f d) eqn:Ed; cbn [Bool.eqb filter].
    + unfold all_seg. cbn [forallb]. rewrite E, Ed. reflexivity.
    + assert (A : all_seg (fun c => negb (f c)) [r] = false) by (cbn; rewrite E; reflexivity). rewrite A. reflexivity.
  - destruct rs as [|d rs].
    { split; [cbn; rewrite E; reflexivity|]. intros ? ? [= <- <-] _. exists [r], [], []. cbn. rewrite E. auto. }
    destruct (segments_head (fun c d => Bool.eqb (f c) (f d)) d rs) as (g & gs & Es).
    destruct (chunks_head f d rs) as (c & k & L & Ec & Ek).
    change (chunks f (r :: d :: rs)) with (if f r then ([r], true) :: chunks f (d :: rs) else match chunks f (d :: rs) with (c, false) :: L => (r :: c, false) :: L | L => ([r], false) :: L end).
    change (segments (fun c d => Bool.eqb (f c) (f d)) (r :: d :: rs)) with
      (match segments (fun c d => Bool.eqb (f c) (f d)) (d :: rs) with (y :: g) :: gs => if Bool.eqb (f r) (f y) then (r :: y :: g) :: gs else [r] :: (y :: g) :: gs | gs => [r] :: gs end).
    rewrite E, Es in *. destruct (f d) eqn:Ed.
    + rewrite Ec, Ek in *. cbn [Bool.eqb]. cbn [filter negb snd map fst] in *. split.
      * assert (A : all_seg (fun c => negb (f c)) [r] = true) by (cbn; rewrite E; reflexivity). rewrite A. f_equal. exact IH1.
      * intros ? ? [= <- <-] _. exists [r], ((d :: c, true) :: L), ((d :: g) :: gs). split; [reflexivity|]. split; [reflexivity|].
        constructor; auto.
    + destruct (IH2 d rs eq_refl Ed) as (c' & L' & gs' & Ec' & Es' & Fc). rewrite Ec' in *. injection Es' as <- <-. cbn [Bool.eqb].
      assert (Ag : all_seg (fun c => negb (f c)) (d :: g) = true).
      { apply forallb_forall. intros x Hx. rewrite Forall_forall in Fc. now rewrite (Fc x Hx). }
      split.
      * cbn [filter negb snd map fst] in *. rewrite Ag in IH1. injection IH1 as IH1.
        assert (Ar : all_seg (fun c => negb (f c)) (r :: d :: g) = true) by (unfold all_seg in *; cbn [forallb] in *; rewrite E; exact Ag).
        rewrite Ar. f_equal. exact IH1.
      * intros ? ? [= <- <-] _. exists (r :: d :: g), L', gs. split; [reflexivity|]. split; [reflexivity|]. constructor; auto.
Qed.

Lemma chunk_stay b f rs : map chars_of (segments (fun x y : chunk => joins b (snd x) (snd y)) (chunks f rs)) = segments (stay b f) rs.
Proof.
  induction rs as [|r rs IH]; [reflexivity|]. destruct rs as [|d rs].
  { cbn. destruct (f r); reflexivity. }
  set (J := fun x y : chunk => joins b (snd x) (snd y)) in *.
  destruct (segments_head (stay b f) d rs) as (g & gs & Es).
  destruct (chunks_head f d rs) as (c & k & L & Ec & Ek).
  change (segments (stay b f) (r :: d :: rs)) with
    (match segments (stay b f) (d :: rs) with (y :: g) :: gs => if stay b f r y then (r :: y :: g) :: gs else [r] :: (y :: g) :: gs | gs => [r] :: gs end).
  change (chunks f (r :: d :: rs)) with (if f r then ([r], true) :: chunks f (d :: rs) else match chunks f (d :: rs) with (c, false) :: L => (r :: c, false) :: L | L => ([r], false) :: L end).
  rewrite Es, Ec in *. destruct (segments_head J (d :: c, k) L) as (G & GS & EG).
  rewrite EG in IH. cbn [map] in IH. injection IH as IH1 IH2.
  assert (H1 : chars_of ((d :: c, k) :: G) = d :: g) by (unfold chars_of; cbn; f_equal; exact IH1). clear IH1.
  assert (Hnew : forall k', segments J (([r], k') :: (d :: c, k) :: L) =
    if joins b k' k then (([r], k') :: (d :: c, k) :: G) :: GS else [([r], k')] :: ((d :: c, k) :: G) :: GS).
  { intros k'. change (segments J (([r], k') :: (d :: c, k) :: L)) with
      (match segments J ((d :: c, k) :: L) with (y :: g) :: gs => if J ([r], k') y then (([r], k') :: y :: g) :: gs else [([r], k')] :: (y :: g) :: gs | gs => [([r], k')] :: gs end).
    rewrite EG. reflexivity. }
  unfold stay. destruct (f r) eqn:E.
  - rewrite Hnew. cbn [negb andb orb]. rewrite <- Ek. destruct (joins b true k); cbn [map]; rewrite <- IH2, <- H1; reflexivity.
  - destruct k.
    + rewrite Hnew, <- Ek. cbn [negb andb orb]. destruct (joins b false true); cbn [map]; rewrite <- IH2, <- H1; reflexivity.
    + rewrite <- Ek. cbn [negb andb orb].
      assert (Eh : segments J ((r :: d :: c, false) :: L) = ((r :: d :: c, false) :: G) :: GS).
      { clear - EG. cbn [segments] in *. destruct (segments J L) as [|[|y g] gs].
        - injection EG as <- <-. reflexivity.
        - injection EG as <- <-. reflexivity.
        - unfold J in *. cbn [snd] in *. destruct (joins b false (snd y)); injection EG as <- <-; reflexivity. }
      rewrite Eh. cbn [map]. rewrite <- IH2, <- H1. reflexivity.
Qed.

Lemma chunk_cut_up b f rs : chunk_pieces b (chunks f rs) = cut_up b f rs.
Proof. destruct b; try apply chunk_stay. apply chunk_words. Qed.
