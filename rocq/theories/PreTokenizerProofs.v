(** Proofs about the pre-tokenizers that only cut. *)
From Verif Require Import Base BaseProofs Utf8Model Utf8Proofs PatternModel PatternSpec PatternProofs NormalizedModel NormalizedSpec
  NormalizedProofs NormalizedInvProofs NormalizedExactProofs NormalizedOpProofs BpeModel PreTokenizedModel PreTokenizedSpec
  PreTokenizerModel PreTokenizerSpec ChunkProofs.
Open Scope Z_scope.

(** ** Pieces of the original text *)
Lemma skipn_skipn' {A} (a b : nat) (l : list A) : skipn a (skipn b l) = skipn (a + b) l.
Proof.
  revert l. induction b as [|b IH]; intros l; [now rewrite Nat.add_0_r|].
  destruct l as [|x l]; [now rewrite !skipn_nil|]. rewrite Nat.add_succ_r. cbn [skipn]. apply IH.
Qed.
Lemma part_part {A} (l : list A) a b c d : 0 <= a -> 0 <= c -> c <= d -> d <= b - a ->
  part c d (part a b l) = part (a + c) (a + d) l.
Proof.
  intros. unfold part. rewrite skipn_firstn_comm, firstn_firstn, skipn_skipn'. f_equal; [lia|]. f_equal. lia.
Qed.

Lemma sits_within orig n m : sits orig n -> wf m -> ordered (ns_al m) -> valid_utf8 (ns_norm m) -> within n m -> sits orig m.
Proof.
  intros (W & O & V & S0 & S1 & E) Wm Om Vm (H1 & H2 & H3).
  pose proof (zlen_nonneg (ns_orig m)). pose proof (zlen_nonneg (ns_orig n)).
  unfold sits. do 3 (split; [assumption|]). split; [lia|]. split; [lia|].
  rewrite H3 at 1. rewrite E at 1. rewrite part_part by lia. f_equal; lia.
Qed.

Definition full (m : ns) : bool := match ns_norm m with [] => false | _ => true end.

(** A piece without text splits into pieces without text. *)
Lemma slice_nothing n : ns_norm n = [] -> exists m, ns_slice n (Rng 0 0 OnNormalized) = Ok (Some m) /\ ns_norm m = [].
Proof.
  intros E. unfold ns_slice, validate_range. cbn [r_on]. rewrite E. cbn.
  unfold convert_offset. cbn [r_on r_start r_end into_full_range]. try rewrite E. cbn.
  unfold ns_range_original, ns_range. cbn. unfold convert_offset. cbn. try rewrite E. cbn.
  assert (Z0 : forall A (l : list A), zslice l 0 0 = Ok []).
  { intros A l. pose proof (zlen_nonneg l); rewrite zslice_eq by lia; reflexivity. }
  rewrite !Z0. cbn. rewrite ?Z0. cbn. eexists. split; [reflexivity|]. reflexivity.
Qed.
Lemma split_nothing n p b k : ns_norm n = [] -> find_matches p [] = Ok [((0, 0), k)] ->
  exists ps, ns_split n p b = Ok ps /\ Forall (fun m => ns_norm m = []) ps.
Proof.
  intros E F. unfold ns_split. rewrite E, F. cbn [bind]. rewrite split_slices.
  assert (D : piece_ranges b [((0, 0), k)] = [(0, 0)] \/ piece_ranges b [((0, 0), k)] = []).
  { destruct b, k; cbn; auto. }
  destruct (slice_nothing n E) as (m & Es & Em).
  destruct D as [-> | ->]; cbn [map keep slices]; [|exists []; auto]. rewrite Es. cbn. exists [m]. auto.
Qed.

Lemma chunk_pieces_chars (P : N -> Prop) b L : Forall P (chars_of L) -> Forall (Forall P) (chunk_pieces b L).
Proof.
  intros F. assert (A : forall L' : list chunk, incl L' L -> Forall P (chars_of L')).
  { intros L' I. unfold chars_of in *. apply Forall_concat, Forall_map, Forall_forall. intros x Hx. apply I in Hx.
    rewrite Forall_forall in F |- *. intros c Hc. apply F. apply in_concat. exists (fst x).
    split; [now apply in_map|assumption]. }
  assert (C : forall j, Forall (Forall P) (map chars_of (segments j L))).
  { intros j. apply Forall_map, Forall_forall. intros g Hg. apply A. intros x Hx. rewrite <- (segments_concat j L).
    apply in_concat. eauto. }
  destruct b; try apply C. cbn [chunk_pieces]. apply Forall_map, Forall_forall. intros x Hx. apply filter_In in Hx.
  pose proof (A [x]) as Ax. unfold chars_of in Ax. cbn in Ax. rewrite app_nil_r in Ax. apply Ax. intros y [<-|[]]. apply Hx.
Qed.
Lemma chunk_pieces_nonempty b L : Forall (fun x => fst x <> []) L -> Forall (fun c => c <> []) (chunk_pieces b L).
Proof.
  intros F.
  assert (C : forall j, Forall (fun c => c <> []) (map chars_of (segments j L))).
  { intros j. apply Forall_map. pose proof (segments_nonempty j L) as Ne. pose proof (segments_concat j L) as E.
    apply Forall_forall. intros g Hg. rewrite Forall_forall in Ne, F. specialize (Ne g Hg). destruct g as [|x g]; [congruence|].
    assert (X : fst x <> []). { apply F. rewrite <- E. apply in_concat. exists (x :: g). split; [assumption|now left]. }
    unfold chars_of. cbn. destruct (fst x); [congruence|discriminate]. }
  destruct b; try apply C. cbn [chunk_pieces]. apply Forall_map, Forall_forall. intros x Hx. apply filter_In in Hx.
  rewrite Forall_forall in F. apply F, Hx.
Qed.
Lemma encode_nil_inv c : encode c = [] -> c = [].
Proof.
  destruct c as [|r c]; [reflexivity|]. rewrite encode_cons. pose proof (encode_rune_nonempty r). destruct (encode_rune r); [congruence|discriminate].
Qed.

(** What a splitting of one piece does. *)
Definition makes orig (ps : list ns) (texts : list (list N)) : Prop :=
  map ns_norm (filter full ps) = map encode texts /\ Forall (sits orig) (filter full ps) /\ Forall (fun c => c <> []) texts.

Lemma makes_none orig ps : Forall (fun m => ns_norm m = []) ps -> makes orig ps [].
Proof.
  intros F. assert (E : filter full ps = []).
  { induction F as [|m ps Hm F IH]; [reflexivity|]. cbn. unfold full at 1. rewrite Hm. exact IH. }
  unfold makes. rewrite E. repeat split; constructor.
Qed.
Lemma filter_all {A} (f : A -> bool) l : Forall (fun x => f x = true) l -> filter f l = l.
Proof. induction 1 as [|x l Hx F IH]; [reflexivity|]. cbn. now rewrite Hx, IH. Qed.

Lemma split_makes orig n p b L : sits orig n -> ns_norm n = encode (chars_of L) -> Forall scalar (chars_of L) ->
  Forall (fun x => fst x <> []) L -> (exists k, find_matches p [] = Ok [((0, 0), k)]) ->
  (L <> [] -> find_matches p (encode (chars_of L)) = Ok (ranges_of 0 L)) ->
  exists ps, ns_split n p b = Ok ps /\ makes orig ps (chunk_pieces b L) /\ (ns_norm n <> [] -> Forall (fun m => ns_norm m <> []) ps).
Proof.
  intros Sn En Sc F (k & E0) E1. destruct L as [|x L].
  - cbn in En. destruct (split_nothing n p b k En E0) as (ps & Eps & Fp). exists ps. split; [exact Eps|].
    split; [|congruence]. assert (X : chunk_pieces b [] = []) by (destruct b; reflexivity). rewrite X. now apply makes_none.
  - assert (Sn' := Sn). destruct Sn' as (W & O & V & _).
    destruct (split_chunks n p b (x :: L) W O En F) as (ps & Eps & Et & Fp).
    { rewrite En. apply E1. discriminate. }
    exists ps. split; [exact Eps|].
    pose proof (chunk_pieces_chars scalar b (x :: L) Sc) as Cs. pose proof (chunk_pieces_nonempty b (x :: L) F) as Cn.
    assert (Ne : Forall (fun m => ns_norm m <> []) ps).
    { apply Forall_forall. intros m Hm X. apply (in_map ns_norm) in Hm. rewrite Et, X in Hm. apply in_map_iff in Hm.
      destruct Hm as (c & Ec & Hc). apply encode_nil_inv in Ec. rewrite Forall_forall in Cn. now apply (Cn c). }
    split; [|auto]. unfold makes. rewrite filter_all.
    2:{ eapply Forall_impl; [|exact Ne]. intros m. unfold full. cbn. destruct (ns_norm m); congruence. }
    split; [exact Et|]. split; [|exact Cn]. apply Forall_forall. intros m Hm. rewrite Forall_forall in Fp. destruct (Fp m Hm) as (Wm & Om & Im).
    apply (sits_within orig n); auto. apply (in_map ns_norm) in Hm. rewrite Et in Hm. apply in_map_iff in Hm.
    destruct Hm as (c & Ec & Hc). exists c. split; [|auto]. rewrite Forall_forall in Cs. now apply Cs.
Qed.

(** ** Lifting to pre-tokenized strings *)
Definition cutter (f : nat -> ns -> res (list split)) (g : list N -> list (list N)) : Prop :=
  forall orig i n, sits orig n -> exists ps, f i n = Ok (untokenized ps) /\ makes orig ps (g (runes (ns_norm n))).

Lemma pt_split_cutter f g p : cutter f g -> all_sit p ->
  exists p', pt_split f p = Ok p' /\ all_sit p' /\ repieced g p p'.
Proof.
  intros C A. unfold all_sit in A. unfold pt_split.
  assert (G : forall l i, Forall (fun sp => has_toks sp = false -> sits (pt_orig p) (sp_ns sp)) l ->
    exists news, split_pieces f i l = Ok (concat news) /\ Forall2 (recut g) l news /\
      Forall (fun sp => has_toks sp = false -> sits (pt_orig p) (sp_ns sp)) (concat news)).
  { intros l. induction l as [|sp l IH]; intros i F; [exists []; repeat split; constructor|].
    inversion F as [|? ? Hs F']; subst. destruct (IH (S i) F') as (news & En & Fn & Sn). cbn [split_pieces].
    unfold has_toks in Hs. destruct (sp_toks sp) as [t|] eqn:Et.
    - rewrite En. cbn [bind]. exists ([sp] :: news). split; [reflexivity|]. split.
      + constructor; [|exact Fn]. unfold recut, has_toks. now rewrite Et.
      + cbn. constructor; [|exact Sn]. unfold has_toks. rewrite Et. discriminate.
    - destruct (C (pt_orig p) i (sp_ns sp) (Hs eq_refl)) as (ps & Ef & Mt & Ms & _). rewrite Ef. cbn [bind]. rewrite En. cbn [bind].
      assert (Ek : filter (fun x : split => match ns_norm (sp_ns x) with [] => false | _ => true end) (untokenized ps) = untokenized (filter full ps)).
      { clear. unfold untokenized. induction ps as [|m ps IH]; [reflexivity|]. cbn. unfold full at 1. destruct (ns_norm m); cbn; now rewrite IH. }
      rewrite Ek. exists (untokenized (filter full ps) :: news). split; [reflexivity|]. split.
      + constructor; [|exact Fn]. unfold recut, has_toks. rewrite Et. split.
        * unfold untokenized. rewrite map_map. unfold sp_text. cbn. exact Mt.
        * unfold untokenized. apply Forall_map, Forall_forall. reflexivity.
      + cbn. apply Forall_app. split; [|exact Sn]. unfold untokenized. apply Forall_map. cbn. eapply Forall_impl; [|exact Ms]. auto. }
  destruct (G (pt_splits p) 0%nat A) as (news & En & Fn & Sn). rewrite En. cbn [bind]. eexists. split; [reflexivity|].
  split; [exact Sn|]. split; [reflexivity|]. exists news. auto.
Qed.

(** ** Function patterns *)
Lemma split_fn orig n f b : sits orig n ->
  exists ps, ns_split n (PFn f) b = Ok ps /\ makes orig ps (cut_up b f (runes (ns_norm n))) /\
    (ns_norm n <> [] -> Forall (fun m => ns_norm m <> []) ps).
Proof.
  intros Sn. assert (V := Sn). destruct V as (_ & _ & (rs & Sc & E) & _).
  rewrite E, runes_encode by assumption. rewrite <- chunk_cut_up. rewrite <- E.
  apply split_makes; auto; rewrite ?chunks_chars; auto using chunks_nonempty.
  - exists false. reflexivity.
  - intros H. cbn [find_matches]. f_equal. apply fn_chunks; [assumption|]. intros ->. now apply H.
Qed.
Lemma cutter_fn f b : cutter (split_by (PFn f) b) (cut_up b f).
Proof.
  intros orig i n Sn. destruct (split_fn orig n f b Sn) as (ps & E & M & _). exists ps. unfold split_by. rewrite E. auto.
Qed.
Lemma cutter_rune d : cutter (split_by (PRune d) Removed) (words_of (fun c => (c =? d)%N)).
Proof. exact (cutter_fn (fun c => (c =? d)%N) Removed). Qed.

(** ** Runs of classes *)
Definition class_chunks (cls : N -> nat) (rs : list N) : list chunk :=
  map (fun g => (g, match g with c :: _ => negb (cls c =? 0)%nat | [] => false end)) (segments (fun c d => cls c =? cls d)%nat rs).

Lemma class_chunks_chars cls rs : chars_of (class_chunks cls rs) = rs.
Proof. unfold chars_of, class_chunks. rewrite map_map. cbn. rewrite map_id. apply segments_concat. Qed.
Lemma class_chunks_nonempty cls rs : Forall (fun x => fst x <> []) (class_chunks cls rs).
Proof. apply Forall_map. cbn. apply segments_nonempty. Qed.
Lemma segments_cons {A} (j : A -> A -> bool) x y l g gs : segments j (y :: l) = (y :: g) :: gs ->
  segments j (x :: y :: l) = if j x y then (x :: y :: g) :: gs else [x] :: (y :: g) :: gs.
Proof.
  intros E. change (segments j (x :: y :: l)) with
    (match segments j (y :: l) with (y :: g) :: gs => if j x y then (x :: y :: g) :: gs else [x] :: (y :: g) :: gs | gs => [x] :: gs end).
  now rewrite E.
Qed.
Lemma segments_same {A B} (cls : A -> B) (eqb : B -> B -> bool) (Eqb : forall x y, eqb x y = true -> x = y) l :
  Forall (fun g => forall x, hd_error g = Some x -> Forall (fun y => cls y = cls x) g) (segments (fun c d => eqb (cls c) (cls d)) l).
Proof.
  induction l as [|x l IH]; [constructor|]. destruct l as [|y l].
  - cbn. constructor; [|constructor]. intros z [= <-]. repeat constructor.
  - destruct (segments_head (fun c d => eqb (cls c) (cls d)) y l) as (g & gs & E).
    rewrite (segments_cons _ x y l g gs E). rewrite E in IH. inversion IH as [|? ? Hg Hgs]; subst.
    destruct (eqb (cls x) (cls y)) eqn:D.
    + constructor; [|assumption]. intros z [= <-]. constructor; [reflexivity|]. apply Eqb in D. specialize (Hg y eq_refl).
      eapply Forall_impl; [|exact Hg]. cbn. congruence.
    + constructor; [|assumption]. intros z [= <-]. repeat constructor.
Qed.
Lemma class_chunks_alternate cls rs : alternate (class_chunks cls rs).
Proof.
  unfold class_chunks. induction rs as [|c rs IH]; [exact I|]. destruct rs as [|d rs]; [exact I|].
  destruct (segments_head (fun c d => cls c =? cls d)%nat d rs) as (g & gs & E).
  rewrite (segments_cons _ c d rs g gs E). rewrite E in IH. cbn [map] in IH.
  destruct (Nat.eqb_spec (cls c) (cls d)) as [D|D].
  - cbn [map] in *. destruct (map _ gs) as [|y ys]; [exact I|]. cbn [alternate snd] in *. now rewrite D.
  - cbn [map]. split; [|exact IH]. cbn. destruct (cls c), (cls d); cbn; auto.
Qed.

Lemma segments_run {A} (j : A -> A -> bool) g c l gs g' : Forall (fun _ => True) g -> g <> [] ->
  (forall x y, In x g -> In y g -> j x y = true) -> (forall x, In x g -> j x c = false) ->
  segments j (c :: l) = (c :: g') :: gs -> segments j (g ++ c :: l) = g :: (c :: g') :: gs.
Proof.
  intros _ Hg H1 H2 E. induction g as [|x g IH]; [congruence|]. destruct g as [|y g].
  - cbn [app]. rewrite (segments_cons _ _ _ _ _ _ E), H2 by now left. reflexivity.
  - assert (E' : segments j (y :: (g ++ c :: l)) = (y :: g) :: (c :: g') :: gs).
    { apply IH; [discriminate| |]; intros; [apply H1|apply H2]; now right. }
    change ((x :: y :: g) ++ c :: l) with (x :: y :: (g ++ c :: l)).
    rewrite (segments_cons _ _ _ _ _ _ E'), H1; [reflexivity|now left|right; now left].
Qed.
Lemma segments_one {A} (j : A -> A -> bool) g : g <> [] -> (forall x y, In x g -> In y g -> j x y = true) -> segments j g = [g].
Proof.
  intros Hg H1. induction g as [|x g IH]; [congruence|]. destruct g as [|y g]; [reflexivity|].
  assert (E' : segments j (y :: g) = [y :: g]) by (apply IH; [discriminate|intros; apply H1; now right]).
  rewrite (segments_cons _ _ _ _ _ _ E'), H1; [reflexivity|now left|right; now left].
Qed.

Notation widths := (map (fun r => (r, length (encode_rune r)))).
Lemma bytes_snoc g r : bytes (g ++ [r]) = bytes g + zlen (encode_rune r).
Proof. rewrite bytes_app, bytes_cons. unfold bytes at 2. cbn. lia. Qed.

Lemma class_runs_open cls rs : forall g cur start, g <> [] -> Forall (fun c => cls c = cur) g ->
  class_runs cls (widths rs) (start + bytes g) start cur = matched (ranges_of start (class_chunks cls (g ++ rs))).
Proof.
  induction rs as [|r rs IH]; intros g cur start Hg Fg; rewrite Forall_forall in Fg.
  - cbn [map class_runs]. rewrite app_nil_r. unfold class_chunks. rewrite segments_one; [|exact Hg|].
    2:{ intros x y Hx Hy. rewrite (Fg x Hx), (Fg y Hy). apply Nat.eqb_refl. }
    destruct g as [|c g]; [congruence|]. cbn [map ranges_of]. rewrite (Fg c) by now left.
    destruct (Nat.eqb_spec cur 0); cbn [negb]; [rewrite matched_false|rewrite matched_true]; reflexivity.
  - cbn [map class_runs].
    replace (start + bytes g + Z.of_nat (length (encode_rune r))) with (start + bytes (g ++ [r])) by (rewrite bytes_snoc; unfold zlen; lia).
    destruct (Nat.eqb_spec (cls r) cur) as [D|D].
    + rewrite IH; [|destruct g; discriminate|]. { now rewrite <- app_assoc. }
      apply Forall_app. split; [now apply Forall_forall|now repeat constructor].
    + assert (E1 : class_chunks cls (g ++ r :: rs) = (g, negb (cur =? 0)%nat) :: class_chunks cls (r :: rs)).
      { unfold class_chunks. destruct (segments_head (fun c d => cls c =? cls d)%nat r rs) as (g' & gs & E).
        rewrite (segments_run _ g r rs gs g'); auto.
        - rewrite E. cbn [map]. f_equal. destruct g as [|c g]; [congruence|]. now rewrite (Fg c) by now left.
        - now apply Forall_forall.
        - intros x y Hx Hy. rewrite (Fg x Hx), (Fg y Hy). apply Nat.eqb_refl.
        - intros x Hx. rewrite (Fg x Hx). apply Nat.eqb_neq. congruence. }
      rewrite E1. cbn [ranges_of].
      replace (start + bytes (g ++ [r])) with (start + bytes g + bytes [r]) by (rewrite bytes_app; lia).
      rewrite (IH [r] (cls r)); [|discriminate|now repeat constructor]. cbn [app].
      destruct (cur =? 0)%nat; cbn [negb]; [now rewrite matched_false|now rewrite matched_true].
Qed.
Lemma find_runs_chunks cls rs : Forall scalar rs -> find_runs cls (encode rs) = matched (ranges_of 0 (class_chunks cls rs)).
Proof.
  intros Sc. unfold find_runs. rewrite runes_w_encode by assumption. destruct rs as [|r rs]; [reflexivity|].
  pose proof (class_runs_open cls rs [r] (cls r) 0 ltac:(discriminate) ltac:(now repeat constructor)) as H. cbn [app] in H.
  rewrite <- H. clear H. cbn [map class_runs]. rewrite bytes_cons. unfold bytes. cbn [encode map concat]. change (zlen (@nil N)) with 0.
  rewrite !Z.add_0_r. cbn [Nat.eqb]. destruct (Nat.eqb_spec (cls r) 0) as [->|_]; reflexivity.
Qed.
Lemma regexp_class cls rs : Forall scalar rs -> rs <> [] ->
  find_matches (PRegexp (find_runs cls)) (encode rs) = Ok (ranges_of 0 (class_chunks cls rs)).
Proof.
  intros Sc Hne. rewrite <- (class_chunks_chars cls rs) at 1. apply regexp_chunks.
  - apply class_chunks_nonempty.
  - apply class_chunks_alternate.
  - intros E. apply Hne. rewrite <- (class_chunks_chars cls rs), E. reflexivity.
  - rewrite class_chunks_chars. now apply find_runs_chunks.
Qed.
Definition flip (L : list chunk) : list chunk := map (fun x => (fst x, negb (snd x))) L.
Lemma flip_ranges L : forall p, invert (ranges_of p L) = ranges_of p (flip L).
Proof. induction L as [|[c k] L IH]; intros p; [reflexivity|]. cbn. f_equal. apply IH. Qed.
Lemma flip_chars L : chars_of (flip L) = chars_of L.
Proof. unfold chars_of, flip. now rewrite map_map. Qed.
Lemma regexp_class_inverted cls rs : Forall scalar rs -> rs <> [] ->
  find_matches (PInvert (PRegexp (find_runs cls))) (encode rs) = Ok (ranges_of 0 (flip (class_chunks cls rs))).
Proof.
  intros Sc Hne. pose proof (regexp_class cls rs Sc Hne) as H. cbn [find_matches] in *. rewrite H. cbn [bind]. now rewrite flip_ranges.
Qed.

(** The kept runs. *)
Lemma class_kept cls (P : N -> bool) rs (keep : nat -> bool) : (forall c, keep (cls c) = P c) ->
  map fst (filter (fun x : chunk => snd x) (map (fun g => (g, match g with c :: _ => keep (cls c) | [] => false end)) (segments (fun c d => cls c =? cls d)%nat rs)))
  = filter (all_seg P) (segments (fun c d => cls c =? cls d)%nat rs).
Proof.
  intros K. pose proof (segments_same cls Nat.eqb (fun x y => proj1 (Nat.eqb_eq x y)) rs) as Sm. pose proof (segments_nonempty (fun c d => cls c =? cls d)%nat rs) as Ne.
  induction (segments _ rs) as [|g gs IH]; [reflexivity|]. inversion Sm as [|? ? Hg Hgs]; subst. inversion Ne as [|? ? Ng Ngs]; subst.
  cbn [map filter snd]. destruct g as [|c g]; [congruence|]. specialize (Hg c eq_refl).
  assert (E : all_seg P (c :: g) = keep (cls c)).
  { unfold all_seg. destruct (keep (cls c)) eqn:Ec.
    - apply forallb_forall. intros x Hx. rewrite Forall_forall in Hg. rewrite <- K, (Hg x Hx). exact Ec.
    - cbn [forallb]. rewrite <- K, Ec. reflexivity. }
  rewrite E. destruct (keep (cls c)); cbn [map fst]; rewrite IH by assumption; reflexivity.
Qed.
Lemma segments_ext {A} (j j' : A -> A -> bool) l : (forall x y, j x y = j' x y) -> segments j l = segments j' l.
Proof. intros H. induction l as [|x l IH]; [reflexivity|]. cbn [segments]. rewrite IH. destruct (segments j' l) as [|[|y g] gs]; auto. now rewrite H. Qed.

Lemma filter_map_flag (k k' : list N -> bool) gs : (forall g, k' g = negb (k g)) ->
  map fst (filter (fun x : chunk => negb (snd x)) (map (fun g => (g, k g)) gs)) = map fst (filter (fun x : chunk => snd x) (map (fun g => (g, k' g)) gs)).
Proof. intros H. induction gs as [|g gs IH]; [reflexivity|]. cbn. rewrite H. destruct (k g); cbn; now rewrite IH. Qed.

Lemma spaces_pieces rs : chunk_pieces Removed (class_chunks (fun c => if re_space c then 1 else 0)%nat rs) = words_of re_space rs.
Proof.
  cbn [chunk_pieces]. set (cls := fun c => if re_space c then 1%nat else 0%nat).
  assert (E : class_chunks cls rs = map (fun g => (g, match g with c :: _ => negb (cls c =? 0)%nat | [] => false end)) (segments (fun c d => cls c =? cls d)%nat rs)) by reflexivity.
  rewrite E. clear E.
  transitivity (map fst (filter (fun x : chunk => snd x) (map (fun g => (g, match g with c :: _ => (cls c =? 0)%nat | [] => false end)) (segments (fun c d => cls c =? cls d)%nat rs)))).
  { pose proof (segments_nonempty (fun c d => cls c =? cls d)%nat rs) as Ne. induction (segments _ rs) as [|g gs IH]; [reflexivity|].
    inversion Ne as [|? ? Ng Ngs]; subst. cbn [map filter snd]. destruct g as [|c g]; [congruence|]. rewrite negb_involutive.
    destruct (cls c =? 0)%nat; cbn [map fst]; now rewrite IH. }
  rewrite (class_kept cls (fun c => negb (re_space c)) rs (fun k => (k =? 0)%nat)).
  - unfold words_of. f_equal. apply segments_ext. intros x y. unfold cls. destruct (re_space x), (re_space y); reflexivity.
  - intros c. unfold cls. destruct (re_space c); reflexivity.
Qed.
Lemma word_not_space c : re_word c = true -> re_space c = false.
Proof.
  unfold re_word, re_space. intros H. destruct (re_space c) eqn:E; unfold re_space in E; [|exact E].
  assert (D : (c = 9 \/ c = 10 \/ c = 12 \/ c = 13 \/ c = 32)%N).
  { rewrite !orb_true_iff, !N.eqb_eq in E. intuition. }
  destruct D as [->|[->|[->|[->| ->]]]]; discriminate.
Qed.
Lemma words_pieces rs : chunk_pieces Removed (flip (class_chunks word_class rs)) = whitespace_pieces rs.
Proof.
  cbn [chunk_pieces]. unfold whitespace_pieces. rewrite <- (class_kept word_class (fun c => negb (re_space c)) rs (fun k => negb (k =? 0)%nat)).
  - unfold flip, class_chunks. induction (segments _ rs) as [|g gs IH]; [reflexivity|]. cbn [map filter fst snd]. rewrite negb_involutive.
    destruct (match g with c :: _ => negb (word_class c =? 0)%nat | [] => false end); cbn [map fst]; now rewrite IH.
  - intros c. unfold word_class. destruct (re_word c) eqn:E; [now rewrite (word_not_space c E)|]. destruct (re_space c); reflexivity.
Qed.

Lemma split_spaces orig n : sits orig n ->
  exists ps, ns_split n (PRegexp find_spaces) Removed = Ok ps /\ makes orig ps (words_of re_space (runes (ns_norm n))) /\
    (ns_norm n <> [] -> Forall (fun m => ns_norm m <> []) ps).
Proof.
  intros Sn. assert (V := Sn). destruct V as (_ & _ & (rs & Sc & E) & _).
  rewrite E, runes_encode by assumption. rewrite <- spaces_pieces, <- E.
  apply split_makes; auto; rewrite ?class_chunks_chars; auto using class_chunks_nonempty.
  - exists false. reflexivity.
  - intros H. apply regexp_class; [assumption|]. intros ->. now apply H.
Qed.
Lemma cutter_whitespace : cutter (split_by (PInvert (PRegexp find_words)) Removed) whitespace_pieces.
Proof.
  intros orig i n Sn. assert (V := Sn). destruct V as (_ & _ & (rs & Sc & E) & _).
  rewrite E, runes_encode by assumption. rewrite <- words_pieces.
  destruct (split_makes orig n (PInvert (PRegexp find_words)) Removed (flip (class_chunks word_class rs)) Sn) as (ps & Es & M & _).
  - now rewrite flip_chars, class_chunks_chars.
  - now rewrite flip_chars, class_chunks_chars.
  - unfold flip. apply Forall_map. cbn. apply class_chunks_nonempty.
  - exists true. reflexivity.
  - intros H. rewrite flip_chars, class_chunks_chars. apply (regexp_class_inverted word_class); [assumption|]. intros ->. now apply H.
  - exists ps. unfold split_by. rewrite Es. auto.
Qed.

(** ** Splitting twice *)
Lemma segments_chars {A} (P : A -> Prop) (j : A -> A -> bool) f rs : Forall P rs -> Forall (Forall P) (filter f (segments j rs)).
Proof.
  intros F. apply Forall_forall. intros g Hg. apply filter_In in Hg. apply Forall_forall. intros x Hx. rewrite Forall_forall in F. apply F.
  rewrite <- (segments_concat j rs). apply in_concat. exists g. split; [apply Hg|exact Hx].
Qed.
Lemma cutter_bert u : cutter (bert_split u) (bert_pieces u).
Proof.
  intros orig i n Sn. destruct (split_spaces orig n Sn) as (subs & Es & (Mt & Ms & _) & Ne). unfold bert_split. rewrite Es. cbn [bind].
  unfold bert_pieces. set (ws := words_of re_space (runes (ns_norm n))) in *.
  assert (Sw : Forall (Forall scalar) ws) by apply segments_chars, runes_scalar. clearbody ws.
  assert (G : forall ws, Forall (fun m => full m = true -> sits orig m) subs -> map ns_norm (filter full subs) = map encode ws -> Forall (Forall scalar) ws ->
    exists pss, mapR (fun m => ns_split m (PFn (is_punct u)) Isolated) subs = Ok pss /\ makes orig (concat pss) (flat_map (cut_up Isolated (is_punct u)) ws)).
  { clear. induction subs as [|m subs IH]; intros ws F E Sc.
    - destruct ws; [|discriminate]. exists []. split; [reflexivity|]. apply makes_none. constructor.
    - inversion F as [|? ? Hm F']; subst. cbn [mapR]. destruct (full m) eqn:Em.
      + cbn [filter] in E. rewrite Em in E. destruct ws as [|w ws]; [discriminate|]. cbn [map] in E. injection E as Ew E.
        inversion Sc as [|? ? Sw Sc']; subst.
        destruct (split_fn orig m (is_punct u) Isolated (Hm eq_refl)) as (ps & Eps & (M1 & M2 & M3) & _). rewrite Eps. cbn [bind].
        destruct (IH ws F' E Sc') as (pss & Epss & N1 & N2 & N3). rewrite Epss. cbn [bind]. exists (ps :: pss). split; [reflexivity|].
        rewrite Ew, runes_encode in M1, M3 by assumption.
        cbn [concat flat_map]. unfold makes. rewrite filter_app, !map_app, M1, N1. split; [reflexivity|].
        split; apply Forall_app; auto.
      + cbn [filter] in E. rewrite Em in E.
        assert (En : ns_norm m = []) by (unfold full in Em; destruct (ns_norm m); [reflexivity|discriminate]).
        destruct (split_nothing m (PFn (is_punct u)) Isolated false En eq_refl) as (ps & Eps & Fp). rewrite Eps. cbn [bind].
        destruct (IH ws F' E Sc) as (pss & Epss & N1 & N2 & N3). rewrite Epss. cbn [bind]. exists (ps :: pss). split; [reflexivity|].
        destruct (makes_none orig ps Fp) as (M1 & M2 & _). cbn [concat]. unfold makes. rewrite filter_app, !map_app, M1, N1.
        split; [reflexivity|]. split; [apply Forall_app; auto|assumption]. }
  destruct (G ws) as (pss & Epss & M).
  - apply Forall_forall. intros m Hm Hf. rewrite Forall_forall in Ms. apply Ms, filter_In. auto.
  - exact Mt.
  - exact Sw.
  - rewrite Epss. cbn [bind]. eauto.
Qed.

(** ** Scripts *)
Fixpoint starts (p : Z) (gs : list (list N)) : list Z :=
  match gs with
  | [] => []
  | g :: gs' => p :: starts (p + bytes g) gs'
  end.
Definition same_script (x y : N * str) : bool := str_eqb (snd x) (snd y).
Lemma script_starts_runs sc rs : forall last off, last <> ANY ->
  script_starts sc rs last off =
  match segments same_script (carried sc last rs) with
  | [] => []
  | g :: gs => (match g with (_, s) :: _ => if str_eqb s last then [] else [off] | [] => [] end) ++ starts (off + bytes (map fst g)) (map (map fst) gs)
  end.
Proof.
  induction rs as [|r rs IH]; intros last off Hl; [reflexivity|]. cbn [script_starts carried].
  set (s := if str_eqb (sc r) ANY then last else sc r).
  assert (Hs : s <> ANY). { unfold s. destruct (str_eqb (sc r) ANY) eqn:E; [exact Hl|]. intros X. rewrite X, str_eqb_refl in E. discriminate. }
  assert (Hh : (negb (str_eqb (sc r) ANY) && negb (str_eqb last ANY) && negb (str_eqb last (sc r)))%bool = negb (str_eqb s last)).
  { rewrite (proj2 (str_eqb_neq last ANY)) by exact Hl. unfold s. destruct (str_eqb (sc r) ANY); cbn; [now rewrite str_eqb_refl|].
    f_equal. destruct (str_eqb last (sc r)) eqn:E.
    - apply str_eqb_eq in E. rewrite E. now rewrite str_eqb_refl.
    - symmetry. apply str_eqb_neq. intros X. rewrite X, str_eqb_refl in E. discriminate. }
  rewrite Hh, (IH s) by exact Hs. clear IH Hh. destruct rs as [|d rs].
  - cbn [carried segments map starts]. rewrite app_nil_r. destruct (str_eqb s last); reflexivity.
  - cbn [carried]. set (s2 := if str_eqb (sc d) ANY then s else sc d).
    destruct (segments_head same_script (d, s2) (carried sc s2 rs)) as (g & gs & E).
    rewrite (segments_cons same_script (r, s) (d, s2) _ g gs E), E. unfold same_script at 1. cbn [snd].
    assert (Q : str_eqb s2 s = str_eqb s s2).
    { destruct (str_eqb s s2) eqn:X; [apply str_eqb_eq in X; rewrite X; apply str_eqb_refl|]. apply str_eqb_neq. intros Y. rewrite Y, str_eqb_refl in X. discriminate. }
    rewrite Q. destruct (str_eqb s s2).
    + cbn [map fst]. rewrite (bytes_cons r). cbn [app]. rewrite Z.add_assoc. destruct (str_eqb s last); reflexivity.
    + cbn [map fst]. rewrite (bytes_cons r []). change (bytes []) with 0. rewrite Z.add_0_r.
      destruct (str_eqb s last); reflexivity.
Qed.

Lemma windows_ok n gs : forall pre, wf n -> ordered (ns_al n) -> ns_norm n = encode (pre ++ concat gs) -> Forall (fun g => g <> []) gs ->
  exists ps, windows n (starts (bytes pre) gs ++ [zlen (ns_norm n)]) = Ok ps /\ map ns_norm ps = map encode gs /\
    Forall (fun m => wf m /\ ordered (ns_al m) /\ within n m) ps.
Proof.
  induction gs as [|g gs IH]; intros pre W O E F; [exists []; repeat split; constructor|].
  inversion F as [|? ? Hg F']; subst. cbn [concat] in E. rewrite app_assoc in E.
  destruct (IH (pre ++ g) W O E F') as (ps & Eps & Ep & Fp). rewrite bytes_app in Eps.
  assert (Eh : exists l, starts (bytes pre + bytes g) gs ++ [zlen (ns_norm n)] = (bytes pre + bytes g) :: l).
  { destruct gs as [|g2 gs]; [|eexists; reflexivity]. exists []. cbn. cbn in E. rewrite app_nil_r in E. rewrite E. f_equal.
    rewrite <- bytes_app. reflexivity. }
  destruct Eh as (l & Eh). cbn [starts app windows]. rewrite Eh in *.
  pose proof (bytes_pos g Hg). pose proof (bytes_nonneg pre). pose proof (bytes_nonneg (concat gs)).
  assert (Ll : zlen (ns_norm n) = bytes pre + bytes g + bytes (concat gs)) by (rewrite E, !encode_app, !zlen_app; reflexivity).
  assert (B1 : boundary (ns_norm n) (bytes pre)) by (rewrite E, <- app_assoc; apply char_pos_boundary, char_pos_app).
  assert (B2 : boundary (ns_norm n) (bytes pre + bytes g)) by (rewrite E, <- bytes_app; apply char_pos_boundary, char_pos_app).
  destruct (slice_normalized n (bytes pre) (bytes pre + bytes g) W O) as (a' & b' & m & Ec & Es & Em & Eo & _ & Esh & Wm & Om); [lia|lia|lia|assumption|assumption|].
  destruct (convert_normalized_inside n (bytes pre) (bytes pre + bytes g) W O) as (a2 & b2 & Ec2 & A1 & A2 & A3 & _); [lia|lia|lia|].
  rewrite Ec in Ec2. injection Ec2 as <- <-.
  rewrite Es. cbn [bind]. rewrite Eps. cbn [bind]. exists (m :: ps). split; [reflexivity|]. split.
  - cbn [map]. rewrite Ep, Em. f_equal. rewrite E, <- app_assoc, !encode_app. apply part_mid; unfold bytes; lia.
  - constructor; [|exact Fp]. split; [exact Wm|]. split; [exact Om|].
    assert (L : zlen (ns_orig m) = b' - a') by (rewrite Eo; now apply part_length).
    unfold within. rewrite L, Esh. split; [lia|]. split; [lia|]. rewrite Eo. f_equal; lia.
Qed.

Lemma carried_fst sc rs : forall last, map fst (carried sc last rs) = rs.
Proof. induction rs as [|r rs IH]; intros last; [reflexivity|]. cbn. f_equal. apply IH. Qed.

Lemma cutter_script u : cutter (script_split u) (script_pieces (fixed_script u)).
Proof.
  intros orig i n Sn. assert (V := Sn). destruct V as (W & O & (rs & Sc & E) & _).
  unfold script_split. rewrite E, runes_encode by assumption. rewrite <- E.
  rewrite script_starts_runs by discriminate. set (sc := fixed_script u).
  assert (C : concat (map (map fst) (script_runs sc rs)) = rs).
  { rewrite <- concat_map. unfold script_runs. rewrite segments_concat. apply carried_fst. }
  assert (Ne : Forall (fun g => g <> []) (map (map fst) (script_runs sc rs))).
  { apply Forall_map. eapply Forall_impl; [|apply segments_nonempty]. intros g Hg X. apply Hg. now destruct g. }
  unfold script_pieces. change (segments same_script (carried sc [] rs)) with (script_runs sc rs).
  set (gs := script_runs sc rs) in *. clearbody gs.
  match goal with |- context [makes _ _ (map (map fst) ?X)] => set (L := X) end.
  assert (G : exists pre, rs = pre ++ concat (map (map fst) L) /\ 
    match gs with [] => [] | g :: gs' => (match g with (_, s) :: _ => if str_eqb s [] then [] else [0] | [] => [] end) ++ starts (0 + bytes (map fst g)) (map (map fst) gs') end
    = starts (bytes pre) (map (map fst) L)).
  { destruct gs as [|[|[r [|b s]] g] gs].
    - exists []. cbn in C. subst rs. split; reflexivity.
    - inversion Ne as [|? ? X _]. now destruct X.
    - exists (map fst ((r, []) :: g)). unfold L. split; [symmetry; exact C|]. cbn [app str_eqb]. reflexivity.
    - exists []. unfold L. split; [symmetry; exact C|]. reflexivity. }
  assert (NeL : Forall (fun g => g <> []) (map (map fst) L)).
  { unfold L. destruct gs as [|[|[r [|b s]] g] gs]; auto. inversion Ne; auto. }
  clearbody L. clear C. destruct G as (pre & Er & ->).
  destruct (windows_ok n (map (map fst) L) pre W O) as (ps & Eps & Ep & Fp); [now rewrite E, Er|exact NeL|].
  rewrite Eps. cbn [bind]. exists ps. split; [reflexivity|].
  assert (Scs : Forall (Forall scalar) (map (map fst) L)).
  { rewrite Er in Sc. apply Forall_app in Sc. destruct Sc as [_ Sc]. apply Forall_forall. intros g Hg. apply Forall_forall. intros c Hc.
    rewrite Forall_forall in Sc. apply Sc, in_concat. eauto. }
  unfold makes. rewrite filter_all.
  2:{ apply Forall_forall. intros m Hm. apply (in_map ns_norm) in Hm. rewrite Ep in Hm. apply in_map_iff in Hm.
      destruct Hm as (c & Ec & Hc). unfold full. destruct (ns_norm m) eqn:Em; [|reflexivity].
      apply encode_nil_inv in Ec. rewrite Forall_forall in NeL. now destruct (NeL c Hc). }
  split; [exact Ep|]. split; [|exact NeL]. apply Forall_forall. intros m Hm. rewrite Forall_forall in Fp. destruct (Fp m Hm) as (Wm & Om & Im).
  apply (sits_within orig n); auto. apply (in_map ns_norm) in Hm. rewrite Ep in Hm. apply in_map_iff in Hm.
  destruct Hm as (c & Ec & Hc). exists c. split; [|auto]. rewrite Forall_forall in Scs. now apply Scs.
Qed.

(** ** Sequences *)
Definition keeps_chars (f : list N -> list (list N)) : Prop := forall P rs, Forall P rs -> Forall (Forall P) (f rs).

Lemma keeps_segments j g : keeps_chars (fun rs => filter g (segments j rs)).
Proof. intros P rs F. now apply segments_chars. Qed.
Lemma keeps_cut_up b f : keeps_chars (cut_up b f).
Proof.
  intros P rs F. destruct b; try (cbn [cut_up]; rewrite <- (filter_all (fun _ => true) (segments _ rs)) by (apply Forall_forall; auto); now apply segments_chars).
  now apply keeps_segments.
Qed.
Lemma keeps_flat f g : keeps_chars f -> keeps_chars g -> keeps_chars (fun rs => flat_map g (f rs)).
Proof.
  intros Kf Kg P rs F. apply Forall_forall. intros w Hw. apply in_flat_map in Hw. destruct Hw as (v & Hv & Hw).
  specialize (Kf P rs F). rewrite Forall_forall in Kf. specialize (Kg P v (Kf v Hv)). rewrite Forall_forall in Kg. auto.
Qed.
Lemma keeps_script sc : keeps_chars (script_pieces sc).
Proof.
  intros P rs F. unfold script_pieces.
  assert (A : Forall (Forall P) (map (map fst) (script_runs sc rs))).
  { apply Forall_forall. intros g Hg. apply Forall_forall. intros c Hc. rewrite Forall_forall in F. apply F.
    rewrite <- (carried_fst sc rs []). unfold script_runs in Hg.
    rewrite <- (segments_concat same_script (carried sc [] rs)), concat_map. apply in_concat. exists g. auto. }
  destruct (script_runs sc rs) as [|[|[r [|b s]] g] gs]; auto. inversion A; auto.
Qed.

Lemma repieced_seq f g p p1 p2 : keeps_chars f -> repieced f p p1 -> repieced g p1 p2 -> repieced (fun rs => flat_map g (f rs)) p p2.
Proof.
  intros K (E1 & news & Es & F) (E2 & news2 & Es2 & F2). split; [congruence|].
  rewrite Es in F2. rewrite Es2. clear - K F F2. revert news2 F2. induction F as [|sp new l news R F IH]; intros news2 F2.
  - cbn in F2. inversion F2; subst. exists []. split; [reflexivity|constructor].
  - cbn in F2. apply Forall2_app_inv_l in F2. destruct F2 as (n1 & n2 & Fa & Fb & ->).
    destruct (IH n2 Fb) as (nn & En & Fn). exists (concat n1 :: nn). rewrite concat_app, En. split; [reflexivity|].
    constructor; [|exact Fn]. clear IH Fn En Fb F. unfold recut in *. destruct (has_toks sp) eqn:Ht.
    + subst new. inversion Fa as [|? ? ? ? R X]; subst. inversion X; subst. unfold recut in R. rewrite Ht in R. subst. reflexivity.
    + destruct R as [R1 R2]. specialize (K scalar (runes (sp_text sp)) (runes_scalar _)).
      revert R1 K R2. generalize (f (runes (sp_text sp))). clear - Fa. intros ws. revert ws. induction Fa as [|x y new n1 Hxy Fa IH]; intros ws Ew K Ft.
      * destruct ws; [|discriminate]. split; [reflexivity|constructor].
      * destruct ws as [|w ws]; [discriminate|]. cbn [map] in Ew. injection Ew as Ew Ews. inversion K as [|? ? Kw K']; subst.
        inversion Ft as [|? ? Hx Ft']; subst. destruct (IH ws Ews K' Ft') as [I1 I2]. unfold recut in Hxy. rewrite Hx in Hxy.
        destruct Hxy as [H1 H2]. rewrite Ew, runes_encode in H1 by assumption. cbn [concat flat_map]. rewrite !map_app, H1, I1.
        split; [reflexivity|]. apply Forall_app. auto.
Qed.

Lemma pre_tokenizer_ind' (P : pre_tokenizer -> Prop) :
  (forall t, (forall ts, t <> PTSequence ts) -> P t) -> (forall ts, Forall P ts -> P (PTSequence ts)) -> forall t, P t.
Proof.
  intros H1 H2. fix rec 1. intros t. destruct t as [| | |b|i|d|q b i| |r f s|x|ts]; try (apply H1; discriminate).
  apply H2. induction ts as [|t ts IH]; constructor; [apply rec|exact IH].
Qed.

Lemma documented_keeps u t : forall f, documented u t = Some f -> keeps_chars f.
Proof.
  induction t as [t N|ts IH] using pre_tokenizer_ind'; intros f D.
  - destruct t as [| | |b|i|d|q b i| |r g s|x|ts]; try discriminate D; [..|now destruct (N ts)].
    + injection D as <-. apply keeps_flat; [apply keeps_segments|apply keeps_cut_up].
    + injection D as <-. apply keeps_segments.
    + injection D as <-. apply keeps_segments.
    + injection D as <-. apply keeps_cut_up.
    + injection D as <-. apply keeps_cut_up.
    + injection D as <-. apply keeps_segments.
    + destruct q; try discriminate D; destruct i; try discriminate D; injection D as <-; apply keeps_cut_up.
    + injection D as <-. apply keeps_script.
  - revert f D. induction ts as [|t ts IHts]; intros f D.
    + injection D as <-. intros P rs F. repeat constructor. exact F.
    + inversion IH as [|? ? Ht Hts]; subst. cbn [documented] in *. destruct (documented u t) as [g|]; [|discriminate].
      match type of D with match ?e with _ => _ end = _ => destruct e as [h|] eqn:Eh; [|discriminate] end.
      injection D as <-. apply keeps_flat; [now apply Ht|]. apply IHts; auto.
Qed.

Lemma documented_ok u t : forall f p, documented u t = Some f -> all_sit p ->
  exists p', pre_tokenize u t p = Ok p' /\ all_sit p' /\ repieced f p p'.
Proof.
  induction t as [t N|ts IH] using pre_tokenizer_ind'; intros f p D A.
  - destruct t as [| | |b|i|d|q b i| |r g s|x|ts]; try discriminate D; [..|now destruct (N ts)].
    + injection D as <-. apply pt_split_cutter; [apply cutter_bert|exact A].
    + injection D as <-. apply pt_split_cutter; [apply cutter_whitespace|exact A].
    + injection D as <-. apply pt_split_cutter; [apply (cutter_fn is_white Removed)|exact A].
    + injection D as <-. apply pt_split_cutter; [apply cutter_fn|exact A].
    + injection D as <-. apply pt_split_cutter; [apply cutter_fn|exact A].
    + injection D as <-. apply pt_split_cutter; [apply cutter_rune|exact A].
    + destruct q as [c| | |g| |]; try discriminate D; destruct i; try discriminate D; injection D as <-.
      * apply pt_split_cutter; [apply (cutter_fn (fun x => (x =? c)%N) b)|exact A].
      * apply pt_split_cutter; [apply cutter_fn|exact A].
    + injection D as <-. apply pt_split_cutter; [apply cutter_script|exact A].
  - revert f p D A. induction ts as [|t ts IHts]; intros f p D A.
    + injection D as <-. exists p. split; [reflexivity|]. split; [exact A|]. split; [reflexivity|].
      exists (map (fun sp => [sp]) (pt_splits p)). split.
      * induction (pt_splits p) as [|sp l IHl]; [reflexivity|]. cbn. now rewrite <- IHl.
      * unfold all_sit in A. revert A. induction (pt_splits p) as [|sp l IHl]; intros A; [constructor|]. inversion A as [|? ? Hs A']; subst.
        constructor; [|now apply IHl]. unfold recut. destruct (has_toks sp) eqn:Ht; [reflexivity|]. split; [|repeat constructor; assumption].
        cbn. f_equal. destruct (Hs eq_refl) as (_ & _ & (rs & Sc & E) & _). unfold sp_text. now rewrite E, runes_encode.
    + inversion IH as [|? ? Ht Hts]; subst. cbn [documented] in D. destruct (documented u t) as [g|] eqn:Eg; [|discriminate].
      match type of D with match ?e with _ => _ end = _ => destruct e as [h|] eqn:Eh; [|discriminate] end.
      injection D as <-. destruct (Ht g p eq_refl A) as (p1 & E1 & A1 & R1). destruct (IHts Hts h p1 Eh A1) as (p2 & E2 & A2 & R2).
      exists p2. split; [|split; [exact A2|]].
      * cbn [pre_tokenize]. rewrite E1. exact E2.
      * eapply repieced_seq; [|exact R1|exact R2]. exact (documented_keeps u t g Eg).
Qed.

(** ** What is left of the text *)
Lemma kept_concat (P : N -> bool) gs : Forall (fun g => forallb P g = true \/ forallb (fun c => negb (P c)) g = true) gs ->
  Forall (fun g => g <> []) gs -> concat (filter (all_seg P) gs) = filter P (concat gs).
Proof.
  intros F Ne. induction F as [|g gs Hg F IH]; [reflexivity|]. inversion Ne as [|? ? Ng Ne']; subst. cbn [filter concat].
  rewrite filter_app. unfold all_seg at 1. destruct (forallb P g) eqn:E.
  - cbn [concat]. rewrite IH by assumption. f_equal. symmetry. apply filter_all, Forall_forall. now apply forallb_forall.
  - destruct Hg as [Hg|Hg]; [congruence|]. rewrite IH by assumption.
    replace (filter P g) with (@nil N); [reflexivity|]. clear - Hg. induction g as [|c g IH]; [reflexivity|]. cbn in *.
    apply andb_prop in Hg. destruct Hg as [H1 H2]. destruct (P c); [discriminate|]. now apply IH.
Qed.
Lemma kept_class {B} (cls : N -> B) eqb (Eqb : forall x y, eqb x y = true -> x = y) (P : N -> bool) (K : forall c d, cls c = cls d -> P c = P d) rs :
  concat (filter (all_seg P) (segments (fun c d => eqb (cls c) (cls d)) rs)) = filter P rs.
Proof.
  rewrite kept_concat; [now rewrite segments_concat| |apply segments_nonempty].
  pose proof (segments_same cls eqb Eqb rs) as Sm. pose proof (segments_nonempty (fun c d => eqb (cls c) (cls d)) rs) as Ne.
  rewrite Forall_forall in *. intros g Hg. specialize (Sm g Hg). specialize (Ne g Hg). destruct g as [|c g]; [congruence|].
  specialize (Sm c eq_refl). rewrite Forall_forall in Sm. destruct (P c) eqn:E; [left|right]; apply forallb_forall; intros x Hx;
    rewrite (K x c (Sm x Hx)), E; reflexivity.
Qed.
Lemma words_text sep rs : concat (words_of sep rs) = filter (fun c => negb (sep c)) rs.
Proof. unfold words_of. apply (kept_class sep Bool.eqb); [intros x y; apply eqb_prop|]. intros c d H. now rewrite H. Qed.
Lemma cut_up_text b sep rs : b <> Removed -> concat (cut_up b sep rs) = rs.
Proof. intros H. destruct b; try apply segments_concat. congruence. Qed.
Lemma whitespace_text rs : concat (whitespace_pieces rs) = filter (fun c => negb (re_space c)) rs.
Proof.
  unfold whitespace_pieces. apply (kept_class word_class Nat.eqb); [intros x y; apply Nat.eqb_eq|].
  assert (E : forall c, re_space c = (word_class c =? 0)%nat).
  { intros c. unfold word_class. destruct (re_word c) eqn:E; [now rewrite (word_not_space c E)|]. destruct (re_space c); reflexivity. }
  intros c d H. now rewrite !E, H.
Qed.
Lemma bert_text u rs : concat (bert_pieces u rs) = filter (fun c => negb (re_space c)) rs.
Proof.
  unfold bert_pieces. rewrite <- words_text. induction (words_of re_space rs) as [|w ws IH]; [reflexivity|].
  cbn [flat_map]. rewrite concat_app. cbn [concat]. rewrite IH. f_equal. apply cut_up_text. discriminate.
Qed.
Lemma script_text sc rs : concat (script_pieces sc rs) =
  match rs with
  | r :: _ => if (str_eqb (sc r) ANY || str_eqb (sc r) [])%bool then concat (script_pieces sc rs) else rs
  | [] => []
  end.
Proof.
  destruct rs as [|r rs]; [reflexivity|]. destruct (str_eqb (sc r) ANY || str_eqb (sc r) [])%bool eqn:E; [reflexivity|].
  apply orb_false_iff in E. destruct E as [E1 E2].
  assert (C : concat (map (map fst) (script_runs sc (r :: rs))) = r :: rs).
  { rewrite <- concat_map. unfold script_runs. rewrite segments_concat. apply carried_fst. }
  unfold script_pieces. unfold script_runs in *. cbn [carried] in *. rewrite E1 in *.
  destruct (segments_head same_script (r, sc r) (carried sc (sc r) rs)) as (g & gs & E).
  change (fun x y : N * str => str_eqb (snd x) (snd y)) with same_script in *. rewrite E in *.
  destruct (sc r); [discriminate E2|]. exact C.
Qed.
Lemma script_short sc r rs : sc r = ANY \/ sc r = [] ->
  exists l, r :: rs = (r :: l) ++ concat (script_pieces sc (r :: rs)).
Proof.
  intros H. assert (E : (if str_eqb (sc r) ANY then ([] : str) else sc r) = []).
  { destruct H as [-> | ->]; [reflexivity|]. destruct (str_eqb [] ANY); reflexivity. }
  assert (C : concat (map (map fst) (script_runs sc (r :: rs))) = r :: rs).
  { rewrite <- concat_map. unfold script_runs. rewrite segments_concat. apply carried_fst. }
  unfold script_pieces. unfold script_runs in *. cbn [carried] in *. rewrite E in C. rewrite E.
  destruct (segments_head same_script (@pair N str r []) (carried sc [] rs)) as (g & gs & Eg).
  change (fun x y : N * str => str_eqb (snd x) (snd y)) with same_script in *. rewrite Eg in C. rewrite Eg.
  cbn [map concat fst] in C. exists (map fst g). symmetry. exact C.
Qed.

(** ** A fresh text *)
Lemma new_sits s : valid_utf8 s -> sits s (new_ns s).
Proof.
  intros V. unfold sits. split; [now apply new_ns_wf|]. split; [now apply new_ns_ordered|]. split; [exact V|].
  cbn [new_ns ns_shift ns_orig]. split; [lia|]. split; [lia|]. symmetry. apply part_all.
Qed.
Lemma new_all_sit s : valid_utf8 s -> all_sit (pt_new s).
Proof. intros V. unfold all_sit, pt_new, pt_from_ns. cbn. constructor; [|constructor]. intros _. now apply new_sits. Qed.

Lemma fresh_documented u t f rs : Forall scalar rs -> documented u t = Some f ->
  exists p', pre_tokenize u t (pt_new (encode rs)) = Ok p' /\ all_sit p' /\ pt_orig p' = encode rs /\ map sp_text (pt_splits p') = map encode (f rs).
Proof.
  intros Sc D. destruct (documented_ok u t f (pt_new (encode rs)) D) as (p' & E & A & (Eo & news & Es & F)).
  { apply new_all_sit. exists rs. auto. }
  exists p'. split; [exact E|]. split; [exact A|]. split; [exact Eo|]. cbn in F. inversion F as [|? new ? news' R F']; subst. inversion F'; subst.
  rewrite Es. cbn [concat]. rewrite app_nil_r. destruct R as [R _]. rewrite R. unfold sp_text. cbn [sp_ns pt_from_ns pt_new pt_splits]. change (ns_norm (new_ns (encode rs))) with (encode rs). now rewrite runes_encode.
Qed.
Lemma encode_concat ws : concat (map encode ws) = encode (concat ws).
Proof. induction ws as [|w ws IH]; [reflexivity|]. cbn [map concat]. now rewrite encode_app, IH. Qed.
Lemma fresh_text u t f rs : Forall scalar rs -> documented u t = Some f ->
  exists p', pre_tokenize u t (pt_new (encode rs)) = Ok p' /\ text_of (pt_splits p') = encode (concat (f rs)).
Proof.
  intros Sc D. destruct (fresh_documented u t f rs Sc D) as (p' & E & _ & _ & T). exists p'. split; [exact E|].
  unfold text_of. rewrite T. apply encode_concat.
Qed.

(** ** The classes by enumeration *)
Lemma classes_punct c : (((33 <=? c) && (c <=? 47)) || ((58 <=? c) && (c <=? 64)) || ((91 <=? c) && (c <=? 96)) ||
   ((123 <=? c) && (c <=? 126)))%N = true <-> In c [33; 34; 35; 36; 37; 38; 39; 40; 41; 42; 43; 44; 45; 46; 47; 58; 59; 60; 61; 62; 63; 64; 91; 92; 93; 94; 95; 96; 123; 124; 125; 126]%N.
Proof. rewrite !Bool.orb_true_iff, !Bool.andb_true_iff, !N.leb_le. cbn [In]. split; [intros; lia|intros; lia]. Qed.
Lemma classes_word c : re_word c = true <-> In c [48; 49; 50; 51; 52; 53; 54; 55; 56; 57;
   65; 66; 67; 68; 69; 70; 71; 72; 73; 74; 75; 76; 77; 78; 79; 80; 81; 82; 83; 84; 85; 86; 87; 88; 89; 90; 95;
   97; 98; 99; 100; 101; 102; 103; 104; 105; 106; 107; 108; 109; 110; 111; 112; 113; 114; 115; 116; 117; 118; 119; 120; 121; 122]%N.
Proof. unfold re_word. rewrite !Bool.orb_true_iff, !Bool.andb_true_iff, !N.leb_le, !N.eqb_eq. cbn [In]. split; [intros; lia|intros; lia]. Qed.
Lemma classes_spec u c :
  (is_punct u c = true <-> In c [33; 34; 35; 36; 37; 38; 39; 40; 41; 42; 43; 44; 45; 46; 47; 58; 59; 60; 61; 62; 63; 64; 91; 92; 93; 94; 95; 96; 123; 124; 125; 126]%N \/ un_punct u c = true) /\
  (is_white c = true <-> In c [32; 9; 10; 13]%N) /\
  (re_space c = true <-> In c [9; 10; 12; 13; 32]%N) /\
  (re_word c = true <-> In c [48; 49; 50; 51; 52; 53; 54; 55; 56; 57;
   65; 66; 67; 68; 69; 70; 71; 72; 73; 74; 75; 76; 77; 78; 79; 80; 81; 82; 83; 84; 85; 86; 87; 88; 89; 90; 95;
   97; 98; 99; 100; 101; 102; 103; 104; 105; 106; 107; 108; 109; 110; 111; 112; 113; 114; 115; 116; 117; 118; 119; 120; 121; 122]%N) /\
  fixed_script u c =
    (if N.eq_dec c 12540 then [72; 97; 110]%N else if N.eq_dec c 32 then [65; 110; 121]%N
     else if in_dec str_eq_dec (un_script u c) [[72; 105; 114; 97; 103; 97; 110; 97]; [75; 97; 116; 97; 107; 97; 110; 97]]%N then [72; 97; 110]%N
     else un_script u c).
Proof.
  split; [unfold is_punct; now rewrite Bool.orb_true_iff, classes_punct|].
  split; [unfold is_white; rewrite !Bool.orb_true_iff, !N.eqb_eq; cbn [In]; lia|].
  split; [unfold re_space; rewrite !Bool.orb_true_iff, !N.eqb_eq; cbn [In]; lia|].
  split; [apply classes_word|]. unfold fixed_script.
  destruct (N.eq_dec c 12540) as [->|E1]; [reflexivity|]. destruct (N.eqb_spec c 12540); [contradiction|].
  destruct (N.eq_dec c 32) as [->|E2]; [reflexivity|]. destruct (N.eqb_spec c 32); [contradiction|].
  fold HIRAGANA KATAKANA. match goal with |- context [in_dec ?d ?x ?l] => destruct (in_dec d x l) as [I|I] end.
  - destruct I as [<-|[<-|[]]]; reflexivity.
  - cbn [In] in I. destruct (str_eqb (un_script u c) HIRAGANA) eqn:A; [apply str_eqb_eq in A; exfalso; auto|].
    destruct (str_eqb (un_script u c) KATAKANA) eqn:B; [apply str_eqb_eq in B; exfalso; auto|]. reflexivity.
Qed.
