(** Proofs about strings whose characters have been expanded, about the pieces they are cut
    into and about the byte-level pre-tokenizer. *)
From Verif Require Import Base BaseProofs Utf8Model Utf8Proofs PatternModel PatternSpec PatternProofs NormalizedModel NormalizedSpec
  NormalizedProofs NormalizedInvProofs NormalizedExactProofs NormalizedOpProofs BpeModel BpeSaveModel PreTokenizedModel PreTokenizedSpec PreTokenizedProofs
  DecoderModel DecoderSpec DecoderProofs PreTokenizerModel PreTokenizerSpec ChunkProofs PreTokenizerProofs.
Open Scope Z_scope.

(** ** The matches of the byte-level regexp *)
Definition width (l : list (N * nat)) : Z := fold_right (fun p n => Z.of_nat (snd p) + n) 0 l.
Lemma width_nonneg l : 0 <= width l.
Proof. induction l as [|p l IH]; [cbn; lia|]. change (width (p :: l)) with (Z.of_nat (snd p) + width l). lia. Qed.
Definition widths (rs : list N) : list (N * nat) := map (fun r => (r, length (encode_rune r))) rs.
Lemma width_widths rs : width (widths rs) = bytes rs.
Proof. induction rs as [|r rs IH]; [reflexivity|]. cbn. rewrite bytes_cons. unfold widths, width in IH. now rewrite IH. Qed.

Lemma gpt2_ordered u l : forall pos skip lo, lo <= pos + width (firstn skip l) -> ordered_matches lo (pos + width l) (gpt2_from u l pos skip).
Proof.
  induction l as [|[r w] l IH]; intros pos skip lo H; cbn [gpt2_from].
  - rewrite firstn_nil in H. cbn in *. lia.
  - assert (E : pos + width ((r, w) :: l) = pos + Z.of_nat w + width l) by (change (width ((r, w) :: l)) with (Z.of_nat w + width l); lia). rewrite E.
    destruct skip as [|k].
    + cbn in H. destruct (gpt2_here u (map fst ((r, w) :: l))) as [|k].
      * apply IH. cbn. lia.
      * cbn [ordered_matches]. change (fold_right _ 0 (firstn (S k) ((r, w) :: l))) with (Z.of_nat w + width (firstn k l)).
        pose proof (width_nonneg (firstn k l)). split; [lia|]. apply IH. lia.
    + apply IH. change (width (firstn (S k) ((r, w) :: l))) with (Z.of_nat w + width (firstn k l)) in H. lia.
Qed.
Lemma gpt2_well_behaved u : well_behaved (PRegexp (find_gpt2 u)).
Proof.
  intros s. unfold find_gpt2. pose proof (gpt2_ordered u (runes_w s) 0 0 0 ltac:(cbn; lia)) as H.
  replace (zlen s) with (0 + width (runes_w s)); [exact H|]. rewrite Z.add_0_l. unfold zlen. rewrite <- (runes_w_total s).
  clear. induction (runes_w s) as [|[r w] l IH]; [reflexivity|]. change (width ((r, w) :: l)) with (Z.of_nat w + width l). rewrite IH. cbn [fold_right snd]. lia.
Qed.

Lemma width_firstn rs k : width (firstn k (widths rs)) = bytes (firstn k rs).
Proof. unfold widths. rewrite firstn_map. apply width_widths. Qed.
Lemma gpt2_cut u rs : forall dn skip,
  Forall (fun m => fst m < snd m /\ char_pos (dn ++ rs) (fst m) /\ char_pos (dn ++ rs) (snd m)) (gpt2_from u (widths rs) (bytes dn) skip).
Proof.
  induction rs as [|r rs IH]; intros dn skip; [constructor|]. unfold widths. cbn [map gpt2_from]. fold (widths rs).
  assert (Next : forall k, Forall (fun m => fst m < snd m /\ char_pos (dn ++ r :: rs) (fst m) /\ char_pos (dn ++ r :: rs) (snd m))
                    (gpt2_from u (widths rs) (bytes dn + Z.of_nat (length (encode_rune r))) k)).
  { intros k. specialize (IH (dn ++ [r]) k). rewrite <- app_assoc in IH. cbn [app] in IH. rewrite bytes_app, bytes_cons in IH.
    change (bytes []) with 0 in IH. rewrite Z.add_0_r in IH. exact IH. }
  destruct skip as [|k]; [|apply Next].
  match goal with |- context [gpt2_here u ?x] => destruct (gpt2_here u x) as [|k] end; [apply Next|]. constructor; [|apply Next]. cbn [fst snd].
  change (fold_right _ 0 (firstn (S k) ((r, length (encode_rune r)) :: widths rs))) with (width (firstn (S k) (widths (r :: rs)))).
  rewrite width_firstn. cbn [firstn]. rewrite bytes_cons. pose proof (zlen_rune r). pose proof (bytes_nonneg (firstn k rs)).
  split; [lia|]. split; [apply char_pos_app|]. rewrite <- (firstn_skipn k rs) at 1.
  change (r :: firstn k rs ++ skipn k rs) with ((r :: firstn k rs) ++ skipn k rs). rewrite app_assoc.
  rewrite <- bytes_cons, <- bytes_app. apply char_pos_app.
Qed.
Lemma gpt2_between u s : valid_utf8 s -> between_chars s (PRegexp (find_gpt2 u)).
Proof.
  intros (rs & Sc & ->). cbn. unfold find_gpt2. rewrite runes_w_encode by assumption. fold (widths rs).
  pose proof (gpt2_cut u rs [] 0) as H. cbn [app] in H. change (bytes []) with 0 in H. eapply Forall_impl; [|exact H].
  intros [a b] (H1 & H2 & H3). unfold cut. cbn [fst snd] in *. auto using char_pos_boundary.
Qed.

Lemma ordered_matches_in lo total l : ordered_matches lo total l -> Forall (fun m => lo <= fst m /\ fst m <= snd m) l.
Proof.
  revert lo. induction l as [|[a b] l IH]; intros lo; cbn; [constructor|]. intros [H1 H2]. constructor; [cbn; lia|].
  eapply Forall_impl; [|exact (IH _ H2)]. cbn. lia.
Qed.

(** An added space stays with the character after it. *)
Definition blank_ok (u : unicode) : Prop := un_letter u 32%N = false /\ un_number u 32%N = false.
Lemma gpt2_space u c rest : blank_ok u -> c <> 32%N ->
  Forall (fun m => fst m <> 1 /\ snd m <> 1) (gpt2_from u (widths (32%N :: c :: rest)) 0 0).
Proof.
  intros [U1 U2] Hc. pose proof (zlen_rune c) as Hw. unfold zlen in Hw.
  assert (Tail : forall k lo, lo <= 1 + Z.of_nat (length (encode_rune c)) -> 2 <= lo -> Forall (fun m => fst m <> 1 /\ snd m <> 1)
     (gpt2_from u (widths rest) (1 + Z.of_nat (length (encode_rune c))) k)).
  { intros k lo H1 H2. pose proof (gpt2_ordered u (widths rest) (1 + Z.of_nat (length (encode_rune c))) k lo) as O.
    pose proof (width_nonneg (firstn k (widths rest))). specialize (O ltac:(lia)). apply ordered_matches_in in O.
    eapply Forall_impl; [|exact O]. cbn. lia. }
  unfold widths. cbn [map]. fold (widths rest). cbn [gpt2_from map fst].
  change (length (encode_rune 32)) with 1%nat. replace (map fst (widths rest)) with rest by (unfold widths; rewrite map_map; cbn; now rewrite map_id).
  assert (H0 : gpt2_here u (32%N :: c :: rest) = O /\ gpt2_here u (c :: rest) = O \/ exists k, gpt2_here u (32%N :: c :: rest) = S (S k)).
  { unfold gpt2_here. change (contraction (32%N :: c :: rest)) with O. cbv iota.
    set (oth := fun c => negb (re_space c) && negb (un_letter u c) && negb (un_number u c)).
    assert (O32 : forall f, f 32%N = false -> opt_space f (32%N :: c :: rest) = match lead f (c :: rest) with O => O | k => S k end).
    { intros f Hf. unfold opt_space. destruct (lead f (c :: rest)); [|reflexivity]. cbn. now rewrite Hf. }
    rewrite (O32 (un_letter u) U1), (O32 (un_number u) U2), (O32 oth eq_refl).
    destruct (lead (un_letter u) (c :: rest)) eqn:E1; [|right; eexists; reflexivity].
    destruct (lead (un_number u) (c :: rest)) eqn:E2; [|right; eexists; reflexivity].
    destruct (lead oth (c :: rest)) eqn:E3; [|right; eexists; reflexivity]. left. split; [reflexivity|].
    assert (Oc : forall f, opt_space f (c :: rest) = lead f (c :: rest)).
    { intros f. unfold opt_space. destruct c as [|p]; [reflexivity|]. repeat (destruct p as [p|p|]; try reflexivity). congruence. }
    rewrite !Oc, E1, E2, E3. cbn in E1, E2, E3. destruct (un_letter u c) eqn:L; [discriminate|]. destruct (un_number u c) eqn:M; [discriminate|].
    unfold oth in E3. rewrite L, M in E3. destruct (re_space c) eqn:R; [|discriminate E3].
    assert (contraction (c :: rest) = O); [|now rewrite H].
    unfold contraction. destruct c as [|p]; [reflexivity|]. repeat (destruct p as [p|p|]; try reflexivity). discriminate R. }
  destruct H0 as [[-> ->]|(k & ->)].
  - apply (Tail _ 2); lia.
  - constructor.
    + cbn [fst snd]. change (fold_right _ 0 (firstn (S (S k)) ((32%N, 1%nat) :: (c, length (encode_rune c)) :: widths rest)))
        with (1 + (Z.of_nat (length (encode_rune c)) + width (firstn k (widths rest)))). pose proof (width_nonneg (firstn k (widths rest))). lia.
    + apply (Tail _ 2); lia.
Qed.

(** The ends of the ranges made of the matches. *)
Lemma re_ends (P : Z -> Prop) ms s : ordered_matches 0 (zlen s) ms -> P 0 -> P (zlen s) -> Forall (fun m => P (fst m) /\ P (snd m)) ms ->
  Forall (fun m => P (fst (fst m)) /\ P (snd (fst m))) (re_matches ms s).
Proof.
  intros O H0 H1 F. unfold re_matches. destruct ms as [|m0 ms]; [repeat constructor; assumption|].
  assert (L : forall l m, Forall (fun m => P (fst m) /\ P (snd m)) (m :: l) ->
    let '(subs, c) := re_loop (m :: l) (fst m) in Forall (fun m => P (fst (fst m)) /\ P (snd (fst m))) subs /\ P c).
  { clear. induction l as [|x l IH]; intros [a b] F; inversion F as [|? ? [Ha Hb] F']; subst; cbn [fst snd] in Ha, Hb.
    - cbn. replace (a + (b - a)) with b by lia. repeat constructor; assumption.
    - change (re_loop ((a, b) :: x :: l) (fst (a, b))) with
        (if (b =? fst x)%Z then let '(subs, c) := re_loop (x :: l) (a + (b - a)) in (((a, b), true) :: subs, c)
         else let '(subs, c) := re_loop (x :: l) (a + (b - a) + (fst x - b)) in (((a, b), true) :: ((b, fst x), false) :: subs, c)).
      specialize (IH x F'). inversion F' as [|? ? [Xa _] _]; subst. destruct (Z.eqb_spec b (fst x)) as [E|E].
      + replace (a + (b - a)) with (fst x) by lia. destruct (re_loop (x :: l) (fst x)) as [subs c]. destruct IH as [I1 I2].
        split; [|exact I2]. constructor; [split; assumption|exact I1].
      + replace (a + (b - a) + (fst x - b)) with (fst x) by lia. destruct (re_loop (x :: l) (fst x)) as [subs c]. destruct IH as [I1 I2].
        split; [|exact I2]. constructor; [split; assumption|]. constructor; [split; assumption|exact I1]. }
  specialize (L ms m0 F). assert (Pm : P (fst m0)) by (inversion F; tauto).
  assert (Hc : forall c, P c -> Forall (fun m : offsets_match => P (fst (fst m)) /\ P (snd (fst m))) (if (c <? zlen s)%Z then [((c, zlen s), false)] else [])).
  { intros c Pc. destruct (c <? zlen s)%Z; repeat constructor; assumption. }
  assert (M0 : 0 <= fst m0) by (destruct m0; cbn in *; lia).
  destruct (Z.ltb_spec 0 (fst m0)).
  - destruct (re_loop (m0 :: ms) (fst m0)) as [subs c]. destruct L as [L1 L2].
    constructor; [split; assumption|]. apply Forall_app. auto.
  - replace (fst m0) with 0 in L by lia. destruct (re_loop (m0 :: ms) 0) as [subs c]. destruct L as [L1 L2]. cbn [app]. apply Forall_app. auto.
Qed.

(** ** Expanded strings *)
Definition expanded (xs : list expansion) (n : ns) : Prop :=
  ns_orig n = encode (map fst xs) /\ ns_norm n = exp_text xs /\ ns_al n = exp_al xs 0 /\ ns_ao_values n = exp_ao xs 0.
Definition written (x : expansion) : Prop := exp_out x <> [] /\ valid_utf8 (exp_out x).

Lemma fresh_expanded rs n : fresh_as rs n -> expanded (same rs) n.
Proof.
  intros (H1 & H2 & H3 & H4 & _). split; [now rewrite map_fst_same|]. split; [now rewrite exp_text_same|]. split; [now rewrite exp_al_same|now rewrite exp_ao_same].
Qed.
Lemma written_same rs : Forall written (same rs).
Proof.
  apply Forall_map, Forall_forall. intros r _. unfold written, exp_out. cbn. rewrite app_nil_r. split; [|apply valid_encode_rune].
  pose proof (zlen_rune r). destruct (encode_rune r); [unfold zlen in *; cbn in *; lia|discriminate].
Qed.
Lemma exp_text_app a b : exp_text (a ++ b) = exp_text a ++ exp_text b.
Proof. unfold exp_text. now rewrite map_app, concat_app. Qed.
Lemma exp_text_cons x b : exp_text (x :: b) = exp_out x ++ exp_text b.
Proof. reflexivity. Qed.
Lemma valid_app a b : valid_utf8 a -> valid_utf8 b -> valid_utf8 (a ++ b).
Proof. intros (ra & Ha & ->) (rb & Hb & ->). exists (ra ++ rb). rewrite encode_app. split; [now apply Forall_app|reflexivity]. Qed.
Lemma exp_text_valid xs : Forall written xs -> valid_utf8 (exp_text xs).
Proof.
  induction 1 as [|x xs [_ V] F IH]; [exists []; split; [constructor|reflexivity]|]. rewrite exp_text_cons. now apply valid_app.
Qed.
Lemma exp_text_ne x xs : written x -> exp_text (x :: xs) <> [].
Proof. intros [H _]. rewrite exp_text_cons. destruct (exp_out x); [congruence|discriminate]. Qed.

Lemma exp_al_shift xs : forall p d, map (fun v => (fst v - d, snd v - d)) (exp_al xs p) = exp_al xs (p - d).
Proof.
  induction xs as [|x xs IH]; intros p d; [reflexivity|]. cbn [exp_al]. rewrite map_app, map_repeat', IH. cbn [fst snd]. f_equal; [do 2 f_equal; lia|f_equal; lia].
Qed.
Lemma exp_ao_shift xs : forall p d, map (fun v => (fst v - d, snd v - d)) (exp_ao xs p) = exp_ao xs (p - d).
Proof.
  induction xs as [|x xs IH]; intros p d; [reflexivity|]. cbn [exp_ao]. rewrite map_app, map_repeat', IH. cbn [fst snd]. f_equal; [do 2 f_equal; lia|f_equal; lia].
Qed.
Lemma zlen_exp_al xs : forall p, zlen (exp_al xs p) = zlen (exp_text xs).
Proof.
  induction xs as [|x xs IH]; intros p; [reflexivity|]. cbn [exp_al]. rewrite zlen_app, IH, exp_text_cons, zlen_app, zlen_repeat. reflexivity.
Qed.
Lemma expand_app a b x y x' y' : expand a = Some (x, y) -> expand b = Some (x', y') -> expand (a ++ b) = Some (x, y').
Proof.
  destruct a as [|p a]; [discriminate|]. destruct b as [|q b]; [discriminate|]. cbn [expand app]. intros [= <- <-] [= <- <-]. do 2 f_equal.
  change (p :: a ++ q :: b) with ((p :: a) ++ q :: b). rewrite last_app_ne by discriminate. f_equal.
  assert (X : forall (l : list (Z * Z)) d d', l <> [] -> last l d = last l d').
  { induction l as [|u l IH]; [congruence|]. intros d d' _. destruct l; [reflexivity|]. apply (IH d d'). discriminate. }
  transitivity (last (q :: b) q); [apply X; discriminate|reflexivity].
Qed.
Lemma expand_repeat v n : (0 < n)%nat -> expand (repeat v n) = Some v.
Proof.
  intros H. destruct n as [|n]; [lia|]. cbn [repeat expand]. change (v :: repeat v n) with (repeat v (S n)). rewrite last_repeat. now destruct v.
Qed.
Lemma expand_al xs : forall p, xs <> [] -> Forall written xs -> expand (exp_al xs p) = Some (p, p + bytes (map fst xs)).
Proof.
  induction xs as [|x xs IH]; intros p H F; [congruence|]. inversion F as [|? ? [Hx _] F']; subst. cbn [exp_al map]. rewrite bytes_cons.
  assert (L : (0 < length (exp_out x))%nat) by (destruct (exp_out x); [congruence|cbn; lia]).
  destruct xs as [|x' xs].
  - cbn [exp_al map]. rewrite app_nil_r, expand_repeat by assumption. change (bytes []) with 0. do 2 f_equal. lia.
  - erewrite expand_app; [|apply expand_repeat; exact L|apply IH; [discriminate|exact F']]. do 2 f_equal. lia.
Qed.
Lemma expand_ao xs : forall p, xs <> [] -> expand (exp_ao xs p) = Some (p, p + zlen (exp_text xs)).
Proof.
  induction xs as [|x xs IH]; intros p H; [congruence|]. cbn [exp_ao]. rewrite exp_text_cons, zlen_app.
  assert (L : (0 < length (encode_rune (fst x)))%nat) by (pose proof (zlen_rune (fst x)); unfold zlen in *; lia).
  destruct xs as [|x' xs].
  - cbn [exp_ao]. rewrite app_nil_r, expand_repeat by assumption. unfold exp_text. cbn. do 2 f_equal. lia.
  - erewrite expand_app; [|apply expand_repeat; exact L|apply IH; discriminate]. do 2 f_equal. lia.
Qed.
Lemma cells_seq (l : list (Z * Z)) : map (cell l) (seq 0 (length l)) = l.
Proof.
  assert (G : forall a l, map (cell (a ++ l)) (seq (length a) (length l)) = l).
  { intros a l0. revert a. induction l0 as [|x l0 IH]; intros a; [reflexivity|]. cbn [length seq map]. f_equal.
    - unfold cell. rewrite app_nth2 by lia. now rewrite Nat.sub_diag.
    - specialize (IH (a ++ [x])). rewrite <- app_assoc, app_length in IH. cbn [app length] in IH. now rewrite Nat.add_1_r in IH. }
  exact (G [] l).
Qed.

Lemma text_boundary a b : valid_utf8 b -> boundary (a ++ b) (zlen a).
Proof.
  intros (rs & Sc & ->). destruct rs as [|r rs].
  - right. left. unfold encode. cbn. now rewrite app_nil_r.
  - right. right. destruct (rune_start_head r) as (c & l & E & H). exists c. split; [apply zlen_nonneg|]. split; [|exact H].
    rewrite encode_cons, E. unfold zlen. rewrite Nat2Z.id, nth_error_app2 by lia. rewrite Nat.sub_diag. reflexivity.
Qed.

Lemma slice_expanded n pre mid post : wf n -> ordered (ns_al n) -> expanded (pre ++ mid ++ post) n -> mid <> [] ->
  Forall written (mid ++ post) ->
  exists m, ns_slice n (Rng (zlen (exp_text pre)) (zlen (exp_text pre) + zlen (exp_text mid)) OnNormalized) = Ok (Some m) /\
    expanded mid m /\ ns_shift m = ns_shift n + bytes (map fst pre) /\ wf m /\ ordered (ns_al m).
Proof.
  intros W O (Eo & En & Ea & Ev) Hm F. apply Forall_app in F. destruct F as [Fm Fp].
  set (s := zlen (exp_text pre)). set (e := s + zlen (exp_text mid)).
  assert (Hs : 0 <= s) by apply zlen_nonneg.
  assert (Hmid : 0 < zlen (exp_text mid)).
  { destruct mid as [|x mid]; [congruence|]. inversion Fm; subst. pose proof (exp_text_ne x mid H1). destruct (exp_text (x :: mid)); [congruence|unfold zlen; cbn; lia]. }
  assert (Le : e <= zlen (ns_norm n)) by (rewrite En, !exp_text_app, !zlen_app; pose proof (zlen_nonneg (exp_text post)); lia).
  assert (B1 : boundary (ns_norm n) s).
  { rewrite En, exp_text_app. apply text_boundary. apply exp_text_valid. apply Forall_app. auto. }
  assert (B2 : boundary (ns_norm n) e).
  { rewrite En, app_assoc, exp_text_app. replace e with (zlen (exp_text (pre ++ mid))) by (rewrite exp_text_app, zlen_app; reflexivity).
    apply text_boundary. now apply exp_text_valid. }
  destruct (slice_normalized n s e W O Hs ltac:(lia) Le B1 B2) as (a & b & m & Ec & Es & Em & Eom & Eam & Esh & Wm & Om).
  exists m. split; [exact Es|].
  assert (Pal : part s e (ns_al n) = exp_al mid (bytes (map fst pre))).
  { rewrite Ea, !exp_al_app. apply part_mid; rewrite !zlen_exp_al; lia. }
  assert (Ec2 : convert_offset n (Rng s e OnNormalized) = Ok (Some (Rng (bytes (map fst pre)) (bytes (map fst pre) + bytes (map fst mid)) OnOriginal))).
  { unfold convert_offset, into_full_range. cbn [r_on r_start r_end]. replace (s =? -1) with false by lia.
    replace (zlen (ns_norm n) <? e) with false by lia. replace (s =? e) with false by lia.
    assert (WL : zlen (ns_al n) = zlen (ns_norm n)) by (unfold zlen; f_equal; apply W).
    replace ((s <? 0) || (zlen (ns_al n) <? s) || (e <? 0) || (zlen (ns_al n) <? e)) with false by lia.
    rewrite zslice_eq by lia. cbn [bind]. rewrite Pal, expand_al by assumption. reflexivity. }
  rewrite Ec in Ec2. injection Ec2 as -> ->.
  set (B := bytes (map fst pre)) in *. set (C := bytes (map fst mid)) in *.
  assert (HB : 0 <= B) by apply bytes_nonneg. assert (HC : 0 <= C) by apply bytes_nonneg.
  split; [|split; [exact Esh|split; [exact Wm|exact Om]]].
  split; [|split; [|split]].
  - rewrite Eom, Eo, !map_app, !encode_app. apply part_mid; [reflexivity|]. unfold C, bytes. lia.
  - rewrite Em, En, !exp_text_app. apply part_mid; [reflexivity|]. unfold e. lia.
  - rewrite Eam, Pal, exp_al_shift. f_equal. lia.
  - revert Es. unfold ns_slice. rewrite validate_ok by (assumption || lia). cbn [bind]. rewrite Ec. cbn [bind r_on r_start r_end].
    assert (Lv : zlen (ns_ao_values n) = B + (C + bytes (map fst post))) by (rewrite Ev, zlen_exp_ao, !map_app, !bytes_app; reflexivity).
    pose proof (bytes_nonneg (map fst post)). rewrite zslice_eq by lia. cbn [bind].
    assert (P0 : part 0 B (ns_ao_values n) = exp_ao pre 0).
    { rewrite Ev, exp_ao_app. apply (part_mid []); [reflexivity|]. rewrite zlen_exp_ao. unfold B. lia. }
    rewrite P0.
    assert (Osh : match expand (exp_ao pre 0) with None => 0 | Some (_, e0) => e0 end = s).
    { destruct pre as [|x pre]; [reflexivity|]. rewrite expand_ao by discriminate. reflexivity. }
    rewrite Osh. destruct (ns_range_original _ _) as [so| | | |]; cbn [bind]; try discriminate.
    destruct (ns_range _ _) as [sn| | | |]; cbn [bind]; try discriminate. destruct (zslice (ns_al n) s e) as [l| | | |]; cbn [bind]; try discriminate.
    rewrite zslice_eq by lia. cbn [bind].
    assert (P1 : part B (B + C) (ns_ao_values n) = exp_ao mid s).
    { rewrite Ev, !exp_ao_app, Z.add_0_l. fold s. apply part_mid; rewrite zlen_exp_ao; unfold B, C; lia. }
    rewrite P1. intros [= <-]. unfold ns_ao_values. cbn [ns_ao ns_cells]. rewrite exp_ao_shift.
    replace (length (exp_ao mid s)) with (length (exp_ao mid (s - s))).
    2:{ pose proof (zlen_exp_ao mid s). pose proof (zlen_exp_ao mid (s - s)). unfold zlen in *. lia. }
    rewrite cells_seq. f_equal. lia.
Qed.

(** The pieces between the groups of an expanded string. *)
Fixpoint group_ranges_of (p : Z) (gs : list (list expansion)) : list (Z * Z) :=
  match gs with
  | [] => []
  | g :: gs' => (p, p + zlen (exp_text g)) :: group_ranges_of (p + zlen (exp_text g)) gs'
  end.
Lemma slices_expanded n gs : forall pre, wf n -> ordered (ns_al n) -> expanded (pre ++ concat gs) n -> Forall (fun g => g <> []) gs ->
  Forall written (concat gs) ->
  exists ps, slices n (map keep (group_ranges_of (zlen (exp_text pre)) gs)) = Ok ps /\
    Forall2 (fun g m => expanded g m /\ wf m /\ ordered (ns_al m)) gs ps.
Proof.
  induction gs as [|g gs IH]; intros pre W O X N F; [exists []; split; [reflexivity|constructor]|].
  inversion N as [|? ? Hg N']; subst. cbn [concat] in *.
  destruct (slice_expanded n pre g (concat gs) W O X Hg F) as (m & E & Xm & _ & Wm & Om).
  apply Forall_app in F. rewrite app_assoc in X. destruct (IH (pre ++ g) W O X N' (proj2 F)) as (ps & Ep & Fp).
  exists (m :: ps). split; [|constructor; auto]. cbn [group_ranges_of map keep slices]. rewrite E. cbn [bind].
  rewrite exp_text_app, zlen_app in Ep. rewrite Ep. reflexivity.
Qed.

(** ** Cutting an expanded string *)
Definition exp_pos (xs : list expansion) (i : Z) : Prop := exists k, (k <= length xs)%nat /\ i = zlen (exp_text (firstn k xs)).

Lemma zlen_pos {A} (l : list A) : l <> [] -> 0 < zlen l.
Proof. destruct l; [congruence|]. unfold zlen. cbn [length]. lia. Qed.

Lemma ranges_groups ms : forall pre rest b, Forall written (pre ++ rest) -> b = zlen (exp_text (pre ++ rest)) ->
  partition (zlen (exp_text pre)) b ms ->
  Forall (fun m => fst (fst m) < snd (fst m) /\ exp_pos (pre ++ rest) (snd (fst m))) ms ->
  exists gs, concat gs = rest /\ Forall (fun g => g <> []) gs /\ map fst ms = group_ranges_of (zlen (exp_text pre)) gs.
Proof.
  induction ms as [|[[s e] k] ms IH]; intros pre rest b W Eb P F.
  - cbn in P. exists []. split; [|split; [constructor|reflexivity]]. cbn. destruct rest as [|x rest]; [reflexivity|]. exfalso.
    rewrite exp_text_app, zlen_app in Eb. apply Forall_app in W. destruct W as [_ W]. inversion W; subst.
    pose proof (zlen_pos _ (exp_text_ne x rest H1)). lia.
  - cbn [partition] in P. destruct P as (Es & _ & P). inversion F as [|? ? [H1 (j & Hj & Ej)] F']; subst. cbn [fst snd] in *.
    assert (J : (length pre < j)%nat).
    { destruct (Nat.lt_ge_cases (length pre) j) as [H|H]; [exact H|]. exfalso.
      rewrite firstn_app in Ej. replace (j - length pre)%nat with 0%nat in Ej by lia. cbn [firstn] in Ej. rewrite app_nil_r in Ej.
      rewrite <- (firstn_skipn j pre), exp_text_app, zlen_app in H1. pose proof (zlen_nonneg (exp_text (skipn j pre))). lia. }
    set (g := firstn (j - length pre) rest).
    assert (Eg : firstn j (pre ++ rest) = pre ++ g) by (rewrite firstn_app, firstn_all2 by lia; reflexivity).
    rewrite Eg in Ej.
    assert (Er : pre ++ rest = (pre ++ g) ++ skipn (j - length pre) rest) by (rewrite <- app_assoc; unfold g; now rewrite firstn_skipn).
    rewrite Er in W, P, F'. rewrite Ej in P.
    destruct (IH (pre ++ g) (skipn (j - length pre) rest) _ W eq_refl P F') as (gs & C & N & M).
    exists (g :: gs). split; [|split].
    + cbn. rewrite C. unfold g. apply firstn_skipn.
    + constructor; [|exact N]. intros X. rewrite X, app_nil_r in Ej. lia.
    + cbn [map fst group_ranges_of]. rewrite M, Ej, exp_text_app, zlen_app. reflexivity.
Qed.

Lemma split_expanded n xs p b : wf n -> ordered (ns_al n) -> expanded xs n -> Forall written xs -> xs <> [] -> b = Isolated ->
  (exists ms, find_matches p (ns_norm n) = Ok ms /\ partition 0 (zlen (ns_norm n)) ms /\ Forall (cut (ns_norm n)) ms /\
    Forall (fun m => exp_pos xs (snd (fst m))) ms) ->
  exists gs ps, concat gs = xs /\ Forall (fun g => g <> []) gs /\ ns_split n p b = Ok ps /\
    Forall2 (fun g m => expanded g m /\ wf m /\ ordered (ns_al m)) gs ps.
Proof.
  intros W O X F Ne -> (ms & E & P & C & Q). assert (En : ns_norm n = exp_text xs) by apply X.
  assert (Q' : Forall (fun m => fst (fst m) < snd (fst m) /\ exp_pos ([] ++ xs) (snd (fst m))) ms).
  { rewrite Forall_forall in *. intros m Hm. split; [apply C, Hm|apply Q, Hm]. }
  rewrite En in P. destruct (ranges_groups ms [] xs _ F eq_refl P Q') as (gs & Cg & Ng & M).
  rewrite <- Cg in X, F. destruct (slices_expanded n gs [] W O X Ng F) as (ps & Es & Fp).
  exists gs, ps. split; [exact Cg|]. split; [exact Ng|]. split; [|exact Fp]. unfold ns_split. rewrite E. cbn [bind split_ranges].
  rewrite <- Es, <- M, map_map. reflexivity.
Qed.

(** ** The byte-level split *)
Definition prefixed (rs : list N) : list expansion :=
  match rs with
  | c :: rest => if (c =? 32)%N then same rs else (c, ([SP], [encode_rune c])) :: same rest
  | [] => []
  end.
Lemma prefixed_chars rs : map fst (prefixed rs) = rs.
Proof. destruct rs as [|c rest]; [reflexivity|]. cbn [prefixed]. destruct (c =? 32)%N; [apply map_fst_same|]. cbn [map fst]. now rewrite map_fst_same. Qed.
Lemma prefixed_written rs : Forall written (prefixed rs).
Proof.
  destruct rs as [|c rest]; [constructor|]. cbn [prefixed]. destruct (c =? 32)%N; [apply written_same|].
  constructor; [|apply written_same]. unfold written, exp_out. cbn [fst snd concat]. rewrite app_nil_r. split; [discriminate|].
  change [SP] with (encode_rune 32). apply valid_app; apply valid_encode_rune.
Qed.
Lemma prefixed_text c rest : exp_text (prefixed (c :: rest)) = if (c =? 32)%N then encode (c :: rest) else SP :: encode (c :: rest).
Proof.
  cbn [prefixed]. destruct (c =? 32)%N; [apply exp_text_same|]. rewrite exp_text_cons, exp_text_same, encode_cons. unfold exp_out. cbn [fst snd concat].
  rewrite app_nil_r. reflexivity.
Qed.

Lemma starts_space c rest : scalar c -> starts_with [SP] (encode (c :: rest)) = (c =? 32)%N.
Proof.
  intros Sc. rewrite encode_cons. destruct (N.eqb_spec c 32) as [->|H]; [reflexivity|].
  destruct (encode_rune c) as [|b l] eqn:E; [pose proof (zlen_rune c); rewrite E in *; unfold zlen in *; cbn in *; lia|].
  change ((32 =? b)%N && true = false). destruct (N.eqb_spec 32 b) as [<-|Hb]; [|reflexivity]. exfalso. apply H.
  pose proof (decode_encode c [] Sc) as D. rewrite app_nil_r, E in D. cbn in D. congruence.
Qed.

Lemma prepend_fresh rs n : Forall scalar rs -> Forall (fun c => c <> 0%N) rs -> fresh_as rs n -> wf n -> ordered (ns_al n) -> rs <> [] -> hd 0%N rs <> 32%N ->
  exists n', ns_prepend [SP] n = Ok n' /\ expanded (prefixed rs) n' /\ wf n' /\ ordered (ns_al n').
Proof.
  intros Sc NZ Fr W O Ne H32. destruct rs as [|c rest]; [congruence|]. cbn in H32. inversion Sc as [|? ? Sc1 Sc2]; subst. inversion NZ as [|? ? Nz1 Nz2]; subst.
  assert (En : ns_norm n = encode (c :: rest)) by apply Fr.
  destruct (prepend_ok [SP] (c :: rest) n W O En Sc Nz1) as (n' & E & _ & W' & O').
  exists n'. split; [exact E|]. split; [|split; assumption].
  revert E. unfold ns_prepend. rewrite En, runes_encode by assumption.
  set (x := (c, ([SP], [encode_rune c])) : expansion).
  assert (Okx : Forall exp_ok [x]).
  { constructor; [|constructor]. split; [exact Nz1|]. split; [exact (valid_encode_rune 32)|]. cbn. constructor; [apply valid_encode_rune|constructor]. }
  destruct (expansion_range_gen [] [x] rest n OnNormalized (Forall_nil _) (Forall_cons x Sc1 (Forall_nil _)) Sc2 Okx Fr) as (n2 & E2 & A1 & A2 & A3 & A4).
  { unfold target, into_full_range. cbn [r_on r_start r_end map fst]. change (bytes []) with 0. rewrite Z.add_0_l. cbn [Z.eqb].
    rewrite En. unfold bytes. rewrite !encode_cons. change (encode []) with (@nil N). rewrite app_nil_r, zlen_app.
    pose proof (zlen_nonneg (encode rest)). change (fst x) with c. replace (zlen (encode_rune c) + zlen (encode rest) <? zlen (encode_rune c)) with false by lia. reflexivity. }
  cbn [map] in E2. change (fst x) with c in E2. change (bytes []) with 0 in E2. rewrite Z.add_0_l in E2. replace (bytes [c]) with (zlen (encode_rune c)) in E2.
  2:{ unfold bytes. rewrite encode_cons. change (encode []) with (@nil N). now rewrite app_nil_r. }
  change (prepend_items [SP] c) with (flat_map exp_items [x]). rewrite E2. intros [= <-].
  cbn [prefixed]. destruct (N.eqb_spec c 32) as [|_]; [congruence|]. fold x.
  split; [rewrite A1; cbn [map fst app]; now rewrite map_fst_same|]. split; [|split; assumption].
  rewrite A2. transitivity (exp_out x ++ exp_text (same rest)); [|reflexivity]. rewrite exp_text_same. transitivity ((exp_out x ++ []) ++ encode rest); [reflexivity|]. now rewrite app_nil_r.
Qed.

Lemma exp_pos_same rs i : char_pos rs i -> exp_pos (same rs) i.
Proof.
  intros (k & H & ->). exists k. split; [unfold same; now rewrite map_length|]. unfold same. rewrite firstn_map. fold (same (firstn k rs)).
  rewrite exp_text_same. reflexivity.
Qed.
Lemma exp_pos_prefixed c rest i : (c =? 32)%N = false -> char_pos (32%N :: c :: rest) i -> i <> 1 -> exp_pos (prefixed (c :: rest)) i.
Proof.
  intros Hc (k & H & Hi) H1. cbn [prefixed]. rewrite Hc. destruct k as [|[|k]].
  - exists 0%nat. split; [lia|]. exact Hi.
  - exfalso. apply H1. rewrite Hi. reflexivity.
  - exists (S k). cbn [length] in *. split; [unfold same; rewrite map_length; lia|]. rewrite Hi. cbn [firstn].
    unfold same. rewrite firstn_map. fold (same (firstn k rest)). rewrite exp_text_cons, exp_text_same. unfold exp_out. cbn [fst snd concat].
    rewrite app_nil_r. unfold bytes. rewrite !encode_cons. now rewrite <- app_assoc.
Qed.

(** ** Where the alignments of a transformed text come from *)
Lemma take_removed_nonneg k : forall rs, 0 <= fst (take_removed k rs).
Proof.
  induction k as [|k IH]; intros rs; cbn [take_removed]; [cbn; lia|]. destruct (next_rune rs) as [c rs1].
  specialize (IH rs1). destruct (take_removed k rs1) as [t rs']. cbn [fst] in *. pose proof (zlen_nonneg (encode_rune c)). lia.
Qed.
Definition first_replaces (rs : list N) (items : list (str * Z)) : Prop :=
  match items with [] => True | (_, c) :: _ => c <= 0 /\ hd 0%N rs <> 0%N end.
Lemma t_loop_drawn al items : forall st st', foldR (t_item al) items st = Ok st' -> 1 <= NormalizedModel.t_off st \/ (0 <= NormalizedModel.t_off st /\ first_replaces (t_runes st) items) ->
  exists extra, t_al st' = t_al st ++ extra /\ incl extra al.
Proof.
  induction items as [|[s c] items IH]; cbn [foldR]; intros st st' E D.
  - injection E as <-. exists []. rewrite app_nil_r. split; [reflexivity|]. intros x [].
  - destruct (t_item al st (s, c)) as [st1| | | |] eqn:E1; cbn [bind] in E; try discriminate E.
    apply t_item_spec in E1. destruct E1 as (align & Ha & Al & _ & Sz & _ & _ & _).
    assert (I : In align al).
    { unfold item_align in Ha. destruct (Z.ltb_spec 0 c) as [Hc|Hc].
      - destruct D as [D|[D0 D]]; [|cbn in D; lia]. replace (NormalizedModel.t_off st <? 1) with false in Ha by lia. eapply zindex_In, Ha.
      - destruct (zlen al <=? NormalizedModel.t_off st); eapply zindex_In, Ha. }
    assert (D1 : 1 <= NormalizedModel.t_off st1).
    { unfold item_sizes in Sz. destruct (c <=? 0) eqn:Hc.
      - destruct (t_runes st) as [|r rs] eqn:Er; cbn [next_rune] in Sz.
        + pose proof (take_removed_nonneg (Z.to_nat (- c)) []) as P. destruct (take_removed (Z.to_nat (- c)) []) as [t rs2]. cbn [fst N.eqb] in *.
          destruct Sz as (_ & -> & _). destruct D as [D|[D0 D]]; [lia|]. cbn in D. exfalso. now apply D.
        + pose proof (take_removed_nonneg (Z.to_nat (- c)) rs) as P. destruct (take_removed (Z.to_nat (- c)) rs) as [t rs2]. cbn [fst] in *.
          destruct Sz as (_ & -> & _). destruct D as [D|[D0 D]].
          * destruct (r =? 0)%N; [lia|]. pose proof (zlen_nonneg (encode_rune r)). lia.
          * cbn in D. destruct (N.eqb_spec r 0); [lia|]. pose proof (zlen_rune r). lia.
      - pose proof (take_removed_nonneg (Z.to_nat (- c)) (t_runes st)) as P. destruct (take_removed (Z.to_nat (- c)) (t_runes st)) as [t rs2]. cbn [fst N.eqb] in *.
        destruct Sz as (_ & -> & _). destruct D as [D|[D0 D]]; [lia|]. cbn in D. lia. }
    destruct (IH _ _ E (or_introl D1)) as (extra & Ax & Ix). exists (repeat align (length s) ++ extra). rewrite Ax, Al, app_assoc. split; [reflexivity|].
    intros x Hx. apply in_app_iff in Hx. destruct Hx as [Hx|Hx]; [apply repeat_spec in Hx; now subst x|now apply Ix].
Qed.

Lemma transform_range_drawn n r items initial n' nr : transform_range n r items initial = Ok n' -> target n r = Ok (Some nr) ->
  (1 <= initial \/ 1 <= r_start nr \/
   first_replaces (runes (part (r_start nr) (Z.min (r_end nr) (zlen (ns_al n))) (ns_norm n))) items) ->
  incl (ns_al n') (ns_al n).
Proof.
  intros E T D. unfold transform_range in E. fold (target n r) in E. rewrite T in E. cbn [bind] in E. cbn zeta in E.
  replace (if zlen (ns_al n) <? r_end nr then zlen (ns_al n) else r_end nr)
    with (Z.min (r_end nr) (zlen (ns_al n))) in E by (destruct (Z.ltb_spec (zlen (ns_al n)) (r_end nr)); lia).
  set (s := r_start nr) in *. set (e := Z.min (r_end nr) (zlen (ns_al n))) in *.
  destruct (zslice (ns_norm n) s e) as [sel| | | |] eqn:Es; cbn [bind] in E; try discriminate E.
  apply zslice_ok in Es. destruct Es as (Z1 & Z2 & Z3 & ->).
  destruct (Z.ltb_spec (zlen (runes (part s e (ns_norm n)))) initial) as [|Hi]; [discriminate E|].
  destruct (clear_chars (ns_al n) (ns_ao n) _ s 0 (e, ns_cells n)) as [[ess cells0]| | | |] eqn:Ec; cbn [bind] in E; try discriminate E.
  match type of E with (do st <- ?x; _) = _ => destruct x as [st| | | |] eqn:El end; cbn [bind] in E; try discriminate E.
  destruct (end_shift _ ess _ _ _) as [[ao' cells']| | | |] eqn:Ee; cbn [bind] in E; try discriminate E.
  injection E as <-. cbn [ns_al].
  assert (R : forall l : list N, 0 <= fold_right (fun c k => zlen (encode_rune c) + k) 0 l).
  { clear. induction l as [|c l IH]; cbn [fold_right]; [lia|]. pose proof (zlen_nonneg (encode_rune c)). lia. }
  destruct (t_loop_drawn _ _ _ _ El) as (extra & Ax & Ix).
  { cbn [NormalizedModel.t_off t_runes]. destruct D as [D|[D|D]].
    - left. destruct (Z.to_nat initial) as [|k] eqn:Ek; [lia|]. destruct (runes (part s e (ns_norm n))) as [|c l]; [unfold zlen in Hi; cbn in Hi; lia|].
      cbn [firstn fold_right]. pose proof (zlen_rune c). pose proof (R (firstn k l)). lia.
    - left. pose proof (R (firstn (Z.to_nat initial) (runes (part s e (ns_norm n))))). lia.
    - right. pose proof (R (firstn (Z.to_nat initial) (runes (part s e (ns_norm n))))). split; [lia|exact D]. }
  rewrite Ax. cbn [t_al app]. intros x Hx. apply in_app_iff in Hx. destruct Hx as [Hx|Hx].
  - rewrite <- (firstn_skipn (Z.to_nat s) (ns_al n)). apply in_app_iff. now left.
  - apply in_app_iff in Hx. destruct Hx as [Hx|Hx]; [now apply Ix|].
    rewrite <- (firstn_skipn (Z.to_nat e) (ns_al n)). apply in_app_iff. now right.
Qed.

(** ** Rendering bytes as characters *)
Section WithDivMod.
  Local Ltac Zify.zify_post_hook ::= Z.div_mod_to_equations.
  Lemma encode_rune_bytes r : Forall (fun b => (b < 256)%N) (encode_rune r).
  Proof.
    unfold encode_rune. destruct (N.ltb_spec r 128); [repeat constructor; lia|]. destruct (N.ltb_spec r 2048); [repeat constructor; lia|].
    destruct (scalarb r) eqn:Es; cbn [negb]; [|repeat constructor; lia].
    apply scalarb_spec in Es. unfold scalar in Es. destruct (N.ltb_spec r 65536); repeat constructor; lia.
  Qed.
End WithDivMod.
Lemma encode_bytes rs : Forall (fun b => (b < 256)%N) (encode rs).
Proof. induction rs as [|r rs IH]; [constructor|]. rewrite encode_cons. apply Forall_app. split; [apply encode_rune_bytes|exact IH]. Qed.

Lemma bl_render_clean s : Forall (fun b => (b < 256)%N) s -> exists rs, Forall scalar rs /\ Forall (fun c => c <> 0%N) rs /\ bl_render s = encode rs.
Proof.
  unfold bl_render. induction 1 as [|b s Hb H (rs & A & A' & B)]; [exists []; repeat split; constructor|].
  destruct (byte_char_spec b Hb) as (r & R1 & R2 & _ & R3 & _). exists (r :: rs). split; [constructor; assumption|]. split.
  - constructor; [|assumption]. intros ->. apply R3. unfold invisible. lia.
  - cbn [map concat]. now rewrite encode_cons, B, R2.
Qed.
Lemma bl_render_app a b : bl_render (a ++ b) = bl_render a ++ bl_render b.
Proof. unfold bl_render. now rewrite map_app, concat_app. Qed.

Lemma byte_items_cons r rs : byte_items (r :: rs) = match encode_rune r with [] => [] | b :: bs => (byte_char b, 0) :: map (fun c => (byte_char c, 1)) bs end ++ byte_items rs.
Proof. reflexivity. Qed.
Lemma byte_char_valid b : (b < 256)%N -> valid_utf8 (byte_char b).
Proof. intros H. destruct (byte_char_spec b H) as (r & R1 & R2 & _). exists [r]. split; [now constructor|]. rewrite encode_cons, R2. symmetry. apply app_nil_r. Qed.
Lemma byte_items_valid rs : valid_items (byte_items rs).
Proof.
  induction rs as [|r rs IH]; [constructor|]. rewrite byte_items_cons. pose proof (encode_rune_bytes r) as B. apply Forall_app. split; [|exact IH].
  destruct (encode_rune r) as [|b bs]; [constructor|]. inversion B as [|? ? B1 B2]; subst. constructor; [now apply byte_char_valid|].
  apply Forall_map. eapply Forall_impl; [|exact B2]. intros c Hc. now apply byte_char_valid.
Qed.
Lemma byte_items_text rs : items_text (byte_items rs) = bl_render (encode rs).
Proof.
  induction rs as [|r rs IH]; [reflexivity|]. rewrite byte_items_cons, encode_cons, bl_render_app, <- IH. unfold items_text. rewrite map_app, concat_app. f_equal.
  unfold bl_render. destruct (encode_rune r) as [|b bs]; [reflexivity|]. cbn [map fst concat]. now rewrite map_map.
Qed.
Lemma consumed_app a b : consumed (a ++ b) = consumed a + consumed b.
Proof. induction a as [|[s c] a IH]; [reflexivity|]. cbn [app]. rewrite !consumed_cons, IH. lia. Qed.
Lemma byte_items_consumed rs : consumed (byte_items rs) = zlen rs.
Proof.
  induction rs as [|r rs IH]; [reflexivity|]. rewrite byte_items_cons, consumed_app, IH. replace (zlen (r :: rs)) with (1 + zlen rs) by (unfold zlen; cbn [length]; lia). f_equal.
  pose proof (zlen_rune r). destruct (encode_rune r) as [|b bs]; [unfold zlen in *; cbn in *; lia|]. rewrite consumed_cons. change (0 <? 0) with false. cbn iota.
  assert (E : consumed (map (fun c => (byte_char c, 1)) bs) = 0); [|lia].
  clear. induction bs as [|b bs IH]; [reflexivity|]. cbn [map]. rewrite consumed_cons, IH. reflexivity.
Qed.
Lemma byte_items_first rs : Forall (fun c => c <> 0%N) rs -> first_replaces rs (byte_items rs).
Proof.
  destruct rs as [|r rs]; [constructor|]. intros F. inversion F; subst. rewrite byte_items_cons. pose proof (zlen_rune r).
  destruct (encode_rune r) as [|b bs]; [unfold zlen in *; cbn in *; lia|]. cbn. split; [lia|assumption].
Qed.

(** A piece whose original text maps to its whole text: the text is rendered. *)
Lemma normalize_full n rs : wf n -> ordered (ns_al n) -> ns_norm n = encode rs -> Forall scalar rs -> Forall (fun c => c <> 0%N) rs -> ns_orig n <> [] ->
  expand (ns_ao_values n) = Some (0, zlen (ns_norm n)) ->
  exists m, byte_normalize n = Ok m /\ ns_norm m = bl_render (ns_norm n) /\ wf m /\ ordered (ns_al m) /\ ns_orig m = ns_orig n /\ ns_shift m = ns_shift n /\
    incl (ns_al m) (ns_al n).
Proof.
  intros W O En Sc NZ Ne Ex. unfold byte_normalize, transform.
  assert (T : target n (Rng 0 (zlen (ns_orig n)) OnOriginal) = Ok (Some (Rng 0 (zlen (ns_norm n)) OnNormalized))).
  { rewrite target_full, Ex; [reflexivity| |exact Ne]. unfold ns_ao_values. unfold zlen. rewrite map_length. f_equal. apply W. }
  assert (WL : zlen (ns_al n) = zlen (ns_norm n)) by (unfold zlen; f_equal; apply W).
  assert (Sel : part 0 (zlen (ns_norm n)) (ns_norm n) = ns_norm n) by apply part_all.
  assert (R : runes (ns_norm n) = rs) by (rewrite En; now apply runes_encode). rewrite R.
  pose proof (zlen_nonneg (ns_norm n)) as Z0.
  destruct (transform_range_ok n _ (byte_items rs) _ W O T) as (m & E).
  { cbn [r_start r_end]. lia. }
  { cbn [r_start r_end]. rewrite Z.min_id, Sel, En. now exists rs. }
  { cbn [r_start r_end]. rewrite Z.min_id, Sel, R. exact NZ. }
  { cbn [r_start r_end]. rewrite Z.min_id, Sel, R, byte_items_consumed. lia. }
  exists m. split; [exact E|].
  assert (W' : wf m) by exact (transform_range_wf _ _ _ _ _ W (byte_items_valid rs) E).
  assert (O' : ordered (ns_al m)).
  { apply (transform_range_ordered _ _ _ _ _ _ W O E T); cbn [r_start r_end].
    - rewrite Z.min_id, Sel, En. now exists rs.
    - rewrite Z.min_id, Sel, R. exact NZ.
    - rewrite Z.min_id, Sel, R, byte_items_consumed. lia.
    - now left. }
  assert (I : incl (ns_al m) (ns_al n)).
  { apply (transform_range_drawn _ _ _ _ _ _ E T). right. right. cbn [r_start r_end]. rewrite WL, Z.min_id, Sel, R. now apply byte_items_first. }
  apply transform_range_spec in E. destruct E as (nr & s & e & T' & -> & -> & _ & _ & _ & Ho & Hs & Hn & _ & _).
  rewrite T in T'. injection T' as <-. cbn [r_start r_end] in Hn. split; [|auto 6].
  rewrite Hn, valid_items_text by apply byte_items_valid. rewrite byte_items_text, <- En, WL, Z.min_id. cbn [Z.to_nat firstn app].
  rewrite skipn_all2 by (unfold zlen; lia). apply app_nil_r.
Qed.

Definition no_nul (x : expansion) : Prop := Forall (fun c => c <> 0%N) (runes (exp_out x)).
Lemma exp_text_runes xs : Forall written xs -> Forall no_nul xs -> exists rs, Forall scalar rs /\ Forall (fun c => c <> 0%N) rs /\ exp_text xs = encode rs.
Proof.
  induction 1 as [|x xs [_ (r & Sc & Er)] F IH]; intros Z; [exists []; repeat split; constructor|]. inversion Z as [|? ? Zx Zs]; subst.
  destruct (IH Zs) as (rs & A & B & C). exists (r ++ rs). rewrite exp_text_cons, Er, C. unfold no_nul in Zx. rewrite Er, runes_encode in Zx by assumption.
  split; [now apply Forall_app|]. split; [now apply Forall_app|]. symmetry. apply encode_app.
Qed.
Lemma prefixed_no_nul rs : Forall scalar rs -> Forall (fun c => c <> 0%N) rs -> Forall no_nul (same rs) /\ Forall no_nul (prefixed rs).
Proof.
  intros Sc NZ. assert (G : forall rs, Forall scalar rs -> Forall (fun c => c <> 0%N) rs -> Forall no_nul (same rs)).
  { clear. intros rs Sc NZ. unfold same. apply Forall_map. rewrite Forall_forall in *. intros c Hc. unfold no_nul, exp_out. cbn [fst snd concat]. rewrite app_nil_r.
    replace (encode_rune c) with (encode [c]) by (rewrite encode_cons; apply app_nil_r). rewrite runes_encode by (constructor; auto). constructor; auto. }
  split; [now apply G|]. destruct rs as [|c rest]; [constructor|]. cbn [prefixed]. destruct (c =? 32)%N; [now apply G|].
  inversion Sc; inversion NZ; subst. constructor; [|now apply G]. unfold no_nul, exp_out. cbn [fst snd concat]. rewrite app_nil_r.
  replace ([SP] ++ encode_rune c) with (encode [32%N; c]) by (rewrite !encode_cons, app_nil_r; reflexivity).
  rewrite runes_encode; [|constructor; [unfold scalar; lia|constructor; [assumption|constructor]]]. constructor; [lia|constructor; [assumption|constructor]].
Qed.
Lemma normalize_expanded xs n : wf n -> ordered (ns_al n) -> expanded xs n -> xs <> [] -> Forall written xs -> Forall no_nul xs ->
  exists m, byte_normalize n = Ok m /\ ns_norm m = bl_render (exp_text xs) /\ wf m /\ ordered (ns_al m) /\ ns_orig m = ns_orig n /\ ns_shift m = ns_shift n /\
    incl (ns_al m) (ns_al n).
Proof.
  intros W O (E1 & E2 & E3 & E4) Ne F Z. destruct (exp_text_runes xs F Z) as (rs & Sc & NZ & Er). rewrite <- E2.
  apply (normalize_full n rs W O); [congruence|assumption|assumption| |].
  - rewrite E1. destruct xs as [|x xs]; [congruence|]. cbn [map]. rewrite encode_cons. intros X. apply app_eq_nil in X. destruct X as [X _].
    pose proof (zlen_rune (fst x)) as L. rewrite X in L. unfold zlen in L. cbn in L. lia.
  - rewrite E4, expand_ao, E2 by assumption. reflexivity.
Qed.

(** ** The byte-level pre-tokenizer on fresh text *)
Definition lead (prefix : bool) (rs : list N) : list expansion := if prefix then prefixed rs else same rs.
Lemma lead_chars prefix rs : map fst (lead prefix rs) = rs.
Proof. destruct prefix; [apply prefixed_chars|apply map_fst_same]. Qed.
Lemma lead_written prefix rs : Forall written (lead prefix rs).
Proof. destruct prefix; [apply prefixed_written|apply written_same]. Qed.
Lemma lead_ne prefix rs : rs <> [] -> lead prefix rs <> [].
Proof. intros H E. apply H. rewrite <- (lead_chars prefix rs), E. reflexivity. Qed.

(** What is written in front of a text that does not start with a space. *)
Definition with_space (prefix : bool) (s : str) : str := if prefix && negb (starts_with [SP] s) then SP :: s else s.
Lemma lead_text prefix c rest : scalar c -> exp_text (lead prefix (c :: rest)) = with_space prefix (encode (c :: rest)).
Proof.
  intros Sc. unfold with_space. rewrite starts_space by assumption. destruct prefix; cbn [lead andb]; [|apply exp_text_same].
  rewrite prefixed_text. destruct (c =? 32)%N; reflexivity.
Qed.

Lemma gpt2_matches u s : s <> [] -> find_matches (PRegexp (find_gpt2 u)) s = Ok (re_matches (find_gpt2 u s) s).
Proof. intros H. destruct s; [congruence|]. reflexivity. Qed.

Lemma gpt2_positions u prefix rs : Forall scalar rs -> rs <> [] -> (prefix = true -> hd 0%N rs <> 32%N -> blank_ok u) ->
  let xs := lead prefix rs in
  Forall (fun m => exp_pos xs (snd (fst m))) (re_matches (find_gpt2 u (exp_text xs)) (exp_text xs)).
Proof.
  intros Sc Ne U xs. destruct rs as [|c rest]; [congruence|]. inversion Sc as [|? ? Sc1 Sc2]; subst.
  assert (Same : forall l, Forall scalar l -> Forall (fun m => exp_pos (same l) (snd (fst m))) (re_matches (find_gpt2 u (encode l)) (encode l))).
  { clear. intros l Sc. pose proof (re_ends (char_pos l) (find_gpt2 u (encode l)) (encode l)) as H.
    apply Forall_impl with (P := fun m : offsets_match => char_pos l (fst (fst m)) /\ char_pos l (snd (fst m))); [intros m [_ Hm]; now apply exp_pos_same|].
    apply H.
    - apply (gpt2_well_behaved u).
    - exists 0%nat. split; [lia|reflexivity].
    - exists (length l). split; [lia|]. now rewrite firstn_all.
    - unfold find_gpt2. rewrite runes_w_encode by assumption. fold (widths l). pose proof (gpt2_cut u l [] 0) as G. cbn [app] in G. change (bytes []) with 0 in G.
      eapply Forall_impl; [|exact G]. intros m (_ & A & B). auto. }
  destruct prefix; [|unfold xs; cbn [lead]; rewrite exp_text_same; now apply Same].
  unfold xs. cbn [lead]. destruct (N.eqb_spec c 32) as [E|Hc].
  { cbn [prefixed]. rewrite (proj2 (N.eqb_eq c 32) E). rewrite exp_text_same. now apply Same. }
  specialize (U eq_refl Hc). assert (Ec : (c =? 32)%N = false) by (now apply N.eqb_neq).
  rewrite prefixed_text, Ec. set (l := 32%N :: c :: rest). replace (SP :: encode (c :: rest)) with (encode l) by (unfold l; rewrite (encode_cons 32); reflexivity).
  assert (Sl : Forall scalar l) by (constructor; [unfold scalar; lia|assumption]).
  pose proof (re_ends (fun i => char_pos l i /\ i <> 1) (find_gpt2 u (encode l)) (encode l)) as H.
  eapply Forall_impl; [|apply H].
  - cbn beta. intros m [_ [A B]]. now apply exp_pos_prefixed.
  - apply (gpt2_well_behaved u).
  - split; [exists 0%nat; split; [lia|reflexivity]|lia].
  - split; [exists (length l); split; [lia|now rewrite firstn_all]|]. fold (bytes l). unfold l. rewrite !bytes_cons. pose proof (zlen_rune c). pose proof (bytes_nonneg rest).
    change (zlen (encode_rune 32)) with 1. unfold zlen in *. lia.
  - unfold find_gpt2. rewrite runes_w_encode by assumption. fold (widths l). pose proof (gpt2_cut u l [] 0) as G. cbn [app] in G. change (bytes []) with 0 in G.
    pose proof (gpt2_space u c rest U Hc) as G2. fold l in G2. rewrite Forall_forall in *. intros m Hm. specialize (G m Hm). specialize (G2 m Hm). tauto.
Qed.

Definition group_piece (g : list expansion) (sp : split) : Prop :=
  sp_toks sp = None /\ expanded g (sp_ns sp) /\ wf (sp_ns sp) /\ ordered (ns_al (sp_ns sp)).
Lemma byte_split_fresh u prefix i rs n : Forall scalar rs -> Forall (fun c => c <> 0%N) rs -> rs <> [] ->
  (prefix = true -> hd 0%N rs <> 32%N -> blank_ok u) ->
  fresh_as rs n -> wf n -> ordered (ns_al n) ->
  exists gs l, byte_split u prefix i n = Ok l /\ concat gs = lead prefix rs /\ Forall (fun g => g <> []) gs /\ Forall2 group_piece gs l.
Proof.
  intros Sc NZ Ne U Fr W O. assert (En : ns_norm n = encode rs) by apply Fr.
  assert (S1 : exists n1, (if prefix && negb (starts_with [SP] (ns_norm n)) then ns_prepend [SP] n else Ok n) = Ok n1 /\
    expanded (lead prefix rs) n1 /\ wf n1 /\ ordered (ns_al n1)).
  { destruct rs as [|c rest]; [congruence|]. inversion Sc; subst. rewrite En, starts_space by assumption. destruct prefix; cbn [andb lead].
    - destruct (N.eqb_spec c 32) as [E|Hc]; cbn [negb].
      + exists n. split; [reflexivity|]. split; [|split; assumption]. cbn [prefixed]. rewrite (proj2 (N.eqb_eq c 32) E). apply fresh_expanded. exact Fr.
      + apply (prepend_fresh (c :: rest)); auto.
    - exists n. split; [reflexivity|]. split; [|split; assumption]. apply fresh_expanded. exact Fr. }
  destruct S1 as (n1 & E1 & X1 & W1 & O1). assert (En1 : ns_norm n1 = exp_text (lead prefix rs)) by apply X1.
  assert (Ne1 : ns_norm n1 <> []).
  { rewrite En1. pose proof (lead_ne prefix rs Ne). pose proof (lead_written prefix rs) as F. destruct (lead prefix rs) as [|x l]; [congruence|].
    inversion F; subst. now apply exp_text_ne. }
  assert (V1 : valid_utf8 (ns_norm n1)) by (rewrite En1; apply exp_text_valid, lead_written).
  destruct (find_matches_cut (PRegexp (find_gpt2 u)) (ns_norm n1) V1 Ne1 (gpt2_well_behaved u) I (gpt2_between u _ V1)) as (ms & Em & Pm & Cm).
  destruct (split_expanded n1 (lead prefix rs) (PRegexp (find_gpt2 u)) Isolated W1 O1 X1 (lead_written prefix rs) (lead_ne prefix rs Ne) eq_refl)
    as (gs & ps & G1 & G2 & G3 & G4).
  { exists ms. repeat (split; [assumption|]). rewrite (gpt2_matches u _ Ne1) in Em. injection Em as <-. rewrite En1. now apply gpt2_positions. }
  exists gs, (untokenized ps). split; [|split; [exact G1|split; [exact G2|]]].
  - unfold byte_split. rewrite E1. cbn [bind]. unfold split_by. rewrite G3. reflexivity.
  - clear - G4. unfold untokenized. induction G4 as [|g m gs ps H F IH]; [constructor|]. cbn [map]. constructor; [|exact IH].
    unfold group_piece. cbn. destruct H as (A & B & C). auto.
Qed.

(** A piece made of a group, rendered. *)
Definition rendered_piece (sp sp' : split) : Prop :=
  sp_toks sp' = None /\ sp_text sp' = bl_render (sp_text sp) /\ wf (sp_ns sp') /\ ordered (ns_al (sp_ns sp')) /\
  ns_orig (sp_ns sp') = ns_orig (sp_ns sp) /\ ns_shift (sp_ns sp') = ns_shift (sp_ns sp) /\ incl (ns_al (sp_ns sp')) (ns_al (sp_ns sp)).
Lemma normalize_groups gs l : Forall2 group_piece gs l -> Forall (fun g => g <> []) gs -> Forall written (concat gs) -> Forall no_nul (concat gs) ->
  exists l', normalize_pieces byte_normalize l = Ok l' /\ Forall2 rendered_piece l l'.
Proof.
  induction 1 as [|g [n ts] gs l (H1 & H2 & H3 & H4) F IH]; intros Ne W Z; [exists []; split; [reflexivity|constructor]|].
  cbn [sp_ns sp_toks] in *. subst ts. cbn [concat] in W, Z. apply Forall_app in W. apply Forall_app in Z. inversion Ne as [|? ? Ne1 Ne2]; subst.
  destruct (normalize_expanded g n H3 H4 H2 Ne1 (proj1 W) (proj1 Z)) as (m & Em & M1 & M2). destruct (IH Ne2 (proj2 W) (proj2 Z)) as (l' & El & Fl).
  exists (Spl m None :: l'). split; [cbn [normalize_pieces sp_toks sp_ns]; rewrite Em; cbn [bind]; now rewrite El|].
  constructor; [|exact Fl]. unfold rendered_piece. cbn [sp_toks sp_ns]. split; [reflexivity|]. split; [|exact M2].
  unfold sp_text. cbn [sp_ns]. rewrite M1. f_equal. symmetry. apply H2.
Qed.

Lemma groups_text gs l : Forall2 group_piece gs l -> concat (map sp_text l) = exp_text (concat gs).
Proof.
  induction 1 as [|g sp gs l (_ & H & _) F IH]; [reflexivity|]. cbn [map concat]. rewrite exp_text_app, IH. f_equal. apply H.
Qed.
Lemma rendered_text l l' : Forall2 rendered_piece l l' -> concat (map sp_text l') = bl_render (concat (map sp_text l)).
Proof.
  induction 1 as [|sp sp' l l' (_ & H & _) F IH]; [reflexivity|]. cbn [map concat]. now rewrite bl_render_app, IH, H.
Qed.
Lemma groups_nonempty gs l : Forall2 group_piece gs l -> Forall (fun g => g <> []) gs -> Forall written (concat gs) ->
  filter (fun x => match ns_norm (sp_ns x) with [] => false | _ => true end) l = l.
Proof.
  induction 1 as [|g sp gs l (_ & H & _) F IH]; intros Ne W; [reflexivity|]. cbn [concat] in W. apply Forall_app in W. inversion Ne as [|? ? Ne1 Ne2]; subst.
  cbn [filter]. rewrite (IH Ne2 (proj2 W)). destruct g as [|x g]; [congruence|]. destruct W as [W _]. inversion W; subst.
  destruct (ns_norm (sp_ns sp)) as [|b t] eqn:E; [|reflexivity]. exfalso. destruct H as (_ & H & _). rewrite E in H. symmetry in H. revert H. now apply exp_text_ne.
Qed.

Lemma byte_level_text u prefix rs : Forall scalar rs -> Forall (fun c => c <> 0%N) rs -> rs <> [] -> blank_ok u ->
  exists p', pre_tokenize u (PTByteLevel prefix) (pt_new (encode rs)) = Ok p' /\ concat (map sp_text (pt_splits p')) = bl_render (with_space prefix (encode rs)).
Proof.
  intros Sc NZ Ne U. assert (V : valid_utf8 (encode rs)) by (now exists rs). pose proof (new_ns_wf _ V) as W. pose proof (new_ns_ordered (encode rs)) as O.
  destruct (byte_split_fresh u prefix 0 rs (new_ns (encode rs)) Sc NZ Ne (fun _ _ => U) (new_fresh rs Sc) W O) as (gs & l & E & Cg & Ng & Fg).
  pose proof (lead_written prefix rs) as Wr. assert (Zr : Forall no_nul (lead prefix rs)) by (destruct prefix; now apply prefixed_no_nul).
  rewrite <- Cg in Wr, Zr. destruct (normalize_groups gs l Fg Ng Wr Zr) as (l' & En & Fr).
  exists (PT (encode rs) l'). split.
  - cbn [pre_tokenize]. unfold pt_split, pt_new, pt_from_ns. cbn [pt_splits pt_orig split_pieces sp_toks sp_ns]. rewrite E. cbn [bind].
    rewrite (groups_nonempty gs l Fg Ng Wr), app_nil_r. cbn [bind]. unfold pt_normalize. cbn [pt_splits]. rewrite En. reflexivity.
  - cbn [pt_splits]. rewrite (rendered_text _ _ Fr), (groups_text _ _ Fg), Cg. f_equal. destruct rs as [|c rest]; [congruence|].
    inversion Sc; subst. now apply lead_text.
Qed.

Lemma encode_no_nul rs : Forall scalar rs -> ~ In 0%N (encode rs) -> Forall (fun c => c <> 0%N) rs.
Proof.
  intros Sc H. apply Forall_forall. intros c Hc ->. apply H. apply in_split in Hc. destruct Hc as (a & b & ->). rewrite encode_app, encode_cons.
  apply in_app_iff. right. left. reflexivity.
Qed.

Lemma byte_level_pieces u prefix p p' : pre_tokenize u (PTByteLevel prefix) p = Ok p' -> pt_orig p' = pt_orig p /\ Forall (fun sp => sp_toks sp = None) (pt_splits p').
Proof.
  cbn [pre_tokenize]. unfold pt_split, pt_normalize. destruct (split_pieces _ 0 (pt_splits p)) as [l| | | |]; cbn [bind]; try discriminate. cbn [pt_splits pt_orig].
  destruct (normalize_pieces byte_normalize l) as [l'| | | |] eqn:E; cbn [bind]; try discriminate. intros [= <-]. cbn [pt_splits pt_orig]. split; [reflexivity|].
  revert l' E. clear. induction l as [|[n ts] l IH]; cbn [normalize_pieces sp_toks sp_ns]; intros l' E; [injection E as <-; constructor|].
  destruct ts; [now apply IH|]. destruct (byte_normalize n) as [m| | | |]; cbn [bind] in E; try discriminate E.
  destruct (normalize_pieces byte_normalize l) as [r| | | |]; cbn [bind] in E; try discriminate E. injection E as <-. constructor; [reflexivity|now apply IH].
Qed.
Lemma byte_level_restored u prefix s m : un_letter u 32 = false -> un_number u 32 = false -> valid_utf8 s -> ~ In 0%N s ->
  exists p', pre_tokenize u (PTByteLevel prefix) (pt_new s) = Ok p' /\ pt_orig p' = s /\
    Forall (fun sp => sp_toks sp = None) (pt_splits p') /\
    decode m DByteLevel (map sp_text (pt_splits p')) = Ok (spaced prefix s).
Proof.
  intros U1 U2 (rs & Sc & ->) NZ. pose proof (encode_no_nul rs Sc NZ) as Z. destruct rs as [|c rest].
  - exists (PT [] []). split; [destruct prefix; reflexivity|]. split; [reflexivity|]. split; [constructor|]. reflexivity.
  - destruct (byte_level_text u prefix (c :: rest) Sc Z ltac:(discriminate) (conj U1 U2)) as (p' & E & T). exists p'. split; [exact E|].
    destruct (byte_level_pieces _ _ _ _ E) as [A B]. split; [exact A|]. split; [exact B|]. cbn [decode]. f_equal. rewrite T.
    assert (Sp : spaced prefix (encode (c :: rest)) = with_space prefix (encode (c :: rest))).
    { rewrite encode_cons. pose proof (zlen_rune c) as L. destruct (encode_rune c) as [|b l]; [unfold zlen in L; cbn in L; lia|]. cbn [app spaced]. unfold with_space.
      replace (starts_with [SP] (b :: l ++ encode rest)) with (b =? 32)%N; [reflexivity|].
      transitivity ((32 =? b)%N && true); [|reflexivity]. now rewrite andb_true_r, N.eqb_sym. }
    rewrite Sp. apply bl_decode_render. unfold with_space. destruct (prefix && _); [constructor; [reflexivity|]|]; apply encode_bytes.
Qed.
