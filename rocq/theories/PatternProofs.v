(** Proofs about patterns. *)
From Verif Require Import Base Utf8Model Utf8Proofs PatternModel PatternSpec.
Local Open Scope Z_scope.

Definition width (l : list (N * nat)) : Z := Z.of_nat (fold_right (fun p n => (snd p + n)%nat) 0%nat l).

Lemma width_cons r w l : width ((r, w) :: l) = Z.of_nat w + width l.
Proof. unfold width. cbn [fold_right snd]. lia. Qed.

Lemma width_runes s : width (runes_w s) = zlen s.
Proof. unfold width. now rewrite runes_w_total. Qed.

Definition tail_piece (has : bool) (prev e : Z) : list offsets_match :=
  if has then [((prev, e), false)] else [].

Lemma matched_app a b : matched (a ++ b) = matched a ++ matched b.
Proof. unfold matched. now rewrite filter_app, map_app. Qed.
Lemma matched_true p l : matched ((p, true) :: l) = p :: matched l.
Proof. reflexivity. Qed.
Lemma matched_false p l : matched ((p, false) :: l) = matched l.
Proof. reflexivity. Qed.

Lemma fn_loop_ok f l : forall i prev has,
  Forall (fun p => (1 <= snd p)%nat /\ (f (fst p) = true -> length (encode_rune (fst p)) = snd p)) l ->
  (has = false -> prev = i) -> (has = true -> prev < i) ->
  let '(subs, (prev', has')) := fn_loop f l i prev has in
  let out := subs ++ tail_piece has' prev' (i + width l) in
  partition prev (i + width l) out /\ alternating out /\ matched out = matched subs /\
  (has = true -> out <> [] /\ snd (hd ((0, 0), false) out) = false) /\
  (has = false -> out <> [] -> True).
Proof.
  induction l as [|[r w] l IH]; intros i prev has HF H0 H1.
  - cbn [fn_loop]. unfold width, tail_piece. cbn [fold_right Z.of_nat app]. rewrite Z.add_0_r.
    destruct has.
    + specialize (H1 eq_refl). cbn. repeat split; try lia; try discriminate; auto.
    + specialize (H0 eq_refl). cbn. repeat split; auto; discriminate.
  - inversion HF as [|x xs [Hw Hf] HF']; subst. cbn [fst snd] in *.
    rewrite width_cons. cbn [fn_loop]. destruct (f r) eqn:Ef.
    + specialize (Hf eq_refl). unfold zlen. rewrite Hf.
      specialize (IH (i + Z.of_nat w) (i + Z.of_nat w) false HF' (fun _ => eq_refl) ltac:(discriminate)).
      destruct (fn_loop f l (i + Z.of_nat w) (i + Z.of_nat w) false) as [subs [prev' has']].
      rewrite <- Z.add_assoc in IH. cbn zeta in *.
      set (out := subs ++ tail_piece has' prev' (i + (Z.of_nat w + width l))) in *.
      destruct IH as (P & A & M & _ & _).
      rewrite <- !app_assoc, <- !app_comm_cons. fold out.
      assert (A' : alternating (((i, i + Z.of_nat w), true) :: out)).
      { cbn [alternating]. destruct out; auto. }
      assert (P' : partition i (i + (Z.of_nat w + width l)) (((i, i + Z.of_nat w), true) :: out)).
      { cbn [partition]. repeat split; auto; lia. }
      destruct has.
      * specialize (H1 eq_refl). cbn [app]. repeat split; auto; try discriminate; try lia.
        rewrite ?matched_false, !matched_true, ?matched_false. f_equal; exact M.
      * specialize (H0 eq_refl). subst prev. cbn [app]. repeat split; auto; try discriminate; try apply P'.
        rewrite ?matched_false, !matched_true, ?matched_false. f_equal; exact M.
    + specialize (IH (i + Z.of_nat w) prev true HF' ltac:(discriminate)).
      assert (HI : true = true -> prev < i + Z.of_nat w).
      { intros _. destruct has; [specialize (H1 eq_refl)|specialize (H0 eq_refl)]; lia. }
      specialize (IH HI).
      destruct (fn_loop f l (i + Z.of_nat w) prev true) as [subs [prev' has']].
      rewrite <- Z.add_assoc in IH. cbn zeta in *. destruct IH as (P & A & M & O & _).
      repeat split; auto; intros; now apply O.
Qed.

Lemma runes_w_good s f : fn_safe s f ->
  Forall (fun p => (1 <= snd p)%nat /\ (f (fst p) = true -> length (encode_rune (fst p)) = snd p)) (runes_w s).
Proof.
  intros [V|V].
  - destruct V as (rs & Hs & ->). rewrite runes_w_encode by assumption.
    apply Forall_map, Forall_forall. intros r _. cbn. split; [apply encode_rune_length|reflexivity].
  - apply (runes_w_ind (fun _ l => Forall (fun p => (1 <= snd p)%nat /\ (f (fst p) = true -> length (encode_rune (fst p)) = snd p)) l));
      [constructor|].
    intros s0 r w Hs D IH. constructor; [|exact IH]. cbn.
    pose proof (decode_width s0 Hs) as W. pose proof (decode_spec s0 Hs) as H.
    rewrite D in W, H. cbn in W. split; [lia|]. intros Hf.
    destruct H as [_ [H|(E & _)]]; [|congruence]. rewrite <- H, firstn_length. lia.
Qed.

Lemma fn_matches_partition s f : fn_safe s f ->
  partition 0 (zlen s) (fn_matches f s) /\ alternating (fn_matches f s).
Proof.
  intros H. unfold fn_matches. destruct (Nat.eqb_spec (length s) 0) as [E|E].
  - unfold zlen. rewrite E. cbn. repeat split; auto. lia.
  - pose proof (fn_loop_ok f (runes_w s) 0 0 false (runes_w_good s f H) (fun _ => eq_refl) ltac:(discriminate)) as L.
    destruct (fn_loop f (runes_w s) 0 0 false) as [subs [prev has]]. rewrite width_runes in L.
    cbn zeta in L. destruct L as (P & A & _). split; assumption.
Qed.

(** Which ranges match. *)
Lemma fn_loop_matched f rs : forall i prev has,
  matched (fst (fn_loop f (map (fun r => (r, length (encode_rune r))) rs) i prev has)) = char_ranges f i rs.
Proof.
  induction rs as [|r rs IH]; intros i prev has; [reflexivity|]. cbn [map fn_loop char_ranges].
  fold (zlen (encode_rune r)). destruct (f r).
  - specialize (IH (i + zlen (encode_rune r)) (i + zlen (encode_rune r)) false).
    destruct (fn_loop f _ _ _ _) as [subs st]. cbn [fst] in *.
    rewrite matched_app, matched_true, IH. now destruct has.
  - apply IH.
Qed.

Lemma fn_matches_matched f rs : Forall scalar rs ->
  matched (fn_matches f (encode rs)) = char_ranges f 0 rs.
Proof.
  intros H. unfold fn_matches. destruct (Nat.eqb_spec (length (encode rs)) 0) as [E|E].
  - destruct rs as [|r rs]; [reflexivity|]. rewrite encode_cons, app_length in E.
    pose proof (encode_rune_length r). lia.
  - rewrite runes_w_encode by assumption.
    pose proof (fn_loop_matched f rs 0 0 false) as M.
    destruct (fn_loop f _ 0 0 false) as [subs [prev has]]. cbn [fst] in M.
    rewrite matched_app, M. destruct has; cbn; now rewrite app_nil_r.
Qed.

(** ** Regular expressions *)
Lemma re_loop_ok ms : forall total cur, ms <> [] -> cur = fst (hd (0, 0) ms) ->
  ordered_matches cur total ms ->
  let '(subs, c) := re_loop ms cur in
  partition cur c subs /\ c <= total /\ alternating subs /\
  matched subs = ms /\ snd (hd ((0, 0), false) subs) = true /\
  snd (last subs ((0, 0), false)) = true /\ subs <> [].
Proof.
  induction ms as [|[a b] ms IH]; intros total cur Hne Hc H; [congruence|]. clear Hne.
  cbn [hd fst re_loop snd] in *. subst cur. destruct H as [[_ Hab] H].
  replace (a + (b - a)) with b by lia.
  destruct ms as [|[a' b'] ms]; [cbn in *; repeat split; auto; try lia; discriminate|].
  cbn [ordered_matches] in H. destruct H as [[Hb Hab'] H].
  specialize (IH total a' ltac:(discriminate) eq_refl).
  assert (O : ordered_matches a' total ((a', b') :: ms)) by (cbn; split; [lia|exact H]).
  specialize (IH O). clear O. cbn [fst snd].
  destruct (Z.eqb_spec b a') as [->|Hne].
  - destruct (re_loop ((a', b') :: ms) a') as [subs c].
    destruct IH as (P & L & A & M & Hd & La & N). repeat split; auto; try discriminate.
    + destruct subs; cbn [alternating]; auto.
    + rewrite ?matched_false, !matched_true, ?matched_false. now rewrite M.
    + destruct subs; [congruence|exact La].
  - replace (b + (a' - b)) with a' by lia.
    destruct (re_loop ((a', b') :: ms) a') as [subs c].
    destruct IH as (P & L & A & M & Hd & La & N). repeat split; auto; try discriminate.
    + destruct subs as [|x subs]; [congruence|]. cbn [alternating snd]. auto.
    + rewrite ?matched_false, !matched_true, ?matched_false. now rewrite M.
    + destruct subs; [congruence|exact La].
Qed.

Lemma partition_app l1 : forall a b c l2, partition a b l1 -> partition b c l2 -> partition a c (l1 ++ l2).
Proof.
  induction l1 as [|[[s e] k] l1 IH]; cbn; intros a b c l2 H1 H2; [now subst|].
  destruct H1 as (-> & L & P). repeat split; auto. eapply IH; eassumption.
Qed.

Lemma alternating_snoc l x : alternating l -> (l = [] \/ snd (last l ((0, 0), false)) = true) ->
  alternating (l ++ [x]).
Proof.
  induction l as [|y l IH]; cbn [app]; intros A H; [exact I|].
  destruct l as [|z l].
  - cbn. destruct H as [H|H]; [discriminate|]. cbn in H. auto.
  - destruct A as [A1 A2]. change ((z :: l) ++ [x]) with (z :: (l ++ [x])) in *. cbn [alternating].
    split; [exact A1|]. apply IH; [exact A2|]. right. destruct H as [H|H]; [discriminate|exact H].
Qed.

Lemma re_matches_ok ms s : ordered_matches 0 (zlen s) ms ->
  partition 0 (zlen s) (re_matches ms s) /\ alternating (re_matches ms s) /\ matched (re_matches ms s) = ms.
Proof.
  intros H. unfold re_matches. destruct ms as [|m0 ms].
  { cbn in *. repeat split; auto. }
  destruct m0 as [a b]. cbn [fst].
  assert (C : exists first, (if 0 <? a then ([((0, a), false)], a) else ([], 0)) = (first, a) /\
              partition 0 a first /\ matched first = [] /\ (first = [] \/ exists x, first = [x])).
  { cbn in H. destruct (Z.ltb_spec 0 a).
    - exists [((0, a), false)]. cbn. repeat split; eauto; lia.
    - assert (a = 0) by lia. subst a. exists []. cbn. auto. }
  destruct C as (first & -> & P1 & M1 & S1).
  assert (O : ordered_matches a (zlen s) ((a, b) :: ms)).
  { cbn in *. split; [lia|apply H]. }
  pose proof (re_loop_ok ((a, b) :: ms) (zlen s) a ltac:(discriminate) eq_refl O) as L.
  destruct (re_loop ((a, b) :: ms) a) as [subs c].
  destruct L as (P & Lc & A & M & Hd & La & N).
  set (tl := if c <? zlen s then [((c, zlen s), false)] else []).
  assert (Pt : partition c (zlen s) tl).
  { subst tl. destruct (Z.ltb_spec c (zlen s)); cbn; lia. }
  assert (Mt : matched tl = []) by (subst tl; destruct (c <? zlen s); reflexivity).
  assert (At : alternating (subs ++ tl)).
  { subst tl. destruct (c <? zlen s); [|now rewrite app_nil_r]. apply alternating_snoc; auto. }
  repeat split.
  - eapply partition_app; [exact P1|]. eapply partition_app; eassumption.
  - destruct S1 as [->|(x & ->)]; [exact At|]. cbn [app].
    destruct subs as [|y subs]; [congruence|]. cbn [app hd] in *. cbn [alternating]. auto.
  - rewrite !matched_app, M1, M, Mt. now rewrite app_nil_r.
Qed.

Lemma partition_invert l : forall a b, partition a b l -> partition a b (invert l).
Proof.
  induction l as [|[[s e] k] l IH]; cbn; intros a b; [auto|]. intros (-> & L & P). auto.
Qed.

Lemma find_matches_partition p s : well_behaved p -> supported p -> safe_on s p ->
  exists ms, find_matches p s = Ok ms /\ partition 0 (zlen s) ms.
Proof.
  assert (ZL : partition 0 (zlen s) [((0, zlen s), false)]).
  { cbn. unfold zlen. lia. }
  assert (R : forall find, (forall s, ordered_matches 0 (zlen s) (find s)) ->
    exists ms, (if (length s =? 0)%nat then Ok [((0, 0), false)] else Ok (re_matches (find s) s)) = Ok ms
               /\ partition 0 (zlen s) ms).
  { intros find W. destruct (Nat.eqb_spec (length s) 0) as [E|E]; eexists; (split; [reflexivity|]).
    - unfold zlen. rewrite E. cbn. lia.
    - apply re_matches_ok, W. }
  assert (Q : forall (q : str) find, (forall s, ordered_matches 0 (zlen s) (find s)) ->
    exists ms, (if (length q =? 0)%nat then Ok [((0, zlen s), false)] else Ok (re_matches (find s) s)) = Ok ms
               /\ partition 0 (zlen s) ms).
  { intros q find W. destruct (length q =? 0)%nat; eexists; (split; [reflexivity|]); [exact ZL|].
    apply re_matches_ok, W. }
  destruct p as [r|q find|find|f|p|find]; cbn [well_behaved supported safe_on]; intros W Sp Sf.
  - eexists; split; [reflexivity|]. now apply fn_matches_partition.
  - exact (Q q find W).
  - exact (R find W).
  - eexists; split; [reflexivity|]. now apply fn_matches_partition.
  - destruct p as [r|q find|find|f|p|find]; cbn [well_behaved invertible] in *; try contradiction.
    + eexists; split; [reflexivity|]. now apply partition_invert, fn_matches_partition.
    + destruct (Q q find W) as (ms & E & P). exists (invert ms). cbn [find_matches]. rewrite E. cbn.
      split; [reflexivity|now apply partition_invert].
    + destruct (R find W) as (ms & E & P). exists (invert ms). cbn [find_matches]. rewrite E. cbn.
      split; [reflexivity|now apply partition_invert].
    + eexists; split; [reflexivity|]. now apply partition_invert, fn_matches_partition.
  - eexists; split; [reflexivity|]. apply W.
Qed.

(** ** The text around the ranges *)
Lemma find_matches_alternating p s ms : well_behaved p -> safe_on s p ->
  invertible p -> find_matches p s = Ok ms -> alternating ms.
Proof.
  destruct p as [r|q find|find|f|p|find]; cbn [well_behaved safe_on invertible find_matches];
    intros W Sf I E; try contradiction.
  - injection E as <-. now apply fn_matches_partition.
  - destruct (length q =? 0)%nat; injection E as <-; [exact Logic.I|]. apply re_matches_ok, W.
  - destruct (length s =? 0)%nat; injection E as <-; [exact Logic.I|]. apply re_matches_ok, W.
  - injection E as <-. now apply fn_matches_partition.
Qed.

(** ** Invalid UTF-8 *)
Lemma fn_loop_snoc_bad f l w : forall i prev has, f rune_error = true ->
  exists subs, fn_loop f (l ++ [(rune_error, w)]) i prev has =
    (subs ++ [((i + width l, i + width l + 3), true)], (i + width l + 3, false)).
Proof.
  induction l as [|[r k] l IH]; intros i prev has Hf.
  - cbn [app fn_loop]. rewrite Hf. replace (width []) with 0 by reflexivity.
    rewrite Z.add_0_r. change (zlen (encode_rune rune_error)) with 3.
    exists (if has then [((prev, i), false)] else []). reflexivity.
  - cbn [app fn_loop]. rewrite width_cons.
    destruct (f r).
    + destruct (IH (i + Z.of_nat k) (i + zlen (encode_rune r)) false Hf) as (subs & ->).
      exists ((if has then [((prev, i), false)] else []) ++ ((i, i + zlen (encode_rune r)), true) :: subs).
      rewrite <- !app_assoc, <- app_comm_cons, !Z.add_assoc. reflexivity.
    + destruct (IH (i + Z.of_nat k) prev true Hf) as (subs & ->). exists subs.
      rewrite !Z.add_assoc. reflexivity.
Qed.

Lemma partition_last l x : forall a b, partition a b (l ++ [x]) -> snd (fst x) = b.
Proof.
  induction l as [|[[s e] k] l IH]; cbn [app partition]; intros a b.
  - destruct x as [[s e] k]. cbn. tauto.
  - intros (_ & _ & P). eapply IH, P.
Qed.

Lemma decode_bad_byte b : (128 <= b)%N -> decode_rune [b] = (rune_error, 1%nat).
Proof.
  intros H. cbn [decode_rune]. destruct (N.ltb_spec b 128); [lia|].
  repeat match goal with |- context [if ?c then _ else _] => destruct c end; reflexivity.
Qed.

Lemma fn_matches_bad f rs b : Forall scalar rs -> (128 <= b)%N -> f rune_error = true ->
  exists subs, fn_matches f (encode rs ++ [b]) =
    subs ++ [((zlen (encode rs), zlen (encode rs) + 3), true)].
Proof.
  intros H Hb Hf. unfold fn_matches. rewrite app_length. cbn [length].
  destruct (Nat.eqb_spec (length (encode rs) + 1) 0) as [E|_]; [lia|].
  rewrite runes_w_encode_app by assumption.
  rewrite (runes_w_cons [b]) by discriminate. rewrite decode_bad_byte by assumption.
  cbn [snd skipn]. rewrite runes_w_nil.
  destruct (fn_loop_snoc_bad f (map (fun r => (r, length (encode_rune r))) rs) 1%nat 0 0 false Hf) as (subs & ->).
  replace (width (map (fun r => (r, length (encode_rune r))) rs)) with (zlen (encode rs)).
  - exists subs. rewrite app_nil_r. reflexivity.
  - clear. unfold width, zlen. f_equal. induction rs as [|r rs IH]; [reflexivity|].
    rewrite encode_cons, app_length, IH. reflexivity.
Qed.

Lemma fn_matches_overrun f rs b : Forall scalar rs -> (128 <= b)%N -> f rune_error = true ->
  ~ partition 0 (zlen (encode rs ++ [b])) (fn_matches f (encode rs ++ [b])).
Proof.
  intros H Hb Hf P. destruct (fn_matches_bad f rs b H Hb Hf) as (subs & E). rewrite E in P.
  apply partition_last in P. cbn [fst snd] in P. revert P. unfold zlen. rewrite app_length. cbn [length]. lia.
Qed.

Lemma invert_matched_not l : matched (invert l) = unmatched l.
Proof.
  unfold matched, unmatched, invert. induction l as [|[p []] l IH]; cbn; [reflexivity|exact IH|now rewrite IH].
Qed.

Lemma invert_facts l : map fst (invert l) = map fst l /\ matched (invert l) = unmatched l /\
  unmatched (invert l) = matched l.
Proof.
  unfold matched, unmatched, invert.
  induction l as [|[p []] l (H1 & H2 & H3)]; cbn; auto;
    (split; [now rewrite H1|]); split; auto; now rewrite ?H2, ?H3.
Qed.

Lemma find_matches_invert p s ms : find_matches (PInvert p) s = Ok ms ->
  exists ms0, find_matches p s = Ok ms0 /\
    map fst ms = map fst ms0 /\ matched ms = unmatched ms0 /\ unmatched ms = matched ms0.
Proof.
  destruct p as [r|q find|find|f|p|find]; cbn [find_matches]; intros E; try discriminate E.
  - injection E as <-. eexists; split; [reflexivity|apply invert_facts].
  - destruct (length q =? 0)%nat; injection E as <-; (eexists; split; [reflexivity|first [apply invert_facts|cbn; auto]]).
  - destruct (length s =? 0)%nat; injection E as <-; (eexists; split; [reflexivity|first [apply invert_facts|cbn; auto]]).
  - injection E as <-. eexists; split; [reflexivity|apply invert_facts].
Qed.
