From Verif Require Import Base EncodingSpec EncodingProofs SliceModel.

Lemma upd_length {B} (l : list B) i x : length (upd l i x) = length l.
Proof. revert i; induction l as [|y l IH]; intros [|i]; cbn; auto. Qed.

Lemma nth_upd {B} (l : list B) i j x d :
  nth j (upd l i x) d = if (j =? i) && (i <? length l) then x else nth j l d.
Proof.
  revert i j; induction l as [|y l IH]; intros [|i] [|j]; cbn; try reflexivity.
  - now rewrite andb_false_r.
  - rewrite IH. destruct (j =? i); [|reflexivity]. cbn [andb].
    replace (S i <? S (length l)) with (i <? length l) by lia. reflexivity.
Qed.

Lemma upd_same {B} (l : list B) i d : upd l i (nth i l d) = l.
Proof.
  revert i; induction l as [|y l IH]; intros [|i]; cbn; auto. now rewrite IH.
Qed.

Lemma store_length {A} (l : list A) i xs : length (store l i xs) = length l.
Proof.
  revert l i; induction xs as [|x xs IH]; intros l i; cbn; [reflexivity|].
  now rewrite IH, upd_length.
Qed.

(** Storing what is already there changes nothing. *)
Lemma store_same {A} (l : list A) i n :
  store l i (firstn n (skipn i l)) = l.
Proof.
  revert l i; induction n as [|n IH]; intros l i; cbn; [reflexivity|].
  destruct (skipn i l) as [|x r] eqn:E; cbn; [reflexivity|].
  assert (Hx : upd l i x = l).
  { rewrite <- (upd_same l i x) at 2. f_equal.
    rewrite <- (firstn_skipn i l), E at 1.
    rewrite app_nth2; rewrite firstn_length.
    - assert (i <= length l).
      { destruct (Nat.le_gt_cases i (length l)); [assumption|].
        rewrite skipn_all2 in E by lia. discriminate. }
      replace (i - min i (length l)) with 0 by lia. reflexivity.
    - lia. }
  rewrite Hx. replace r with (skipn (S i) l); [apply IH|].
  change (S i) with (1 + i). rewrite Nat.add_comm, <- skipn_add, E. reflexivity.
Qed.

Lemma Forall2_len {A B} (R : A -> B -> Prop) l l' : Forall2 R l l' -> length l = length l'.
Proof. induction 1; cbn; auto. Qed.

Section Proofs.
  Context {A : Type}.
  Variable zero : A.
  Variable grow : nat -> nat.

  Variable M : mem (A:=A).
  Variable s : slice.
  Variables m st : nat.
  Hypothesis Hv : valid M s.
  Hypothesis Hst : st < m.
  Hypothesis Hm : m < slen s.
  Let p := m - st.
  Let n := slen s.

  (** The j-th window is the view starting at [off]. *)
  Definition wview (off : nat) : slice :=
    mkS (sarr s) (soff s + off) (min m (n - off)) (scap s - off).

  Lemma hcurrent_part_view i :
    i * p + m < n ->
    hcurrent_part zero grow M (wview (i * p)) (reslice s m n) p i st
    = (M, wview (S i * p)).
  Proof.
    intros Hi. unfold hcurrent_part.
    cbn [wview slen reslice].
    assert (Hmin : min m (n - i * p) = m) by lia. rewrite Hmin.
    replace (m <? st) with false by lia.
    replace (n - m <=? i * p) with false by lia.
    assert (Hp : p <= m) by (unfold p; lia).
    destruct Hv as (V1 & V2 & V3). fold n in V2.
    unfold append. cbn [reslice slen scap soff sarr wview].
    set (fin := if n - m <? (i + 1) * p then n - m else (i + 1) * p).
    assert (Hfin : i * p < fin <= n - m).
    { unfold fin. destruct (n - m <? (i + 1) * p) eqn:E; nia. }
    set (xs := sread M (reslice (reslice s m n) (i * p) fin)).
    assert (Hxs : xs = firstn (fin - i * p) (skipn (soff s + m + i * p) (nth (sarr s) M []))).
    { unfold xs, sread, reslice. cbn. reflexivity. }
    assert (Hlen : length xs = fin - i * p).
    { rewrite Hxs, firstn_length, skipn_length. lia. }
    rewrite Hlen.
    replace (m - (m - st)) with st by lia.
    replace (_ <=? _) with true by lia.
    replace (soff s + i * p + (m - st) + st) with (soff s + m + i * p) by lia.
    rewrite Hxs, store_same, upd_same. f_equal.
    unfold wview. f_equal; unfold p in *; try nia.
    unfold fin in *. destruct (n - m <? (i + 1) * (m - st)) eqn:E; nia.
  Qed.

  Lemma hparts_views fuel i :
    n <= i * p + m + fuel ->
    exists k, hparts zero grow fuel M (wview (i * p)) (reslice s m n) p i st
        = (M, map (fun j => wview (S j * p)) (seq i k))
      /\ n <= (i + k) * p + m /\ (k = 0 \/ (i + k - 1) * p + m < n).
  Proof.
    revert i; induction fuel as [|fuel IH]; intros i Hf; cbn [hparts].
    - exists 0. split; [reflexivity|]. split; [rewrite Nat.add_0_r; lia|now left].
    - destruct (p * i <? slen (reslice s m n)) eqn:E; cbn [reslice slen] in E.
      + assert (Hi : i * p + m < n) by lia.
        rewrite hcurrent_part_view by assumption.
        destruct (IH (S i)) as (k & Hk & Hk1 & Hk2); [unfold p; simpl; nia|].
        replace (i + 1) with (S i) by lia. rewrite Hk.
        exists (S k). split; [reflexivity|].
        split; [replace (i + S k) with (S i + k) by lia; exact Hk1|].
        right. replace (i + S k - 1) with (i + k) by lia.
        destruct Hk2 as [-> | Hk2]; [rewrite Nat.add_0_r; exact Hi|].
        replace (S i + k - 1) with (i + k) in Hk2 by lia. exact Hk2.
      + exists 0. split; [reflexivity|]. split; [rewrite Nat.add_0_r; lia|now left].
  Qed.

  Lemma sread_wview off :
    off <= n -> sread M (wview off) = window off m (sread M s).
  Proof.
    intros Ho. destruct Hv as (V1 & V2 & V3).
    unfold sread, wview, window. cbn [slen soff sarr]. fold n.
    rewrite skipn_firstn_comm, firstn_firstn, skipn_add. reflexivity.
  Qed.

  (** Truncation at slice level does not write to memory, and what the new
      slices show is what the list-level model computes. *)
  Lemma htruncate_views :
    exists k,
      htruncate zero grow M s m st
        = (M, (wview 0, map (fun j => wview (S j * p)) (seq 0 k)))
      /\ 0 < k /\ n <= k * p + m /\ (k - 1) * p + m < n.
  Proof.
    unfold htruncate. cbn [reslice slen].
    destruct (hparts_views (n - m) 0) as (k & Hk & Hk1 & Hk2); [lia|].
    rewrite Nat.mul_0_l in Hk. fold n p.
    assert (E : reslice s 0 m = wview 0).
    { unfold reslice, wview. f_equal; lia. }
    rewrite E, Hk. exists k. split; [reflexivity|].
    assert (0 < k) by (destruct k; [cbn in Hk1; lia|lia]).
    split; [assumption|]. cbn in Hk1, Hk2. split; [assumption|].
    destruct Hk2; [lia|assumption].
  Qed.

  Lemma htruncate_refines :
    exists k main ws,
      htruncate zero grow M s m st = (M, (main, ws))
      /\ sread M main = firstn m (sread M s)
      /\ map (sread M) ws = map (fun j => window (S j * p) m (sread M s)) (seq 0 k)
      /\ 0 < k /\ n <= k * p + m /\ (k - 1) * p + m < n.
  Proof.
    destruct htruncate_views as (k & Hk & H0 & H1 & H2).
    exists k, (wview 0), (map (fun j => wview (S j * p)) (seq 0 k)).
    split; [exact Hk|]. split; [rewrite sread_wview by lia; reflexivity|].
    split; [|tauto].
    rewrite map_map. apply map_ext_in. intros j Hj. apply in_seq in Hj.
    apply sread_wview.
    destruct k as [|k]; [lia|]. replace (S k - 1) with k in H2 by lia.
    assert (j <= k) by lia. unfold p in *. nia.
  Qed.
End Proofs.

(** ** Padding *)
Section Pad.
  Context {A : Type}.
  Variable zero : A.
  Variable grow : nat -> nat.
  Variable padv : A.
  Let mem := SliceModel.mem (A:=A).

  Definition cell (M : mem) (a i : nat) (d : A) : A := nth i (nth a M []) d.

  Lemma sread_length (M : mem) w : valid M w -> length (sread M w) = slen w.
  Proof using Type.
    clear zero grow padv.
    intros (V1 & V2 & V3). unfold sread. rewrite firstn_length, skipn_length. lia.
  Qed.

  (** One append of the pad value: what changes. *)
  Lemma append1_spec (M : mem) w M1 w1 :
    valid M w -> append zero grow M w [padv] = (M1, w1) ->
    valid M1 w1 /\ slen w1 = S (slen w) /\ length M <= length M1 /\
    sread M1 w1 = sread M w ++ [padv] /\
    ( (w1 = mkS (sarr w) (soff w) (S (slen w)) (scap w) /\ slen w < scap w /\
       M1 = upd M (sarr w) (upd (nth (sarr w) M []) (soff w + slen w) padv))
      \/ (sarr w1 = length M /\ slen w = scap w /\ soff w1 = 0 /\
          exists x, M1 = M ++ [x]) ).
  Proof.
    intros (V1 & V2 & V3) H. unfold append in H. cbn [length] in H.
    destruct (slen w + 1 <=? scap w) eqn:E.
    - injection H as <- <-. cbn [store].
      assert (Hr : nth (sarr w) (upd M (sarr w) (upd (nth (sarr w) M []) (soff w + slen w) padv)) []
                   = upd (nth (sarr w) M []) (soff w + slen w) padv).
      { rewrite nth_upd, Nat.eqb_refl.
        now replace (sarr w <? length M) with true by lia. }
      replace (slen w + 1) with (S (slen w)) by lia.
      repeat split; cbn [sarr slen scap soff].
      + now rewrite upd_length.
      + lia.
      + rewrite Hr, upd_length. lia.
      + rewrite upd_length. lia.
      + unfold sread. cbn [sarr slen scap soff]. rewrite Hr.
        set (l := nth (sarr w) M []) in *. clearbody l.
        apply (nth_ext _ _ padv padv).
        * rewrite app_length, !firstn_length, !skipn_length, upd_length. cbn [length]. lia.
        * intros i Hi. rewrite firstn_length, skipn_length, upd_length in Hi.
          pose proof (window_nth (soff w) (S (slen w)) (upd l (soff w + slen w) padv) i padv) as W.
          unfold window in W. rewrite W by lia. rewrite nth_upd.
          replace (soff w + slen w <? length l) with true by lia. rewrite andb_true_r.
          destruct (Nat.eq_dec i (slen w)) as [->|Hne].
          -- rewrite Nat.eqb_refl, app_nth2; rewrite firstn_length, skipn_length; [|lia].
             replace (slen w - min (slen w) (length l - soff w)) with 0 by lia. reflexivity.
          -- replace (soff w + i =? soff w + slen w) with false by lia.
             rewrite app_nth1 by (rewrite firstn_length, skipn_length; lia).
             pose proof (window_nth (soff w) (slen w) l i padv) as W2.
             unfold window in W2. rewrite W2 by lia. reflexivity.
      + left. repeat split; lia.
    - injection H as <- <-.
      assert (Hr : nth (length M) (M ++ [sread M w ++ padv :: repeat zero (grow (slen w + 1))]) []
                   = sread M w ++ padv :: repeat zero (grow (slen w + 1))).
      { rewrite app_nth2 by lia. now rewrite Nat.sub_diag. }
      assert (Hl : length (sread M w) = slen w) by (now apply sread_length).
      repeat split; cbn [sarr slen scap soff].
      + rewrite app_length. cbn. lia.
      + lia.
      + rewrite Hr, !app_length. cbn [length]. rewrite repeat_length. lia.
      + lia.
      + rewrite app_length. cbn. lia.
      + unfold sread at 1. cbn [sarr slen scap soff]. rewrite Hr. cbn [skipn].
        change (padv :: repeat zero (grow (slen w + 1))) with ([padv] ++ repeat zero (grow (slen w + 1))).
        rewrite app_assoc, firstn_app, app_length, Hl. cbn [length].
        replace (slen w + 1 - (slen w + 1)) with 0 by lia. cbn [firstn]. rewrite app_nil_r.
        apply firstn_all2. rewrite app_length, Hl. cbn. lia.
      + right. repeat split; try lia. eauto.
  Qed.

  (** Cells below position [b] of array [a] and all other old arrays are kept by
      appends to slices whose end is at or beyond [b] (or that live elsewhere). *)
  Definition same_below (a b : nat) (M M1 : mem) : Prop :=
    length M <= length M1 /\
    length (nth a M1 []) = length (nth a M []) /\
    forall i d, i < b -> nth i (nth a M1 []) d = nth i (nth a M []) d.

  Lemma same_below_refl a b M : same_below a b M M.
  Proof. repeat split; auto. Qed.

  Lemma same_below_trans a b M1 M2 M3 :
    same_below a b M1 M2 -> same_below a b M2 M3 -> same_below a b M1 M3.
  Proof.
    intros (L1 & E1 & C1) (L2 & E2 & C2). split; [lia|]. split; [congruence|].
    intros i d Hi. now rewrite C2, C1.
  Qed.

  Lemma append1_same_below (M : mem) w M1 w1 a b :
    valid M w -> a < length M -> append zero grow M w [padv] = (M1, w1) ->
    (sarr w <> a \/ b <= soff w + slen w) ->
    same_below a b M M1 /\ (sarr w1 <> a \/ b <= soff w1 + slen w1).
  Proof.
    intros Hv Ha H Hb. destruct (append1_spec M w M1 w1 Hv H)
      as (_ & Hs & HL & _ & [(-> & Hc & ->)|(Hx & Hc & Ho & x & ->)]).
    - split.
      + split; [exact HL|]. split.
        * rewrite nth_upd. destruct (a =? sarr w) eqn:E; cbn [andb]; [|reflexivity].
          assert (a = sarr w) by lia. subst a.
          replace (sarr w <? length M) with true by lia. now rewrite upd_length.
        * intros i d Hi. rewrite nth_upd. destruct (a =? sarr w) eqn:E; cbn [andb]; [|reflexivity].
          assert (a = sarr w) by lia. subst a.
          replace (sarr w <? length M) with true by lia. rewrite nth_upd.
          replace (i =? soff w + slen w) with false; [reflexivity|]. destruct Hb; [congruence|lia].
      + cbn. destruct Hb; [now left|right; lia].
    - split.
      + split; [exact HL|]. rewrite app_nth1 by assumption. split; auto.
      + left. rewrite Hx. lia.
  Qed.

  Lemma happend_pads_spec c : forall (M : mem) w M1 w1 a b,
    valid M w -> a < length M -> happend_pads zero grow c M w padv = (M1, w1) ->
    (sarr w <> a \/ b <= soff w + slen w) ->
    valid M1 w1 /\ slen w1 = slen w + c /\
    sread M1 w1 = sread M w ++ repeat padv c /\ same_below a b M M1.
  Proof.
    induction c as [|c IH]; intros M w M1 w1 a b Hv Ha H Hb; cbn [happend_pads] in H.
    - injection H as <- <-. rewrite app_nil_r. repeat split; auto; apply Hv || lia.
    - destruct (append zero grow M w [padv]) as [M2 w2] eqn:E.
      destruct (append1_spec M w M2 w2 Hv E) as (Hv2 & Hs2 & HL2 & Hr2 & _).
      destruct (append1_same_below M w M2 w2 a b Hv Ha E Hb) as [Hsb Hb2].
      destruct (IH M2 w2 M1 w1 a b Hv2 ltac:(lia) H Hb2) as (Hv1 & Hs1 & Hr1 & Hsb1).
      split; [exact Hv1|]. split; [lia|]. split.
      + rewrite Hr1, Hr2, <- app_assoc. reflexivity.
      + eapply same_below_trans; eauto.
  Qed.

  (** Every slice confined to cells below [b] of array [a] still shows the same. *)
  Lemma same_below_sread a b (M M1 : mem) w :
    same_below a b M M1 -> sarr w = a -> soff w + slen w <= b -> valid M w ->
    valid M1 w /\ sread M1 w = sread M w.
  Proof using Type.
    clear zero grow padv.
    intros (L & E & C) Hw Hb (V1 & V2 & V3). subst a. split.
    - repeat split; [lia|assumption|lia].
    - unfold sread. destruct (nth (sarr w) M []) as [|x l] eqn:EM.
      + cbn in E. destruct (nth (sarr w) M1 []); [reflexivity|discriminate].
      + apply (nth_ext _ _ x x).
        * rewrite !firstn_length, !skipn_length. lia.
        * intros i Hi. rewrite firstn_length, skipn_length in Hi.
          pose proof (window_nth (soff w) (slen w) (nth (sarr w) M1 []) i x) as W1.
          pose proof (window_nth (soff w) (slen w) (x :: l) i x) as W2.
          unfold window in W1, W2. rewrite W1, W2 by lia. apply C. lia.
  Qed.

  (** When no window but the last one is shorter than the target, padding the
      windows writes only behind the end [b] of the shared array's used part. *)
  Lemma hpad_list_spec a b t : forall ws (M : mem) M1 ws1,
    a < length M ->
    (forall w, In w ws -> valid M w /\ sarr w = a /\ soff w + slen w <= b /\
                          (slen w < t -> soff w + slen w = b)) ->
    (* once a short window was padded, later windows must be long enough *)
    hpad_list zero grow M ws t padv = (M1, ws1) ->
    same_below a b M M1 /\
    Forall2 (fun w w1 => valid M1 w1 /\ (t <= slen w -> w1 = w)) ws ws1 /\
    (forall i w w1, nth_error ws i = Some w -> nth_error ws1 i = Some w1 ->
       (forall j w', i < j -> nth_error ws j = Some w' -> t <= slen w') ->
       sread M1 w1 = sread M w ++ repeat padv (t - slen w)).
  Proof.
    induction ws as [|w ws IH]; intros M M1 ws1 Ha Hws H; cbn [hpad_list] in H.
    - injection H as <- <-. split; [apply same_below_refl|]. split; [constructor|].
      intros [|i] ? ?; discriminate.
    - destruct (hpad1 zero grow M w t padv) as [M2 w2] eqn:E2.
      destruct (hpad_list zero grow M2 ws t padv) as [M3 ws3] eqn:E3. injection H as <- <-.
      destruct (Hws w (or_introl eq_refl)) as (Hv & Hwa & Hwb & Hshort).
      unfold hpad1 in E2.
      assert (P : valid M2 w2 /\ slen w2 = slen w + (t - slen w) /\
          sread M2 w2 = sread M w ++ repeat padv (t - slen w) /\ same_below a b M M2).
      { destruct (Nat.lt_ge_cases (slen w) t) as [Hlt|Hge].
        - eapply happend_pads_spec; eauto. right. rewrite Hshort by assumption. lia.
        - replace (t - slen w) with 0 in * by lia. cbn in E2. injection E2 as <- <-.
          cbn. rewrite app_nil_r. split; [exact Hv|]. split; [lia|]. split; [reflexivity|].
          apply same_below_refl. }
      destruct P as (Hv2 & Hl2 & Hr2 & Hsb2).
      destruct (IH M2 M3 ws3) as (Hsb3 & HF3 & HR3).
      + destruct Hsb2; lia.
      + intros w' Hw'. destruct (Hws w' (or_intror Hw')) as (Hv' & Ha' & Hb' & Hs').
        destruct (same_below_sread a b M M2 w' Hsb2 Ha' Hb' Hv') as [Hv2' _]. auto.
      + exact E3.
      + split; [eapply same_below_trans; eauto|].
        (* relating w2 in M2 and M3 *)
        assert (Hkeep : (forall j w', nth_error ws j = Some w' -> t <= slen w') ->
                        M3 = M2).
        { clear -E3. intros Hlong. revert M2 M3 ws3 E3.
          induction ws as [|w' ws IHw]; intros M2 M3 ws3 E3; cbn in E3.
          - now injection E3 as <- <-.
          - unfold hpad1 in E3. pose proof (Hlong 0 w' eq_refl) as L.
            replace (t - slen w') with 0 in E3 by lia. cbn in E3.
            destruct (hpad_list zero grow M2 ws t padv) as [M4 ws4] eqn:E4.
            injection E3 as <- <-. eapply IHw; [|exact E4].
            intros j w'' Hj. apply (Hlong (S j)). exact Hj. }
        split.
        * constructor; [|exact HF3]. split.
          -- destruct Hv2 as (U1 & U2 & U3). destruct Hsb3 as (L3 & E3' & C3).
             (* validity only needs array lengths, which never shrink *)
             assert (Hlen : forall x, x < length M2 ->
                       length (nth x M3 []) = length (nth x M2 [])).
             { intros x Hx. clear -E3 Hx Hws Hsb2 Ha.
               revert M2 M3 ws3 E3 Hx Hsb2.
               induction ws as [|w' ws IHw]; intros M2 M3 ws3 E3 Hx Hsb2; cbn in E3.
               - now injection E3 as <- <-.
               - destruct (hpad1 zero grow M2 w' t padv) as [M4 w4] eqn:E4.
                 destruct (hpad_list zero grow M4 ws t padv) as [M5 ws5] eqn:E5.
                 injection E3 as <- <-. unfold hpad1 in E4.
                 destruct (Hws w' (or_intror (or_introl eq_refl))) as (Hv' & Ha' & Hb' & Hs').
                 destruct (same_below_sread a b M M2 w' Hsb2 Ha' Hb' Hv') as [Hv2' _].
                 destruct (Nat.lt_ge_cases (slen w') t) as [Hlt|Hge].
                 + destruct (happend_pads_spec _ M2 w' M4 w4 x 0 Hv2' Hx E4) as (_ & _ & _ & L4 & E4' & _);
                     [right; lia|].
                   destruct (happend_pads_spec _ M2 w' M4 w4 a b Hv2' ltac:(destruct Hsb2; lia) E4)
                     as (_ & _ & _ & Hsb4); [right; rewrite Hs' by lia; lia|].
                   rewrite (IHw ltac:(intros q [<-|Hq]; apply Hws; cbn; auto) M4 M5 ws5 E5);
                     [exact E4'|lia|eapply same_below_trans; eauto].
                 + replace (t - slen w') with 0 in E4 by lia. cbn in E4. injection E4 as <- <-.
                   apply (IHw ltac:(intros q [<-|Hq]; apply Hws; cbn; auto) M2 M5 ws5 E5 Hx Hsb2). }
             repeat split; [lia|assumption|]. rewrite Hlen by assumption. assumption.
          -- intros Ht. replace (t - slen w) with 0 in E2 by lia. cbn in E2. now injection E2 as <- <-.
        * intros [|i] w0 w1 H0 H1 Hlater; cbn in H0, H1.
          -- injection H0 as <-. injection H1 as <-.
             rewrite Hkeep; [exact Hr2|]. intros j w' Hj. apply (Hlater (S j)); [lia|exact Hj].
          -- assert (In w0 ws) by (eapply nth_error_In; eauto).
             destruct (Hws w0 (or_intror H)) as (Hv' & Ha' & Hb' & _).
             destruct (same_below_sread a b M M2 w0 Hsb2 Ha' Hb' Hv') as [_ Hrd].
             rewrite (HR3 i w0 w1 H0 H1); [now rewrite Hrd|].
             intros j w' Hj Hn. apply (Hlater (S j)); [lia|exact Hn].
  Qed.
End Pad.

(** ** Truncate, then pad *)
Section TruncatePad.
  Context {A : Type}.
  Variable zero : A.
  Variable grow : nat -> nat.
  Variable padv : A.

  (** A cell that holds the pad value keeps it under every append of pad values. *)
  Definition padded (M : mem (A:=A)) (a i : nat) : Prop :=
    a < length M /\ i < length (nth a M []) /\ forall d, nth i (nth a M []) d = padv.

  Lemma append1_padded (M : mem) w M1 w1 a i :
    valid M w -> append zero grow M w [padv] = (M1, w1) -> padded M a i -> padded M1 a i.
  Proof.
    intros Hv H (P1 & P2 & P3).
    destruct (append1_spec zero grow padv M w M1 w1 Hv H)
      as (_ & _ & HL & _ & [(_ & _ & ->)|(_ & _ & _ & x & ->)]).
    - split; [lia|].
      destruct (Nat.eq_dec a (sarr w)) as [->|Hne].
      + assert (E : nth (sarr w) (upd M (sarr w) (upd (nth (sarr w) M []) (soff w + slen w) padv)) []
                   = upd (nth (sarr w) M []) (soff w + slen w) padv).
        { rewrite nth_upd, Nat.eqb_refl. now replace (sarr w <? length M) with true by lia. }
        rewrite E, upd_length. split; [assumption|]. intros d. rewrite nth_upd.
        destruct ((i =? soff w + slen w) && _); [reflexivity|apply P3].
      + assert (E : nth a (upd M (sarr w) (upd (nth (sarr w) M []) (soff w + slen w) padv)) []
                   = nth a M []).
        { rewrite nth_upd. now replace (a =? sarr w) with false by lia. }
        rewrite E. split; [assumption|exact P3].
    - split; [lia|]. rewrite app_nth1 by assumption. split; [assumption|exact P3].
  Qed.

  Lemma append1_len (M : mem) w M1 w1 a :
    valid M w -> append zero grow M w [padv] = (M1, w1) -> a < length M ->
    a < length M1 /\ length (nth a M1 []) = length (nth a M []).
  Proof.
    intros Hv H Ha.
    destruct (append1_same_below zero grow padv M w M1 w1 a 0 Hv Ha H) as [(L & E & _) _]; [right; lia|].
    split; [lia|exact E].
  Qed.

  Lemma happend_padded c : forall (M : mem) w M1 w1 a i,
    valid M w -> happend_pads zero grow c M w padv = (M1, w1) -> padded M a i -> padded M1 a i.
  Proof.
    induction c as [|c IH]; intros M w M1 w1 a i Hv H HP; cbn in H.
    - now injection H as <- <-.
    - destruct (append zero grow M w [padv]) as [M2 w2] eqn:E.
      destruct (append1_spec zero grow padv M w M2 w2 Hv E) as (Hv2 & _).
      exact (IH _ _ _ _ _ _ Hv2 H (append1_padded _ _ _ _ _ _ Hv E HP)).
  Qed.

  Lemma happend_len c : forall (M : mem) w M1 w1 a,
    valid M w -> happend_pads zero grow c M w padv = (M1, w1) -> a < length M ->
    a < length M1 /\ length (nth a M1 []) = length (nth a M []).
  Proof.
    induction c as [|c IH]; intros M w M1 w1 a Hv H Ha; cbn in H.
    - now injection H as <- <-.
    - destruct (append zero grow M w [padv]) as [M2 w2] eqn:E.
      destruct (append1_spec zero grow padv M w M2 w2 Hv E) as (Hv2 & _).
      destruct (append1_len M w M2 w2 a Hv E Ha) as [L2 E2].
      destruct (IH M2 w2 M1 w1 a Hv2 H L2) as [L1 E1]. split; [lia|congruence].
  Qed.

  Lemma valid_mono (M M1 : mem (A:=A)) w :
    valid M w -> (forall a, a < length M -> a < length M1 /\
       length (nth a M1 (@nil A)) = length (nth a M [])) -> valid M1 w.
  Proof.
    intros (V1 & V2 & V3) H. destruct (H _ V1) as [L E]. repeat split; [lia|assumption|lia].
  Qed.

  Lemma hpad_list_padded t : forall ws (M : mem) M1 ws1 a i,
    (forall w, In w ws -> valid M w) ->
    hpad_list zero grow M ws t padv = (M1, ws1) -> padded M a i -> padded M1 a i.
  Proof.
    induction ws as [|w ws IH]; intros M M1 ws1 a i Hws H HP; cbn in H.
    - now injection H as <- <-.
    - destruct (hpad1 zero grow M w t padv) as [M2 w2] eqn:E2.
      destruct (hpad_list zero grow M2 ws t padv) as [M3 ws3] eqn:E3. injection H as <- <-.
      pose proof (Hws w (or_introl eq_refl)) as Hv.
      eapply IH; [|exact E3|].
      + intros w' Hw'. eapply valid_mono; [apply Hws; now right|].
        intros a' Ha'. eapply happend_len; [exact Hv|exact E2|exact Ha'].
      + eapply happend_padded; [exact Hv|exact E2|exact HP].
  Qed.

  Lemma hpad_list_len t : forall ws (M : mem) M1 ws1 a,
    (forall w, In w ws -> valid M w) ->
    hpad_list zero grow M ws t padv = (M1, ws1) -> a < length M ->
    a < length M1 /\ length (nth a M1 []) = length (nth a M []).
  Proof.
    induction ws as [|w ws IH]; intros M M1 ws1 a Hws H Ha; cbn in H.
    - now injection H as <- <-.
    - destruct (hpad1 zero grow M w t padv) as [M2 w2] eqn:E2.
      destruct (hpad_list zero grow M2 ws t padv) as [M3 ws3] eqn:E3. injection H as <- <-.
      pose proof (Hws w (or_introl eq_refl)) as Hv.
      destruct (happend_len _ M w M2 w2 a Hv E2 Ha) as [L2 Q2].
      destruct (IH M2 M3 ws3 a) as [L3 Q3]; auto.
      + intros w' Hw'. eapply valid_mono; [apply Hws; now right|].
        intros a' Ha'. eapply happend_len; [exact Hv|exact E2|exact Ha'].
      + split; [lia|congruence].
  Qed.

  Lemma valid_wview (M : mem (A:=A)) s m off :
    valid M s -> off <= slen s -> valid M (wview s m off).
  Proof.
    intros (V1 & V2 & V3) Ho. unfold valid, wview; cbn [sarr slen scap soff].
    split; [assumption|]. split; lia.
  Qed.

  Variable M : mem (A:=A).
  Variable s : slice.
  Variables m st t : nat.
  Hypothesis Hv : valid M s.
  Hypothesis Hst : st < m.
  Hypothesis Hm : m < slen s.

  (** Target not above the truncation length: padding behaves as on values. *)
  Lemma truncate_pad_small :
    t <= m ->
    exists M1 main ws main' ws',
      htruncate zero grow M s m st = (M, (main, ws)) /\
      hpad zero grow M main ws t padv = (M1, (main', ws')) /\
      sread M1 main' = sread M main /\
      map (sread M1) ws' = map (fun w => w ++ repeat padv (t - length w)) (map (sread M) ws).
  Proof.
    intros Ht.
    destruct (htruncate_views zero grow M s m st Hv Hst Hm) as (k & Hk & H0 & H1 & H2).
    set (p := m - st) in *.
    assert (Hlast : forall j, j < k -> S j * p <= slen s).
    { intros j Hj. destruct k as [|k]; [lia|]. replace (S k - 1) with k in H2 by lia.
      assert (j <= k) by lia. unfold p in *. nia. }
    assert (Hfull : forall j, j < k - 1 -> S j * p + m < slen s).
    { intros j Hj. nia. }
    set (ws := map (fun j => wview s m (S j * p)) (seq 0 k)).
    destruct (hpad_list zero grow M ws t padv) as [M1 ws1] eqn:E.
    assert (Hws : forall w, In w ws -> valid M w /\ sarr w = sarr s /\
              soff w + slen w <= soff s + slen s /\
              (slen w < t -> soff w + slen w = soff s + slen s)).
    { intros w Hw. apply in_map_iff in Hw as (j & <- & Hj). apply in_seq in Hj.
      specialize (Hlast j ltac:(lia)).
      split; [now apply valid_wview|]. unfold wview; cbn [sarr slen scap soff].
      split; [reflexivity|]. split; [lia|]. intros Hlt. lia. }
    assert (Ha : sarr s < length M) by (destruct Hv; lia).
    destruct (hpad_list_spec zero grow padv (sarr s) (soff s + slen s) t ws M M1 ws1 Ha Hws E)
      as (Hsb & HF & HR).
    exists M1, (wview s m 0), ws, (wview s m 0), ws1.
    split; [exact Hk|].
    assert (Hmain : slen (wview s m 0) = m) by (unfold wview; cbn [slen]; lia).
    split.
    { unfold hpad. rewrite E, Hmain. now replace (t <=? m) with true by lia. }
    split.
    { apply (same_below_sread (sarr s) (soff s + slen s) M M1); [exact Hsb|reflexivity| |].
      - unfold wview; cbn [soff slen]. lia.
      - apply valid_wview; [exact Hv|lia]. }
    assert (Hlen : length ws1 = length ws) by (symmetry; exact (Forall2_len _ _ _ HF)).
    assert (Hwlen : length ws = k) by (unfold ws; rewrite map_length, seq_length; reflexivity).
    rewrite map_map.
    apply (nth_ext _ _ [] []); rewrite !map_length; [exact Hlen|].
    intros i Hi.
    destruct (nth_error ws i) as [w|] eqn:Ew; [|apply nth_error_None in Ew; lia].
    destruct (nth_error ws1 i) as [w1|] eqn:Ew1; [|apply nth_error_None in Ew1; lia].
    assert (L : nth i (map (sread M1) ws1) [] = sread M1 w1).
    { apply nth_error_nth. rewrite nth_error_map, Ew1. reflexivity. }
    assert (R : nth i (map (fun x => sread M x ++ repeat padv (t - length (sread M x))) ws) []
                = sread M w ++ repeat padv (t - length (sread M w))).
    { apply (nth_error_nth (map (fun x => sread M x ++ repeat padv (t - length (sread M x))) ws)).
      rewrite nth_error_map, Ew. reflexivity. }
    rewrite L, R.
    assert (Hin : In w ws) by (eapply nth_error_In; eauto).
    destruct (Hws w Hin) as (Hvw & Haw & Hbw & _).
    rewrite sread_length by exact Hvw.
    assert (Ewi : w = wview s m (S i * p)).
    { unfold ws in Ew. rewrite nth_error_map in Ew.
      rewrite (nth_error_nth' _ 0) in Ew by (rewrite seq_length; lia).
      rewrite seq_nth in Ew by lia. cbn in Ew. now injection Ew as <-. }
    destruct (Nat.eq_dec i (k - 1)) as [Hik|Hik].
    - apply (HR i); auto. intros j w' Hj Hw'. exfalso.
      assert (j < length ws) by (apply nth_error_Some; congruence). lia.
    - assert (Hsl : slen w = m).
      { rewrite Ewi. unfold wview; cbn [slen]. specialize (Hfull i ltac:(lia)). lia. }
      assert (Hw1 : w1 = w).
      { assert (P : valid M1 w1 /\ (t <= slen w -> w1 = w)).
        { clear -HF Ew Ew1. revert i Ew Ew1. induction HF as [|x y l l' Hxy _ IH]; intros [|i] Ew Ew1; cbn in *; try discriminate.
          - injection Ew as <-. injection Ew1 as <-. exact Hxy.
          - eauto. }
        apply P. lia. }
      subst w1. replace (t - slen w) with 0 by lia. cbn. rewrite app_nil_r.
      apply (same_below_sread (sarr s) (soff s + slen s) M M1); auto.
  Qed.

  (** Target above the truncation length and at least two windows: the second
      window shows a pad value where it showed an original token. *)
  Lemma truncate_pad_corrupts :
    m < t -> (m - st) + m < slen s ->
    exists M1 main ws main' ws' w w',
      htruncate zero grow M s m st = (M, (main, ws)) /\
      hpad zero grow M main ws t padv = (M1, (main', ws')) /\
      nth_error ws 1 = Some w /\ nth_error ws' 1 = Some w' /\
      st < length (sread M w) /\
      (forall d, nth st (sread M w) d = nth ((m - st) + m) (sread M s) d) /\
      (forall d, nth st (sread M1 w') d = padv).
  Proof.
    intros Ht H2w.
    destruct (htruncate_views zero grow M s m st Hv Hst Hm) as (k & Hk & H0 & H1 & H2).
    set (p := m - st) in *.
    assert (Hk2 : 2 <= k).
    { destruct k as [|[|k]]; [lia| |lia]. simpl in H1. lia. }
    assert (Hlast : forall j, j < k -> S j * p <= slen s).
    { intros j Hj. destruct k as [|k']; [lia|]. replace (S k' - 1) with k' in H2 by lia.
      assert (j <= k') by lia. unfold p in *. nia. }
    set (w0 := wview s m p). set (w1 := wview s m (2 * p)).
    set (rest := map (fun j => wview s m (S j * p)) (seq 2 (k - 2))).
    assert (Ews : map (fun j => wview s m (S j * p)) (seq 0 k) = w0 :: w1 :: rest).
    { destruct k as [|[|k]]; [lia|lia|]. unfold w0, w1, rest.
      replace (S (S k) - 2) with k by lia. cbn [seq map].
      replace (1 * p) with p by lia. reflexivity. }
    rewrite Ews in Hk.
    assert (Hvr : forall w, In w rest -> valid M w).
    { intros w Hw. apply in_map_iff in Hw as (j & <- & Hj). apply in_seq in Hj.
      apply valid_wview; [exact Hv|]. apply Hlast. lia. }
    assert (Hv0 : valid M w0) by (apply valid_wview; [exact Hv|lia]).
    assert (Hv1 : valid M w1) by (apply valid_wview; [exact Hv|apply (Hlast 1); lia]).
    assert (Hs0 : slen w0 = m) by (unfold w0, wview; cbn [slen]; lia).
    assert (Ha : sarr s < length M) by (destruct Hv; lia).
    destruct Hv as (V1 & V2 & V3).
    (* window 0 *)
    destruct (hpad1 zero grow M w0 t padv) as [M2 w0'] eqn:E0.
    assert (HP : padded M2 (sarr s) (soff s + p + m)).
    { unfold hpad1 in E0. rewrite Hs0 in E0. destruct (t - m) as [|c] eqn:Etm; [lia|].
      cbn [happend_pads] in E0. destruct (append zero grow M w0 [padv]) as [M3 w3] eqn:E3.
      destruct (append1_spec zero grow padv M w0 M3 w3 Hv0 E3)
        as (Hv3 & _ & _ & _ & [(Ew3 & Hc & EM3)|(_ & Hc & _)]).
      - eapply happend_padded; [exact Hv3|exact E0|].
        rewrite EM3. rewrite Hs0. unfold w0, wview; cbn [sarr soff].
        split; [rewrite upd_length; exact Ha|].
        assert (E : nth (sarr s) (upd M (sarr s) (upd (nth (sarr s) M []) (soff s + p + m) padv)) []
                   = upd (nth (sarr s) M []) (soff s + p + m) padv).
        { rewrite nth_upd, Nat.eqb_refl. now replace (sarr s <? length M) with true by lia. }
        rewrite E, upd_length. split; [lia|]. intros d. rewrite nth_upd, Nat.eqb_refl.
        now replace (soff s + p + m <? length (nth (sarr s) M [])) with true by lia.
      - exfalso. rewrite Hs0 in Hc. unfold w0, wview in Hc; cbn [scap] in Hc. lia. }
    assert (Hmono0 : forall a, a < length M -> a < length M2 /\ length (nth a M2 []) = length (nth a M [])).
    { intros a Ha'. eapply happend_len; [exact Hv0|exact E0|exact Ha']. }
    (* window 1 *)
    destruct (hpad1 zero grow M2 w1 t padv) as [M3 w1'] eqn:E1.
    assert (Hv1' : valid M2 w1) by (eapply valid_mono; [exact Hv1|exact Hmono0]).
    destruct (Hmono0 _ Ha) as [Ha2 _].
    destruct (happend_pads_spec zero grow padv _ M2 w1 M3 w1' (sarr s) 0 Hv1' Ha2 E1)
      as (Hv3 & Hl3 & Hr3 & _); [right; lia|].
    assert (Hs1 : st < slen w1).
    { unfold w1, wview; cbn [slen]. unfold p in *. lia. }
    assert (Hrd : forall d, nth st (sread M2 w1) d = padv).
    { intros d. unfold sread.
      pose proof (window_nth (soff w1) (slen w1) (nth (sarr w1) M2 []) st d Hs1) as W.
      unfold window in W. rewrite W. unfold w1, wview; cbn [soff sarr].
      replace (soff s + 2 * p + st) with (soff s + p + m) by (unfold p; lia).
      apply HP. }
    assert (HP3 : padded M3 (sarr w1') (soff w1' + st)).
    { destruct Hv3 as (U1 & U2 & U3). split; [exact U1|]. split; [lia|]. intros d.
      pose proof (window_nth (soff w1') (slen w1') (nth (sarr w1') M3 []) st d ltac:(lia)) as W.
      unfold window in W. rewrite <- W. fold (sread M3 w1'). rewrite Hr3.
      rewrite app_nth1; [apply Hrd|]. rewrite sread_length by exact Hv1'. exact Hs1. }
    assert (Hmono1 : forall a, a < length M2 -> a < length M3 /\ length (nth a M3 []) = length (nth a M2 [])).
    { intros a Ha'. eapply happend_len; [exact Hv1'|exact E1|exact Ha']. }
    (* remaining windows *)
    destruct (hpad_list zero grow M3 rest t padv) as [M4 rest'] eqn:E4.
    assert (Hvr3 : forall w, In w rest -> valid M3 w).
    { intros w Hw. eapply valid_mono; [eapply valid_mono; [apply Hvr; exact Hw|exact Hmono0]|exact Hmono1]. }
    pose proof (hpad_list_padded t rest M3 M4 rest' _ _ Hvr3 E4 HP3) as HP4.
    (* main part *)
    assert (Hvm : valid M (wview s m 0)) by (apply valid_wview; [repeat split; assumption|lia]).
    assert (Hvm4 : valid M4 (wview s m 0)).
    { eapply valid_mono; [eapply valid_mono; [eapply valid_mono; [exact Hvm|exact Hmono0]|exact Hmono1]|].
      intros a Ha'. eapply hpad_list_len; [exact Hvr3|exact E4|exact Ha']. }
    destruct (hpad1 zero grow M4 (wview s m 0) t padv) as [M5 main'] eqn:E5.
    pose proof (happend_padded _ M4 _ M5 main' _ _ Hvm4 E5 HP4) as HP5.
    exists M5, (wview s m 0), (w0 :: w1 :: rest), main', (w0' :: w1' :: rest'), w1, w1'.
    split; [exact Hk|]. split.
    { unfold hpad. cbn [hpad_list]. rewrite E0, E1, E4.
      assert (slen (wview s m 0) = m) as -> by (unfold wview; cbn [slen]; lia).
      replace (t <=? m) with false by lia. now rewrite E5. }
    split; [reflexivity|]. split; [reflexivity|].
    split; [rewrite sread_length by exact Hv1; exact Hs1|]. split.
    { intros d. unfold w1. rewrite (sread_wview M s m (conj V1 (conj V2 V3))) by (pose proof (Hlast 1); lia).
      rewrite window_nth by lia. f_equal. unfold p. lia. }
    intros d. destruct HP5 as (_ & _ & HP5).
    pose proof (window_nth (soff w1') (slen w1') (nth (sarr w1') M5 []) st d ltac:(lia)) as W.
    unfold window in W. unfold sread. rewrite W. apply HP5.
  Qed.
End TruncatePad.
